(** Meshes for which the preconditioner is not prepared, and a mesh for which it is wrong. *)
From Coq Require Import Reals.
From Coquelicot Require Import Complex.
From Coq Require Import List Arith Bool Lia Lra.
From Verif Require Import Model_Base Model_Ring Spec_Ring Proofs_Ring Model_Block Spec_Block Proofs_Block2 Proofs_Block4
  Model_LinSolve Spec_LinSolve Proofs_LinSolve2 Model_Mesh Proofs_Mesh Model_Engine Proofs_Engine4 Proofs_Engine7 Model_Tree Spec_Tree
  Model_Precond Spec_Precond Proofs_Precond2 Proofs_Precond4.
From Verif Require Proofs_Points.
Import ListNotations.
Open Scope nat_scope.

Lemma paths_of_parts k ms : path_to_leaf (Node k (map Leaf ms)) = map (fun i => [i]) (seq 0 (length ms)).
Proof.
  cbn. unfold mapi. generalize 0. induction ms as [|m ms IH]; intros s; [reflexivity|]. cbn. f_equal. apply IH.
Qed.

Section Refused.
Context {A : coeffs}.
Notation vec := (nat -> K A).
Notation entries := (nat -> nat -> K A).
Variable lu : Type.
Variable lu_factor : nat -> nat -> entries -> option lu.

Lemma single_refused m h w f : prepare (A := A) lu lu_factor (path_to_leaf (Leaf m)) (Dense h w f) = Err AttributeError.
Proof. reflexivity. Qed.

Lemma nsum_three n hs : 3 <= n -> nsum n hs = hs 0 + hs 1 + hs 2 + nsum (n - 3) (fun i => hs (3 + i)).
Proof.
  intros H. replace n with (3 + (n - 3)) at 1 by lia. generalize (n - 3). intros q. induction q as [|q IH]; [cbn; lia|].
  replace (3 + S q) with (S (3 + q)) by lia. cbn [nsum]. rewrite IH. cbn [nsum]. cbn [Nat.add]. lia.
Qed.
Lemma three_refused k ms hs ws (bl : nat -> nat -> mat A) F :
  let n := length ms in let K := Blk Model_Block.Plain n n hs ws bl in
  3 <= n -> wf K -> represents K F -> 2 <= hs 0 -> 0 < hs 2 -> (forall i, i < n -> ws i = hs i) ->
  (forall i, i < n -> exists f, bl i i = Dense (hs i) (hs i) f) ->
  prepare lu lu_factor (path_to_leaf (Node k (map Leaf ms))) K = Err ValueError.
Proof.
  intros n K Hn W R H0 H2 Hsq Hl. rewrite paths_of_parts. fold n. unfold prepare. pose proof W as [_ W'].
  assert (SB : forall i j, i < n -> j < n -> sub_block K i j = Ok (bl i j)).
  { intros i j Hi Hj. destruct (W' i j Hi Hj) as [Wb _]. pose proof (wf_good _ Wb). unfold K, sub_block. cbn [nb_blocks fst snd all_blocks].
    apply Nat.ltb_lt in Hi. apply Nat.ltb_lt in Hj. rewrite Hi, Hj. cbn [andb]. destruct (bl i j); [contradiction|reflexivity..]. }
  destruct (mapM (fun path => bind (leaf_block K path) (fun d => bind (factor lu lu_factor d) (fun l => Ok (l, height d)))) (map (fun i => [i]) (seq 0 n))) as [ds|e] eqn:Eds.
  2:{ destruct (Proofs_Points.mapM_fails _ _ _ Eds) as (q & Hq & Eq). cbn [bind]. f_equal. apply in_map_iff in Hq. destruct Hq as (i & <- & Hi). apply in_seq in Hi.
    destruct (Hl i ltac:(lia)) as (f & Eb). unfold leaf_block, access_block_by_path in Eq. cbn [removelast is_block K last_of rev app walk bind] in Eq.
    rewrite SB, Eb in Eq by lia. cbn [bind] in Eq. unfold factor in Eq. cbn [as_array bind] in Eq.
    destruct (lu_factor _ _ f); [discriminate|]. cbn [bind] in Eq. now injection Eq as <-. }
  cbn [bind].
  assert (Ef : coarse_row K (map snd ds) 0 [0] = Err ValueError).
  { unfold coarse_row. cbn [descend]. rewrite SB by lia. cbn [bind Nat.eqb]. rewrite SB by lia. cbn [bind].
    destruct (W' 0 0) as [W00 S00]; [lia|lia|]. destruct (W' 0 1) as [W01 S01]; [lia|lia|].
    assert (Hh : height K = hs 0 + hs 1 + hs 2 + nsum (n - 3) (fun i => hs (3 + i))) by (unfold height, K; cbn [shape fst]; now apply nsum_three).
    assert (E00 : height (bl 0 0) = hs 0 /\ width (bl 0 0) = hs 0) by (unfold height, width; rewrite S00; cbn; rewrite (Hsq 0) by lia; auto).
    assert (E01 : height (bl 0 1) = hs 0 /\ width (bl 0 1) = hs 1) by (unfold height, width; rewrite S01; cbn; rewrite (Hsq 1) by lia; auto).
    destruct E00 as [E00 E00']. destruct E01 as [E01 E01'].
    unfold first_part. cbn [fst snd]. rewrite E00, Nat.min_l by lia.
    destruct (vec_mat_ok (bl 0 1) _ (hs 0) (restriction (map snd ds) 0) W01 (R 0 1 ltac:(lia) ltac:(lia)) ltac:(lia)) as (w & Ew & _).
    rewrite Ew. cbn [bind fst]. rewrite E01'. replace (height K <? hs 1) with false by (symmetry; apply Nat.ltb_ge; lia).
    destruct (set_part_ok (height K) zeros (height K - hs 1) (height K) (hs 1, w) ltac:(lia) ltac:(lia) ltac:(cbn [fst]; lia)) as (va & Eva & _).
    rewrite Eva. cbn [bind].
    destruct (vec_mat_ok (bl 0 0) _ (hs 0) (restriction (map snd ds) 0) W00 (R 0 0 ltac:(lia) ltac:(lia)) ltac:(lia)) as (w' & Ew' & _).
    rewrite Ew'. cbn [bind]. unfold set_part. cbn [fst]. rewrite E00'.
    replace (hs 0 =? _) with false by (symmetry; apply Nat.eqb_neq; lia). replace (hs 0 =? 1) with false by (symmetry; apply Nat.eqb_neq; lia). reflexivity. }
  destruct n as [|n']; [lia|]. cbn [seq map]. unfold mapi. cbn [mapi_from]. rewrite Ef. reflexivity.
Qed.
End Refused.

(** ** The mesh is symmetric: the blocks of the diagonal are not set to zero *)
Section Symmetric.
Definition here (i j : nat) : complexes := if i =? j then RtoC 1 else RtoC 0.
Definition there (_ _ : nat) : complexes := RtoC (/ 4).
Definition sym_matrix : mat complexes :=
  Blk SymToeplitz 1 2 (fun _ => 2) (fun _ => 2) (fun _ k => if k =? 0 then Dense 2 2 here else Dense 2 2 there).
Definition sym_entries (i j : nat) : complexes := if i / 2 =? j / 2 then here i j else there i j.
Definition opposite (r : R) (j : nat) : complexes := match j with 0 => RtoC r | 1 => RtoC (- r) | _ => RtoC 0 end.

Lemma upto2 (P : nat -> Prop) : P 0 -> P 1 -> forall i, i < 2 -> P i.
Proof. intros H0 H1 [|[|i]] H; try assumption. lia. Qed.
Lemma upto4 (P : nat -> Prop) : P 0 -> P 1 -> P 2 -> P 3 -> forall i, i < 4 -> P i.
Proof. intros H0 H1 H2 H3 [|[|[|[|i]]]] H; try assumption. lia. Qed.
Ltac two := refine (upto2 _ _ _).
Ltac four := refine (upto4 _ _ _ _ _).
Lemma sym_wf : wf sym_matrix.
Proof. split; [reflexivity|]. split; [cbn; lia|]. two; split; try exact I; reflexivity. Qed.
Lemma sym_ready : fft_ready sym_matrix.
Proof.
  split; [intros _; lia|]. split; [|two; exact I]. left. exists 0. split; [lia|reflexivity].
Qed.
Lemma sym_depth : depth_le 1 sym_matrix.
Proof. intros i j _ Hj. revert j Hj. two; exact I. Qed.
Lemma sym_represents : represents sym_matrix sym_entries.
Proof.
  assert (X : forall I, I < 2 -> forall J, J < 2 -> represents (if stored_index SymToeplitz 2 I J =? 0 then Dense 2 2 here else Dense 2 2 there)
      (fun i j => sym_entries (I * 2 + i) (J * 2 + j))).
  { two; two; cbn [stored_index Nat.sub Nat.eqb Nat.leb]; intros i j Hi Hj; revert i Hi j Hj;
      (two; two; reflexivity). }
  intros I J HI HJ. exact (X I HI J HJ).
Qed.

Variable lu : Type.
Variable lu_factor : nat -> nat -> (nat -> nat -> complexes) -> option lu.
Variable lu_solve : lu -> (nat -> complexes) -> nat -> complexes.
Hypothesis Hlu : exact_lu lu_factor lu_solve.
Let HA : ring_laws complexes := complexes_ring.

Lemma here_nonsingular : nonsingular 2 here.
Proof.
  intros x Hx. assert (forall i, i < 2 -> x i = times_vec 2 here x i) as E.
  { two; unfold times_vec; cbn [ksum]; apply injective_projections; cbn; ring. }
  intros i Hi. rewrite E by exact Hi. now apply Hx.
Qed.
Lemma here_solution x b : solution 2 here x b -> forall i, i < 2 -> x i = b i.
Proof.
  intros Hx i Hi. rewrite <- (Hx i Hi). revert i Hi. two; unfold times_vec; cbn [ksum]; apply injective_projections; cbn; ring.
Qed.
Definition coarse (k l : nat) : complexes := if k =? l then RtoC 2 else RtoC 1.
Lemma coarse_nonsingular : nonsingular 2 coarse.
Proof.
  intros x Hx. pose proof (Hx 0 ltac:(lia)) as E0. pose proof (Hx 1 ltac:(lia)) as E1. unfold times_vec in E0, E1. cbn [ksum] in E0, E1.
  apply (f_equal fst) in E0 as A0. apply (f_equal snd) in E0 as B0. apply (f_equal fst) in E1 as A1. apply (f_equal snd) in E1 as B1.
  cbn in A0, B0, A1, B1. two; apply injective_projections; cbn; lra.
Qed.

Lemma sym_prepare k a b : exists p, prepare lu lu_factor (path_to_leaf (Node k [Leaf a; Leaf b])) sym_matrix = Ok p
  /\ pc_matrix _ p = sym_matrix /\ pc_shapes _ p = [2; 2]
  /\ (exists l, pc_lus _ p = [l; l] /\ forall v, solution 2 here (lu_solve l v) v)
  /\ (forall k j, k < 2 -> j < 4 -> nth k (pc_coarse _ p) zeros j = if j / 2 =? k then RtoC 1 else RtoC (/ 2))
  /\ (forall v, solution 2 coarse (lu_solve (pc_coarse_lu _ p) v) v).
Proof using Hlu.
  change (path_to_leaf (Node k [Leaf a; Leaf b])) with [[0]; [1]].
  destruct (proj1 Hlu 2 here here_nonsingular) as (l & El).
  assert (ED : mapM (fun path => bind (leaf_block sym_matrix path) (fun d => bind (factor lu lu_factor d) (fun l => Ok (l, height d)))) [[0]; [1]] = Ok [(l, 2); (l, 2)]).
  { cbn [mapM]. change (leaf_block sym_matrix [0]) with (@Ok (mat complexes) (Dense 2 2 here)). change (leaf_block sym_matrix [1]) with (@Ok (mat complexes) (Dense 2 2 here)).
    cbn [bind]. unfold factor. cbn [as_array bind height width shape fst snd]. rewrite El. reflexivity. }
  unfold prepare. rewrite ED. cbn [bind map snd fst].
  assert (RW : forall k, k < 2 -> exists va, coarse_row sym_matrix [2; 2] k [k] = Ok va /\ forall j, j < 4 -> va j = if j / 2 =? k then RtoC 1 else RtoC (/ 2)).
  { two; eexists; (split; [reflexivity|]); four; apply injective_projections; cbn; field. }
  destruct (RW 0 ltac:(lia)) as (r0 & E0 & H0). destruct (RW 1 ltac:(lia)) as (r1 & E1 & H1).
  unfold mapi. cbn [mapi_from]. rewrite E0, E1. change (sequence [Ok r0; Ok r1]) with (Ok [r0; r1]). cbn [bind length].
  set (ac := fun k l => ksum _ _).
  assert (Ea : forall i, i < 2 -> forall j, j < 2 -> coarse i j = ac i j).
  { assert (Ec : forall i, i < 2 -> forall j, j < 2 -> ac i j = ksum 4 (fun q => kmul ((if q / 2 =? i then RtoC 1 else RtoC (/ 2)) : complexes) (restriction [2; 2] j q))).
    { two; intros j Hj; unfold ac; change (height sym_matrix) with 4; apply ksum_ext; intros q Hq; cbn [nth]; now rewrite ?H0, ?H1. }
    intros i Hi j Hj. rewrite Ec by assumption. revert i Hi j Hj. two; two; apply injective_projections; cbn; field. }
  assert (Na : nonsingular 2 ac) by (eapply nonsingular_ext; [|exact coarse_nonsingular]; intros; now apply Ea).
  destruct (proj1 Hlu 2 ac Na) as (c & Ec). rewrite Ec. eexists. split; [reflexivity|]. cbn [pc_matrix pc_shapes pc_lus pc_coarse pc_coarse_lu].
  split; [reflexivity|]. split; [reflexivity|]. split.
  { exists l. split; [reflexivity|]. intros v. exact (proj2 Hlu 2 here l v here_nonsingular El). }
  split.
  - assert (X : forall k, k < 2 -> forall j, j < 4 -> nth k [r0; r1] zeros j = if j / 2 =? k then RtoC 1 else RtoC (/ 2)) by (now two). auto.
  - intros v. eapply solution_ext; [|exact (proj2 Hlu 2 ac c v Na Ec)]. intros; symmetry; now apply Ea.
Qed.

Lemma sym_step k a b p fuel be xi : prepare lu lu_factor (path_to_leaf (Node k [Leaf a; Leaf b])) sym_matrix = Ok p -> 1 < fuel ->
  forall rhs x, (forall j, j < 4 -> rhs j = opposite be j) -> (forall j, j < 4 -> x j = opposite xi j) ->
  exists y, jacobi_coarse lu lu_solve fuel p rhs x = Ok y /\ forall j, j < 4 -> y j = opposite (be - xi) j.
Proof using Hlu.
  intros Hp Hf rhs x Hrhs Hx. destruct (sym_prepare k a b) as (p' & Ep & PM & PS & (l & PL & Hl) & PC & PA). rewrite Hp in Ep. injection Ep as <-.
  unfold jacobi_coarse. rewrite PM, PS, PL. destruct (matvec_ok HA complexes_fourier fuel 1 sym_matrix _ x Hf sym_wf sym_ready sym_depth sym_represents) as (ax & Ea & Ha).
  rewrite Ea. cbn [bind]. change (height sym_matrix) with 4 in *. change (width sym_matrix) with 4 in Ha. cbn [length].
  assert (Ax : forall j, j < 4 -> ax j = opposite xi j).
  { intros j Hj. rewrite Ha by exact Hj. transitivity (times_vec 4 sym_entries (opposite xi) j); [apply ksum_ext; intros q Hq; now rewrite Hx|].
    revert j Hj. four; unfold times_vec; cbn [ksum]; apply injective_projections; cbn; field. }
  set (q := fun i => ksub (rhs i) (ax i)). set (X := smoothed _ _ _ _).
  assert (EX : forall j, j < 4 -> X j = opposite (be - xi) j).
  { assert (Q : forall j, j < 4 -> q j = opposite (be - xi) j).
    { intros j Hj. unfold q. rewrite Hrhs, Ax by exact Hj. revert j Hj. four; apply injective_projections; cbn; ring. }
    assert (L0 : forall i, i < 2 -> lu_solve l (slice q 0) i = q i) by (intros i Hi; now rewrite (here_solution _ _ (Hl _) i Hi)).
    assert (L1 : forall i, i < 2 -> lu_solve l (slice q 2) i = q (2 + i)) by (intros i Hi; now rewrite (here_solution _ _ (Hl _) i Hi)).
    intros j Hj. rewrite <- Q by exact Hj. unfold X, smoothed. rewrite PL, PS. revert j Hj. four; cbn.
    - apply (L0 0). lia. - apply (L0 1). lia. - apply (L1 0). lia. - apply (L1 1). lia. }
  set (rc := fun k => ksub _ _).
  assert (Er : forall k, k < 2 -> rc k = k0).
  { intros i Hi. unfold rc.
    transitivity (ksub (ksum 4 (fun j => kmul (restriction [2; 2] i j) (opposite be j)))
      (ksum 4 (fun j => kmul ((if j / 2 =? i then RtoC 1 else RtoC (/ 2)) : complexes) (opposite (be - xi) j)))).
    - f_equal; apply ksum_ext; intros j Hj; [now rewrite Hrhs|]. now rewrite PC, EX.
    - revert i Hi. two; cbn [ksum]; apply injective_projections; cbn; field. }
  assert (Ee : forall i, i < 2 -> lu_solve (pc_coarse_lu lu p) rc i = k0).
  { apply coarse_nonsingular. intros i Hi. rewrite PA by exact Hi. now apply Er. }
  eexists. split; [reflexivity|]. intros j Hj. cbn beta. rewrite EX by exact Hj.
  transitivity (kadd (opposite (be - xi) j) (ksum 2 (fun _ => @k0 complexes))); [f_equal; apply ksum_ext; intros i Hi; rewrite Ee by exact Hi|].
  - apply injective_projections; cbn; ring.
  - apply injective_projections; cbn; ring.
Qed.

Lemma sym_wrong k a b fuel : 1 < fuel -> exists p, prepare lu lu_factor (path_to_leaf (Node k [Leaf a; Leaf b])) sym_matrix = Ok p
  /\ solution 4 sym_entries (opposite 1) (opposite 1)
  /\ ~ satisfies 4 (PinvA lu lu_solve fuel p) (Pinvb lu lu_solve fuel p (opposite 1)) (opposite 1)
  /\ satisfies 4 (PinvA lu lu_solve fuel p) (Pinvb lu lu_solve fuel p (opposite 1)) (opposite (1 / 2)).
Proof using Hlu.
  intros Hf. destruct (sym_prepare k a b) as (p & Ep & _). exists p. split; [exact Ep|]. split.
  { four; unfold times_vec; cbn [ksum]; apply injective_projections; cbn; field. }
  assert (Z : forall j, j < 4 -> zeros j = opposite 0 j) by (four; apply injective_projections; cbn; ring).
  destruct (sym_step k a b p fuel 1 0 Ep Hf (opposite 1) zeros ltac:(auto) Z) as (c & Ec & Hc).
  unfold satisfies, PinvA, Pinvb. rewrite Ec. split.
  - intros (y & c' & Ey & Ec' & H). injection Ec' as <-.
    destruct (sym_step k a b p fuel 0 1 Ep Hf zeros (opposite 1) Z ltac:(auto)) as (y' & Ey' & Hy').
    rewrite Ey' in Ey. cbn [bind] in Ey. injection Ey as <-. specialize (H 0 ltac:(lia)). cbn beta in H. rewrite Hy', Hc in H by lia.
    apply (f_equal fst) in H. cbn in H. lra.
  - destruct (sym_step k a b p fuel 0 (1 / 2) Ep Hf zeros (opposite (1 / 2)) Z ltac:(auto)) as (y' & Ey' & Hy').
    rewrite Ey'. cbn [bind]. eexists. eexists. split; [reflexivity|]. split; [reflexivity|]. intros j Hj. cbn beta. rewrite Hy', Hc by exact Hj.
    revert j Hj. four; apply injective_projections; cbn; field.
Qed.
End Symmetric.
