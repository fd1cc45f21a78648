(** The LU solver with its cache. *)
From Coq Require Import List Arith Bool Lia Ring.
From Verif Require Import Model_Base Model_Ring Spec_Ring Proofs_Ring Model_Block Spec_Block
  Proofs_Block Proofs_Block2 Proofs_Block3 Proofs_Block4 Model_LinSolve Spec_LinSolve Proofs_LinSolve Proofs_LinSolve2.
Import ListNotations.
Open Scope nat_scope.

Section LU.
Context {A : coeffs} {lu : Type}.
Variable lu_factor : nat -> nat -> (nat -> nat -> A) -> option lu.
Variable lu_solve : lu -> (nat -> A) -> nat -> A.

(** ** The cache *)
Definition cache_ok fuel (h : @heap A) (s : lu_state lu) (last : option (nat * bool)) : Prop :=
  match last with
  | None => cached_matrix lu s = None
  | Some (r, true) => cached_matrix lu s = Some r /\ exists d, cached_decomp lu s = Some d /\ lu_decomp lu lu_factor fuel (h r) = Ok d
  | Some (r, false) => cached_matrix lu s = Some r
  end.

Lemma careful_transparent fuel es : forall h s last, cache_ok fuel h s last -> careful lu_factor fuel h last es ->
  history lu lu_factor lu_solve fuel h s es = memoryless_history lu_factor lu_solve fuel h es.
Proof.
  induction es as [|[r nb b|r m] es IH]; intros h s last Hs Hc; [reflexivity| |].
  - cbn [careful] in Hc. destruct Hc as [Hne Hc]. cbn [history memoryless_history].
    unfold lu_solve_cached, cached_lu_decomp, memoryless.
    destruct last as [[r' [|]]|]; cbn [cache_ok] in Hs.
    + destruct Hs as (E1 & d & E2 & E3). rewrite E1. destruct (Nat.eqb_spec r r') as [->|Hd].
      * rewrite E2, E3. rewrite E3 in Hc. cbn [bind solve_with_decomp]. f_equal. apply (IH _ _ (Some (r', true))); [|exact Hc].
        cbn [cache_ok]. eauto.
      * destruct (lu_decomp lu lu_factor fuel (h r)) as [d'|e] eqn:E; cbn [bind solve_with_decomp]; f_equal;
          (eapply IH; [|exact Hc]); cbn [cache_ok cached_matrix cached_decomp]; [|auto]. split; [reflexivity|eauto].
    + rewrite Hs. destruct (Nat.eqb_spec r r') as [->|Hd]; [congruence|].
      destruct (lu_decomp lu lu_factor fuel (h r)) as [d'|e] eqn:E; cbn [bind solve_with_decomp]; f_equal;
          (eapply IH; [|exact Hc]); cbn [cache_ok cached_matrix cached_decomp]; [|auto]. split; [reflexivity|eauto].
    + rewrite Hs.
      destruct (lu_decomp lu lu_factor fuel (h r)) as [d'|e] eqn:E; cbn [bind solve_with_decomp]; f_equal;
          (eapply IH; [|exact Hc]); cbn [cache_ok cached_matrix cached_decomp]; [|auto]. split; [reflexivity|eauto].
  - destruct Hc as (H1 & H2 & Hc). cbn [history memoryless_history]. eapply IH; [|exact Hc].
    destruct last as [[r' [|]]|]; cbn [cache_ok] in *; auto.
    destruct (Nat.eqb_spec r' r) as [->|_]; [congruence|exact Hs].
Qed.

(** ** The decompositions *)
Hypothesis HA : ring_laws A.
Hypothesis HFo : fourier_laws A.
Hypothesis Hex : exact_lu lu_factor lu_solve.

Lemma alike_lu_ready m : wf m -> forall m' : mat A, wf m' -> no_low_rank m' -> alike m m' -> lu_ready m -> lu_ready m'.
Proof.
  induction m as [e|h w f|h w r l rr|c nr nc hs ws b IH]; intros Hwf m' Hwf' Hl' Hal Hr;
    destruct m' as [e'|h' w' f'|h' w' r' l' rr'|c' nr' nc' hs' ws' b']; try contradiction; try exact I.
  destruct Hal as (<- & <- & <- & H1 & H2 & H3).
  assert (S : nr = 1 -> nc = 2 -> forall k, k < nc -> lu_ready (b 0 k) -> lu_ready (b' 0 k)).
  { intros -> -> k Hk Hs. apply (IH 0 k); auto.
    - apply (wf_stored _ _ _ _ _ _ 0 k Hwf); lia.
    - apply (wf_stored _ _ _ _ _ _ 0 k Hwf'); lia. }
  assert (G : nr = 1 -> nc = 2 -> alike (b 0 0) (b 0 1) -> lu_ready (b 0 0) -> lu_ready (b 0 1) ->
     nc = 2 /\ alike (b' 0 0) (b' 0 1) /\ lu_ready (b' 0 0) /\ lu_ready (b' 0 1)).
  { intros E1 E2 Ha L0 L1. split; [exact E2|]. split; [|split; apply S; auto; lia].
    eapply alike_trans; [apply alike_sym, H3; lia|]. eapply alike_trans; [exact Ha|]. apply H3; lia. }
  destruct c; try contradiction; cbn [lu_ready] in *; cbn [wf] in Hwf; destruct Hwf as (-> & _ & _);
    destruct Hr as (? & ? & ? & ?); now apply G.
Qed.
Lemma lu_ready_no_low m : wf m -> lu_ready m -> @no_low_rank A m.
Proof.
  induction m as [e|h w f|h w r l rr|c nr nc hs ws b IH]; intros Hwf Hr; try contradiction; try exact I.
  assert (K : nr = 1 /\ nc = 2 /\ lu_ready (b 0 0) /\ lu_ready (b 0 1)).
  { destruct c; try contradiction; cbn [lu_ready] in Hr; cbn [wf] in Hwf; tauto. }
  destruct K as (-> & -> & L0 & L1). intros i j Hi Hj. destruct i; [|lia].
  pose proof (proj1 (wf_stored _ _ _ _ _ _ 0 j Hwf ltac:(lia) Hj)) as W.
  apply IH; [exact W|]. destruct j as [|[|]]; auto; lia.
Qed.

Lemma lu_decomp_ok fuel : forall d (m : mat A) F, d < fuel -> wf m -> lu_ready m -> depth_le d m ->
  height m = width m -> represents m F -> nonsingular (height m) F ->
  exists dec, lu_decomp lu lu_factor fuel m = Ok dec /\
    forall b, solution (height m) F (solve_pair lu lu_solve dec (height m) b) b.
Proof.
  induction fuel as [|fuel IH]; intros d m F Hd Hwf Hr Hdep Hsq HF Hns; [lia|].
  destruct m as [e|h w f|h w r l rr|c nr nc hs ws bl]; try contradiction.
  - cbn in Hsq. subst w. cbn [represents] in HF. unfold height in *. cbn [shape fst] in *.
    assert (Nf : nonsingular h f) by (eapply nonsingular_ext; [|exact Hns]; auto).
    destruct (proj1 Hex h f Nf) as (l & El). exists (Tuple l). cbn [lu_decomp]. rewrite El. split; [reflexivity|].
    intros b. cbn [solve_pair]. eapply solution_ext; [|exact (proj2 Hex h f l b Nf El)]. intros; symmetry; auto.
  - assert (K : (c = SymToeplitz \/ c = EvenCirculant) /\ nr = 1 /\ nc = 2 /\ alike (bl 0 0) (bl 0 1) /\ lu_ready (bl 0 0) /\ lu_ready (bl 0 1)).
    { destruct c; try contradiction; cbn [lu_ready] in Hr; cbn [wf] in Hwf; tauto. }
    destruct K as (Hc & -> & -> & Hal & Q0 & Q1).
    assert (Hc' : c <> Plain) by (destruct Hc as [-> | ->]; discriminate).
    pose proof (proj1 (wf_structured _ _ _ _ _ _ Hc') Hwf) as (_ & Hv & Hw).
    destruct d as [|d]; [destruct Hdep|].
    assert (Hdep0 : forall j, j < 2 -> depth_le d (bl 0 j)) by (intros; apply Hdep; lia).
    assert (Hsq0 : hs 0 = ws 0).
    { unfold height, width in Hsq. destruct Hc as [-> | ->]; cbn [shape nb_blocks fst snd] in Hsq; lia. }
    destruct (sym2_entries c hs ws bl F Hc Hwf Hsq0 HF) as (Hs & F1 & F2 & R1 & R2 & HFF).
    destruct (Hw 0 ltac:(lia)) as [W0 S0]. destruct (Hw 1 ltac:(lia)) as [W1 S1].
    pose proof (lu_ready_no_low _ W0 Q0) as L0. pose proof (lu_ready_no_low _ W1 Q1) as L1.
    set (h := hs 0) in *.
    assert (Htot : height (Blk c 1 2 hs ws bl) = h + h) by (unfold height; now rewrite Hs).
    rewrite Htot in *.
    destruct (pair_nonsingular HA h F1 F2 F HFF Hns) as [Np Nm].
    assert (HOP : forall op, nonsingular h (fun i j => op (F1 i j) (F2 i j)) ->
      exists dec, lu_decomp lu lu_factor fuel (binary_op op (bl 0 0) (bl 0 1)) = Ok dec /\
        forall b, solution h (fun i j => op (F1 i j) (F2 i j)) (solve_pair lu lu_solve dec h b) b).
    { intros op No.
      destruct (binary_op_ok op (bl 0 0) (bl 0 1) W0 W1 L0 L1 Hal ltac:(congruence)) as (B1 & B2 & B3).
      specialize (B3 F1 F2 R1 R2).
      assert (B4 : alike (bl 0 0) (binary_op op (bl 0 0) (bl 0 1))) by (apply binary_op_alike; auto; congruence).
      assert (B5 : lu_ready (binary_op op (bl 0 0) (bl 0 1))).
      { apply (alike_lu_ready (bl 0 0)); auto. apply binary_op_no_low. }
      assert (Eh : height (binary_op op (bl 0 0) (bl 0 1)) = h) by (unfold height; rewrite B2, S0; reflexivity).
      assert (Ew : width (binary_op op (bl 0 0) (bl 0 1)) = h) by (unfold width; rewrite B2, S0; cbn; auto).
      pose proof (IH d _ _ ltac:(lia) B1 B5 (alike_depth d _ _ B4 (Hdep0 0 ltac:(lia))) ltac:(congruence) B3) as H.
      rewrite Eh in H. exact (H No). }
    destruct (HOP kadd Np) as (d1 & E1 & H1). destruct (HOP ksub Nm) as (d2 & E2 & H2).
    exists (Pair d1 d2). split.
    + cbn [lu_decomp]. replace (is_subclass c SymToeplitz && pair_eqb (nb_blocks c 1 2) (2, 2)) with true
        by (destruct Hc as [-> | ->]; reflexivity). rewrite Nat.eqb_refl, E1. cbn [bind]. rewrite E2. reflexivity.
    + intros b. cbn [solve_pair]. cbv zeta. replace ((h + h) / 2) with h.
      2:{ replace (h + h) with (h * 2) by lia. now rewrite Nat.div_mul by lia. }
      apply (pair_solution HA HFo h F1 F2); [exact HFF|exact (H1 _)|exact (H2 _)].
Qed.
End LU.
