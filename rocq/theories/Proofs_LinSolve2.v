(** The recursion of the direct solver, and the cached LU solver. *)
From Coq Require Import List Arith Bool Lia Ring.
From Verif Require Import Model_Base Model_Ring Spec_Ring Proofs_Ring Model_Block Spec_Block
  Proofs_Block Proofs_Block2 Proofs_Block3 Proofs_Block4 Model_LinSolve Spec_LinSolve Proofs_LinSolve.
Import ListNotations.
Open Scope nat_scope.

Section Direct.
Context {A : coeffs}.
Hypothesis HA : ring_laws A.
Let HA' : ring_theory (@k0 A) k1 kadd kmul ksub kopp eq := HA.
Add Ring Aring : HA'.
Hypothesis HFo : fourier_laws A.

(** ** The matrices built by the solver *)
Lemma fft_dense_no_low n (ms : nat -> mat A) k : no_low_rank (fft_dense n ms k).
Proof. unfold fft_dense. destruct (forallb _ _); exact I. Qed.
Lemma fft_of_list_no_low fuel : forall n (ms : nat -> mat A) k, no_low_rank (fft_of_list fuel n ms k).
Proof.
  induction fuel; intros n ms k; [exact I|]. cbn [fft_of_list]. destruct (ms 0); try exact I.
  intros i j Hi Hj. cbv zeta. destruct (some_leaf _ _); [apply fft_dense_no_low|apply IHfuel].
Qed.
Lemma block_diagonalize_no_low fuel n nc (st col : nat -> mat A) k : no_low_rank (block_diagonalize fuel n nc st col k).
Proof. unfold block_diagonalize. destruct (forallb _ _); [apply fft_of_list_no_low|apply fft_dense_no_low]. Qed.

Lemma binary_op_no_low op m : forall m' : mat A, no_low_rank (binary_op op m m').
Proof.
  induction m as [e|h w f|h w r l rr|c nr nc hs ws b IH]; intros m'; destruct m'; cbn [binary_op]; try exact I.
  - destruct (_ && _); exact I.
  - destruct (_ && _); [|exact I]. unfold mk_with_shapes.
    destruct c; try (intros i j _ _; apply IH). destruct (Nat.even _); [exact I|]. intros i j _ _; apply IH.
Qed.
Lemma binary_op_alike op m : forall m' : mat A, wf m -> wf m' -> no_low_rank m -> no_low_rank m' -> alike m m' ->
  shape m = shape m' -> alike m (binary_op op m m').
Proof.
  induction m as [e|h w f|h w r l rr|c nr nc hs ws b IH]; intros m' Hwf Hwf' Hl Hl' Hal Hs;
    destruct m' as [e'|h' w' f'|h' w' r' l' rr'|c' nr' nc' hs' ws' b']; try contradiction.
  - cbn in Hs. injection Hs as -> ->. cbn [binary_op]. rewrite !Nat.eqb_refl. exact I.
  - destruct Hal as (-> & -> & -> & H1 & H2 & H3). cbn [binary_op].
    rewrite subclass_refl. unfold pair_eqb. rewrite !Nat.eqb_refl. cbn [andb]. rewrite !Nat.min_id.
    rewrite (mk_valid _ _ _ _ _ _ _ _ _ Hwf). cbn [alike].
    repeat (split; [reflexivity|]).
    intros i j Hi Hj. destruct (wf_stored _ _ _ _ _ _ i j Hwf Hi Hj) as [W1 S1].
    destruct (wf_stored _ _ _ _ _ _ i j Hwf' Hi Hj) as [W2 S2].
    apply IH; auto. rewrite S1, S2. f_equal.
    + destruct c'; cbn [block_heights]; auto.
    + destruct c'; cbn [block_widths]; auto.
Qed.

Lemma alike_solve_ready m : wf m -> forall m' : mat A, wf m' -> no_low_rank m' -> alike m m' -> solve_ready m -> solve_ready m'.
Proof.
  induction m as [e|h w f|h w r l rr|c nr nc hs ws b IH]; intros Hwf m' Hwf' Hl' Hal Hr;
    destruct m' as [e'|h' w' f'|h' w' r' l' rr'|c' nr' nc' hs' ws' b']; try contradiction; try exact I.
  destruct Hal as (<- & <- & <- & H1 & H2 & H3).
  assert (U : nr = 1 -> uniform nc (b 0) -> uniform nc (b' 0)).
  { intros -> [(k & Hk & E)|Hu].
    - left. exists k. split; [exact Hk|]. rewrite <- E. symmetry. apply alike_is_block. apply H3; lia.
    - right. intros k Hk. eapply alike_trans; [apply alike_sym, H3; lia|].
      eapply alike_trans; [apply Hu; exact Hk|]. apply H3; lia. }
  assert (S : nr = 1 -> forall k, k < nc -> solve_ready (b 0 k) -> no_low_rank (b' 0 k) /\ solve_ready (b' 0 k)).
  { intros -> k Hk Hs. split; [apply Hl'; lia|]. apply (IH 0 k); auto.
    - apply (wf_stored _ _ _ _ _ _ 0 k Hwf); lia.
    - apply (wf_stored _ _ _ _ _ _ 0 k Hwf'); lia. }
  destruct c; try exact I; cbn [solve_ready] in *; cbn [wf] in Hwf;
    destruct Hwf as (-> & _ & _).
  - intros ->. destruct (Hr eq_refl) as [Ha Hk]. split.
    + eapply alike_trans; [apply alike_sym, H3; lia|]. eapply alike_trans; [exact Ha|]. apply H3; lia.
    + intros k Hk2. apply S; auto. apply Hk; auto.
  - destruct Hr as [Hu Hk]. split; [auto|]. intros k Hk2. apply S; auto. now apply Hk.
  - destruct Hr as [Hu Hk]. split; [auto|]. intros k Hk2. apply S; auto. now apply Hk.
  - destruct Hr as [Hu Hk]. split; [auto|]. intros k Hk2. apply S; auto. now apply Hk.
Qed.

(** The 2x2 symmetric matrices. *)
Lemma sym2_entries c hs ws (b : nat -> nat -> mat A) F :
  c = SymToeplitz \/ c = EvenCirculant -> wf (Blk c 1 2 hs ws b) -> hs 0 = ws 0 -> represents (Blk c 1 2 hs ws b) F ->
  shape (Blk c 1 2 hs ws b) = (hs 0 + hs 0, hs 0 + hs 0) /\
  exists F1 F2, represents (b 0 0) F1 /\ represents (b 0 1) F2 /\ two_by_two_of F1 F2 F (hs 0).
Proof.
  intros Hc Hwf Hsq HF.
  assert (Hc' : c <> Plain) by (destruct Hc as [-> | ->]; discriminate).
  pose proof (proj1 (wf_structured _ _ _ _ _ _ Hc') Hwf) as (_ & _ & Hw).
  assert (En : fst (nb_blocks c 1 2) = 2) by (destruct Hc as [-> | ->]; reflexivity).
  assert (HB : forall I J, I < 2 -> J < 2 -> represents (b 0 (if I =? J then 0 else 1))
              (fun i j => F (I * hs 0 + i) (J * ws 0 + j))).
  { intros I J HI HJ. pose proof HF as H. destruct Hc as [-> | ->]; cbn [represents] in H; cbv zeta in H;
      rewrite En in H; specialize (H I J HI HJ);
      (replace (if I =? J then 0 else 1) with (stored_index SymToeplitz 2 I J)
        by (destruct I as [|[|]], J as [|[|]]; try lia; reflexivity)); [exact H|].
    replace (stored_index SymToeplitz 2 I J) with (stored_index EvenCirculant 2 I J)
      by (destruct I as [|[|]], J as [|[|]]; try lia; reflexivity). exact H. }
  split.
  - destruct Hc as [-> | ->]; cbn [shape nb_blocks fst snd]; rewrite <- Hsq; f_equal; lia.
  - exists (fun i j => F (0 * hs 0 + i) (0 * ws 0 + j)), (fun i j => F (0 * hs 0 + i) (1 * ws 0 + j)).
    split; [exact (HB 0 0 ltac:(lia) ltac:(lia))|]. split; [exact (HB 0 1 ltac:(lia) ltac:(lia))|].
    intros i j Hi Hj.
    destruct (Hw 0 ltac:(lia)) as [W0 S0]. destruct (Hw 1 ltac:(lia)) as [W1 S1].
    pose proof (represents_unique _ W0 _ _ (HB 0 0 ltac:(lia) ltac:(lia)) (HB 1 1 ltac:(lia) ltac:(lia)) i j) as E0.
    pose proof (represents_unique _ W1 _ _ (HB 0 1 ltac:(lia) ltac:(lia)) (HB 1 0 ltac:(lia) ltac:(lia)) i j) as E1.
    unfold height, width in E0, E1. rewrite S0 in E0. rewrite S1 in E1. rewrite <- Hsq in *. cbn [fst snd] in *.
    specialize (E0 Hi Hj). specialize (E1 Hi Hj). rewrite !Nat.mul_1_l in *. rewrite !Nat.mul_0_l in *. cbn [Nat.add] in *.
    auto.
Qed.

Variable lapack : nat -> (nat -> nat -> A) -> (nat -> A) -> option (nat -> A).
Hypothesis Hex : exact_solver lapack.

Lemma np_solve_spec n f b x : np_solve lapack n n f b = Ok x -> solution n f x b.
Proof.
  unfold np_solve. rewrite Nat.eqb_refl. destruct (lapack n f b) eqn:E; [|discriminate]. intros H. injection H as <-.
  now apply (proj1 Hex).
Qed.
Lemma np_solve_total n f b : nonsingular n f -> exists x, np_solve lapack n n f b = Ok x.
Proof.
  intros H. unfold np_solve. rewrite Nat.eqb_refl. destruct (proj2 Hex n f b H) as (x & ->). eauto.
Qed.
Lemma solution_ext n F G (x b : nat -> A) : (forall i j, i < n -> j < n -> F i j = G i j) ->
  solution n F x b -> solution n G x b.
Proof.
  intros E H i Hi. rewrite <- (H i Hi). apply ksum_ext. intros j Hj. now rewrite E.
Qed.
Lemma nonsingular_ext n (F G : nat -> nat -> A) : (forall i j, i < n -> j < n -> F i j = G i j) ->
  nonsingular n F -> nonsingular n G.
Proof. intros E H x Hx. apply H. eapply solution_ext; [|exact Hx]. intros; symmetry; auto. Qed.

Definition direct_correct fuel := forall d m F b, d < fuel -> wf m -> solve_ready m -> depth_le d m ->
  height m = width m -> represents m F ->
  (forall x, solve_directly lapack fuel m (height m) b = Ok x -> solution (height m) F x b) /\
  (nonsingular (height m) F -> exists x, solve_directly lapack fuel m (height m) b = Ok x).

Lemma solve_full_ok m F b : wf m -> height m = width m -> represents m F ->
  (forall x, solve_full lapack m b = Ok x -> solution (height m) F x b) /\
  (nonsingular (height m) F -> exists x, solve_full lapack m b = Ok x).
Proof.
  intros Hwf Hsq HF. unfold solve_full. destruct (full_matrix_ok m F Hwf HF) as (a & -> & _). rewrite <- Hsq. split.
  - intros x Hx. apply np_solve_spec in Hx. eapply solution_ext; [|exact Hx].
    intros i j Hi Hj. apply full_entries_ok; auto. now rewrite <- Hsq.
  - intros Hn. apply np_solve_total. eapply nonsingular_ext; [|exact Hn].
    intros i j Hi Hj. symmetry. apply full_entries_ok; auto. now rewrite <- Hsq.
Qed.

Lemma collect_inv {B} n (f : nat -> result B) l dft : collect n f = Ok l -> forall k, k < n -> f k = Ok (nth k l dft).
Proof.
  assert (L : forall n l, collect n f = Ok l -> length l = n).
  { clear. induction n; intros l H; cbn in H; [now injection H as <-|].
    destruct (collect n f) as [l0|]; cbn in H; [|discriminate]. destruct (f n); cbn in H; [|discriminate]. injection H as <-.
    rewrite app_length, (IHn l0) by reflexivity. cbn. lia. }
  revert l. induction n; intros l H k Hk; [lia|]. cbn in H.
  destruct (collect n f) as [l0|] eqn:E0; cbn in H; [|discriminate].
  destruct (f n) as [x|] eqn:Ex; cbn in H; [|discriminate]. injection H as <-.
  pose proof (L n l0 E0) as Ll. destruct (Nat.lt_ge_cases k n).
  - rewrite app_nth1 by lia. auto.
  - replace k with n by lia. rewrite app_nth2 by lia. rewrite Ll, Nat.sub_diag. exact Ex.
Qed.

Lemma direct_circulant fuel d c nc hs ws (bl : nat -> nat -> mat A) F b :
  direct_correct fuel -> circular c -> d < fuel -> wf (Blk c 1 nc hs ws bl) -> uniform nc (bl 0) ->
  (forall k, k < nc -> no_low_rank (bl 0 k) /\ solve_ready (bl 0 k)) ->
  (forall j, j < nc -> depth_le d (bl 0 j)) -> hs 0 = ws 0 -> represents (Blk c 1 nc hs ws bl) F ->
  let n := nblocks c nc in let h := hs 0 in let w := ws 0 in
  let D := block_diagonalize fuel n nc (bl 0) (fun i => all_blocks c 1 nc bl i 0) in
  let res := bind (collect n (fun k => solve_directly lapack fuel (D k) h (fun i => fft n (fun p => b (p * h + i)) k)))
             (fun rs => Ok (fun j => ifft n (fun k => nth k rs zeros (j mod w)) (j / w))) in
  (forall x, res = Ok x -> solution (n * h) F x b) /\ (nonsingular (n * h) F -> exists x, res = Ok x).
Proof.
  intros IH Hcirc Hd Hwf Huni Hr Hdep Hsq HF n h w D res. pose proof (circular_not_plain c Hcirc) as Hc.
  pose proof (proj1 (wf_structured _ _ _ _ _ _ Hc) Hwf) as (_ & Hv & Hw).
  assert (Hnc : 0 < nc) by (clear - Hv Hcirc; destruct Hcirc as [->|[->| ->]]; cbn in Hv; lia).
  assert (HD : forall k, k < n -> forall rhs,
     (forall x, solve_directly lapack fuel (D k) h rhs = Ok x -> solution h (fun a j => fft n (fun t => F (t * h + a) j) k) x rhs) /\
     (nonsingular h (fun a j => fft n (fun t => F (t * h + a) j) k) -> exists x, solve_directly lapack fuel (D k) h rhs = Ok x)).
  { intros k Hk rhs.
    destruct (block_diagonalize_ok d fuel c nc hs ws bl F k Hcirc ltac:(lia) Hwf HF Huni Hdep) as (D1 & D2 & D3 & D4).
    fold n h w in D1, D2, D3, D4. fold D in D1, D2, D3, D4.
    assert (D0 : no_low_rank (D k)) by apply block_diagonalize_no_low.
    assert (D5 : solve_ready (D k)).
    { destruct (is_block (D k)) eqn:Eb.
      - apply (alike_solve_ready (bl 0 0)); [apply Hw; auto|exact D1|exact D0|auto|apply Hr; auto].
      - destruct (D k); try discriminate Eb; try contradiction; exact I. }
    assert (D6 : depth_le d (D k)).
    { destruct (is_block (D k)) eqn:Eb.
      - eapply alike_depth; [apply D3; reflexivity|auto].
      - destruct (D k); try discriminate Eb; destruct d; exact I. }
    assert (Eh : height (D k) = h) by (unfold height; now rewrite D2).
    assert (Ewd : width (D k) = h) by (unfold width; rewrite D2; cbn; unfold w; auto).
    pose proof (IH d (D k) _ rhs Hd D1 D5 D6 ltac:(congruence) D4) as H. rewrite Eh in H. exact H. }
  split.
  - intros x Hx. unfold res in Hx.
    destruct (collect n _) as [rs|] eqn:Ec; cbn [bind] in Hx; [|discriminate]. injection Hx as <-.
    unfold w. rewrite <- Hsq.
    apply (circulant_solution HA HFo c nc hs ws bl F (fun k => nth k rs zeros) b Hcirc Hwf HF Hsq).
    intros k Hk. pose proof (collect_inv n _ rs zeros Ec k Hk) as Ek. cbv beta in Ek.
    now apply (proj1 (HD k Hk _)).
  - intros Hns. unfold res.
    destruct (collect_ok n (fun k => solve_directly lapack fuel (D k) h (fun i => fft n (fun p => b (p * h + i)) k)) (fun _ _ => True) zeros) as (rs & -> & _).
    + intros k Hk. destruct (proj2 (HD k Hk (fun i => fft n (fun p => b (p * h + i)) k))) as (x & Ex).
      { now apply (circulant_nonsingular HA HFo c nc hs ws bl F k Hcirc Hwf HF Hsq). }
      exists x. auto.
    + cbn [bind]. eauto.
Qed.

Lemma solve_directly_ok fuel : direct_correct fuel.
Proof.
  induction fuel as [|fuel IH]; intros d m F b Hd Hwf Hr Hdep Hsq HF; [lia|].
  cbn [solve_directly]. rewrite Nat.eqb_refl. cbn [negb].
  destruct m as [e|h w f|h w r l rr|c nr nc hs ws bl]; try contradiction.
  - cbn in Hsq. subst w. cbn [represents] in HF. split.
    + intros x Hx. apply np_solve_spec in Hx. eapply solution_ext; [|exact Hx]. intros; symmetry; auto.
    + intros Hn. apply np_solve_total. eapply nonsingular_ext; [|exact Hn]. auto.
  - destruct (plain_dec c) as [->|Hc]; [now apply solve_full_ok|].
    pose proof (proj1 (wf_structured _ _ _ _ _ _ Hc) Hwf) as (-> & Hv & Hw).
    destruct d as [|d]; [destruct Hdep|].
    assert (Hdep0 : forall j, j < nc -> depth_le d (bl 0 j)) by (intros; apply Hdep; lia).
    assert (Ewid : width (Blk c 1 nc hs ws bl) = nblocks c nc * ws 0).
    { unfold width. rewrite shape_blk. cbn [snd]. rewrite widths_structured by exact Hc.
      destruct (gr_nblocks c 1 nc Hc) as [_ ->]. reflexivity. }
    assert (Ehei : height (Blk c 1 nc hs ws bl) = nblocks c nc * hs 0).
    { unfold height. rewrite shape_blk. cbn [fst]. rewrite heights_structured by exact Hc.
      destruct (gr_nblocks c 1 nc Hc) as [-> _]. reflexivity. }
    destruct (grid_nonempty _ _ _ _ _ _ Hwf) as [N1 _]. destruct (gr_nblocks c 1 nc Hc) as [E1 _]. rewrite E1 in N1.
    assert (Hsq0 : hs 0 = ws 0).
    { rewrite Ehei, Ewid in Hsq. apply Nat.mul_cancel_l in Hsq; [exact Hsq|lia]. }
    assert (Hcir : circular c -> _) by (intros Hcirc; exact (direct_circulant fuel d c nc hs ws bl F b IH Hcirc ltac:(lia) Hwf)).
    destruct c; [congruence|now apply solve_full_ok| |rewrite Ehei; apply Hcir; unfold circular; auto; apply Hr ..].
    destruct (Nat.eqb_spec nc 2) as [->|Hne]; [|now apply solve_full_ok].
    destruct (sym2_entries SymToeplitz hs ws bl F (or_introl eq_refl) Hwf Hsq0 HF) as (Hs & F1 & F2 & R1 & R2 & HFF).
    destruct (Hr eq_refl) as [Hal Hk].
    destruct (Hw 0 ltac:(lia)) as [W0 S0]. destruct (Hw 1 ltac:(lia)) as [W1 S1].
    destruct (Hk 0 ltac:(lia)) as [L0 Q0]. destruct (Hk 1 ltac:(lia)) as [L1 Q1].
    set (h := hs 0) in *.
    assert (Hhalf : height (Blk SymToeplitz 1 2 hs ws bl) / 2 = h).
    { unfold height. rewrite Hs. cbn [fst]. replace (h + h) with (h * 2) by lia. apply Nat.div_mul. lia. }
    assert (Htot : height (Blk SymToeplitz 1 2 hs ws bl) = h + h) by (unfold height; now rewrite Hs).
    rewrite Hhalf, Htot. rewrite <- Hsq0.
    assert (HOP : forall op rhs,
      (forall x, solve_directly lapack fuel (binary_op op (bl 0 0) (bl 0 1)) h rhs = Ok x ->
         solution h (fun i j => op (F1 i j) (F2 i j)) x rhs) /\
      (nonsingular h (fun i j => op (F1 i j) (F2 i j)) ->
         exists x, solve_directly lapack fuel (binary_op op (bl 0 0) (bl 0 1)) h rhs = Ok x)).
    { intros op rhs.
      destruct (binary_op_ok op (bl 0 0) (bl 0 1) W0 W1 L0 L1 Hal ltac:(congruence)) as (B1 & B2 & B3).
      specialize (B3 F1 F2 R1 R2).
      assert (B4 : alike (bl 0 0) (binary_op op (bl 0 0) (bl 0 1))) by (apply binary_op_alike; auto; congruence).
      assert (B5 : solve_ready (binary_op op (bl 0 0) (bl 0 1))).
      { apply (alike_solve_ready (bl 0 0)); auto. apply binary_op_no_low. }
      assert (Eh : height (binary_op op (bl 0 0) (bl 0 1)) = h) by (unfold height; rewrite B2, S0; reflexivity).
      assert (Ew : width (binary_op op (bl 0 0) (bl 0 1)) = h) by (unfold width; rewrite B2, S0; cbn; auto).
      pose proof (IH d _ _ rhs ltac:(lia) B1 B5 (alike_depth d _ _ B4 (Hdep0 0 ltac:(lia))) ltac:(congruence) B3) as H.
      rewrite Eh in H. exact H. }
    split.
    + intros x Hx.
      destruct (solve_directly lapack fuel (binary_op kadd _ _) h _) as [xp|] eqn:Ep; cbn [bind] in Hx; [|discriminate].
      destruct (solve_directly lapack fuel (binary_op ksub _ _) h _) as [xm|] eqn:Em; cbn [bind] in Hx; [|discriminate].
      injection Hx as <-.
      apply (pair_solution HA HFo h F1 F2); [exact HFF| |].
      * exact (proj1 (HOP kadd _) _ Ep).
      * exact (proj1 (HOP ksub _) _ Em).
    + intros Hn. destruct (pair_nonsingular HA h F1 F2 F HFF Hn) as [Np Nm].
      destruct (proj2 (HOP kadd (fun i => kadd (b i) (slice b h i))) Np) as (xp & ->). cbn [bind].
      destruct (proj2 (HOP ksub (fun i => ksub (b i) (slice b h i))) Nm) as (xm & ->). cbn [bind]. eauto.
Qed.
End Direct.
