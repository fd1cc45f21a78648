(** Products of vectors with structured matrices, from the left. *)
From Coq Require Import List Arith Bool Lia Ring.
From Verif Require Import Model_Base Model_Ring Spec_Ring Proofs_Ring Model_Block Spec_Block
  Proofs_Block Proofs_Block2 Proofs_Block3 Proofs_Block4.
Import ListNotations.
Open Scope nat_scope.

Section Left.
Context {A : coeffs}.
Implicit Types m : mat A.
Hypothesis HA : ring_laws A.
Let HA' : ring_theory (@k0 A) k1 kadd kmul ksub kopp eq := HA.
Add Ring Aring : HA'.
Hypothesis HFo : fourier_laws A.

Definition rmatvec_correct (P : mat A -> Prop) (Q : (nat -> A) -> Prop) fuel := forall d m F v, d < fuel ->
  wf m -> fft_ready m -> depth_le d m -> P m -> Q v -> represents m F ->
  exists r, rmatvec fuel m v = Ok r /\ forall j, j < width m -> r j = vec_times (height m) v F j.

Lemma vec_times_ext h (v v' : nat -> A) F j : (forall i, i < h -> v i = v' i) ->
  vec_times h v F j = vec_times h v' F j.
Proof. intros H. apply ksum_ext. intros i Hi. now rewrite H. Qed.

Definition anyv (v : nat -> A) := True.
Definition realv (v : nat -> A) := forall i, kconj (v i) = v i.

Lemma rmatvec_leaf fuel (m : mat A) F v : is_block m = false -> wf m -> represents m F ->
  exists r, rmatvec (S fuel) m v = Ok r /\ forall j, j < width m -> r j = vec_times (height m) v F j.
Proof.
  intros Hb Hwf HF. destruct m as [e|h w f|h w r l rr|c nr nc hs ws b]; [destruct Hwf| | |discriminate].
  - cbn in *. eexists; split; [reflexivity|]. intros j Hj. apply ksum_ext. intros i Hi. now rewrite HF.
  - cbn in *. eexists; split; [reflexivity|]. intros j Hj. unfold vec_times.
    rewrite (ksum_ext A h _ (fun i => ksum r (fun p => kmul (kmul (v i) (l i p)) (rr p j)))).
    2:{ intros i Hi. rewrite HF by auto. rewrite <- ksum_mul_l by exact HA. apply ksum_ext. intros; ring. }
    rewrite ksum_swap by exact HA. apply ksum_ext. intros p Hp. now rewrite ksum_mul_r.
Qed.

(** The loop of the plain class. *)
Lemma rmatvec_plain (P : mat A -> Prop) (Q : (nat -> A) -> Prop) fuel d nr nc hs ws (b : nat -> nat -> mat A) F v :
  rmatvec_correct P Q fuel -> d < fuel ->
  wf (Blk Plain nr nc hs ws b) -> fft_ready (Blk Plain nr nc hs ws b) -> depth_le (S d) (Blk Plain nr nc hs ws b) ->
  (forall i j, i < nr -> j < nc -> P (b i j)) -> (forall s, Q (slice v s)) ->
  represents (Blk Plain nr nc hs ws b) F ->
  exists r, rmatvec (S fuel) (Blk Plain nr nc hs ws b) v = Ok r /\
    forall j, j < width (Blk Plain nr nc hs ws b) -> r j = vec_times (height (Blk Plain nr nc hs ws b)) v F j.
Proof.
  intros IH Hd Hwf Hr Hdep HP HQ HF. cbn [rmatvec].
  destruct (plain_loop HA nc nr ws (fun ji => rmatvec fuel (b (snd ji) (fst ji)) (slice v (nsum (snd ji) hs)))
     (fun J I q => ksum (hs I) (fun i => kmul (v (nsum I hs + i)) (F (nsum I hs + i) (nsum J ws + q))))) as (res & E & Hres).
  { intros J I HJ HI. cbn [fst snd]. pose proof (HF I J HI HJ) as HB. destruct (proj2 Hwf I J HI HJ) as [Hw Hs].
    destruct (IH d (b I J) _ (slice v (nsum I hs)) Hd Hw (Hr I J HI HJ) (Hdep I J HI HJ) (HP I J HI HJ) (HQ _) HB) as (x & Ex & Hx).
    exists x. split; [exact Ex|]. intros q Hq. unfold height, width in Hx. rewrite Hs in Hx. apply Hx. exact Hq. }
  exists res. split; [exact E|]. intros j Hj. unfold height, width in *. cbn [shape fst snd] in *.
  destruct (nsum_locate _ _ _ Hj) as (J & q & HJ & Hq & ->).
  rewrite Hres by auto. unfold vec_times. now rewrite ksum_blocks.
Qed.

Lemma rmatvec_plain_tree fuel : rmatvec_correct plain_tree anyv fuel.
Proof.
  induction fuel as [|fuel IH]; intros d m F v Hd Hwf Hr Hdep Hp _ HF; [lia|].
  destruct (is_block m) eqn:Eb; [|now apply rmatvec_leaf].
  destruct m as [e|h w f|h w r l rr|c nr nc hs ws b]; try discriminate.
  destruct Hp as [-> Hp]. destruct d as [|d]; [destruct Hdep|].
  apply (rmatvec_plain plain_tree anyv fuel d); auto; [lia|]. intros s; exact I.
Qed.

Definition circulant_rmatvec fuel c nc hs ws b (v : nat -> A) :=
  let v := fun i => kconj (v i) in
  let n := fst (nb_blocks c 1 nc) in
  let h := hs 0 in let w := ws 0 in
  let D := block_diagonalize fuel n nc (b 0) (fun i => all_blocks c 1 nc b i 0) in
  bind (collect n (fun k => rmatvec fuel (D k) (fun i => ifft n (fun p => v (p * h + i)) k)))
       (fun rs => Ok (fun j => fft n (fun k => nth k rs zeros (j mod w)) (j / w))).

(** The product of the conjugate of the vector. *)
Lemma circulant_rmatvec_ok fuel d c nc hs ws (b : nat -> nat -> mat A) F v :
  circular c -> d < fuel ->
  wf (Blk c 1 nc hs ws b) -> fft_ready (Blk c 1 nc hs ws b) -> (forall j, j < nc -> depth_le d (b 0 j)) ->
  (forall k, k < nc -> plain_tree (b 0 k)) ->
  represents (Blk c 1 nc hs ws b) F ->
  exists r, circulant_rmatvec fuel c nc hs ws b v = Ok r /\
    forall j, j < nblocks c nc * ws 0 -> r j = vec_times (nblocks c nc * hs 0) (fun i => kconj (v i)) F j.
Proof.
  intros Hcirc Hd Hwf Hrdy Hdep Hp HF. pose proof (circular_not_plain c Hcirc) as Hc.
  unfold circulant_rmatvec. fold (nblocks c nc). set (n := nblocks c nc). set (h := hs 0). set (w := ws 0).
  cbv zeta. set (u := fun i => kconj (v i)).
  pose proof (proj1 (fft_ready_structured _ _ _ _ _ _ Hc) Hrdy) as (_ & Huni & Hr).
  pose proof (proj1 (wf_structured _ _ _ _ _ _ Hc) Hwf) as (_ & Hv & Hw).
  assert (Hnc : 0 < nc).
  { clear - Hv Hcirc. destruct Hcirc as [->|[->| ->]]; cbn in Hv; lia. }
  set (D := block_diagonalize fuel n nc (b 0) (fun i => all_blocks c 1 nc b i 0)).
  assert (HD : forall k, k < n -> exists r,
     rmatvec fuel (D k) (fun i => ifft n (fun p => u (p * h + i)) k) = Ok r /\
     forall j, j < w -> r j = ksum h (fun i => kmul (ifft n (fun p => u (p * h + i)) k) (fft n (fun t => F (t * h + i) j) k))).
  { intros k Hk.
    destruct (block_diagonalize_ok d fuel c nc hs ws b F k Hcirc ltac:(lia) Hwf HF Huni Hdep) as (D1 & D2 & D3 & D4).
    fold n h w in D1, D2, D3, D4. fold D in D1, D2, D3, D4.
    assert (D5 : fft_ready (D k)).
    { destruct (is_block (D k)) eqn:Eb.
      - apply (alike_ready (b 0 0)); [apply Hw; auto|auto|auto].
      - destruct (D k); try discriminate Eb; exact I. }
    assert (D6 : depth_le d (D k)).
    { destruct (is_block (D k)) eqn:Eb.
      - eapply alike_depth; [apply D3; reflexivity|auto].
      - destruct (D k); try discriminate Eb; destruct d; exact I. }
    assert (D7 : plain_tree (D k)).
    { destruct (is_block (D k)) eqn:Eb.
      - eapply alike_plain; [apply D3; reflexivity|auto].
      - destruct (D k); try discriminate Eb; exact I. }
    destruct (rmatvec_plain_tree fuel d (D k) _ (fun i => ifft n (fun p => u (p * h + i)) k) Hd D1 D5 D6 D7 I D4) as (r & Er & Hr').
    exists r. split; [exact Er|]. intros j Hj. unfold height, width in Hr'. rewrite D2 in Hr'. apply Hr'. exact Hj. }
  destruct (collect_ok n _ _ zeros HD) as (rs & Ers & _ & Hrs).
  change (collect n _) with (collect n (fun k => rmatvec fuel (D k) (fun i => ifft n (fun p => u (p * h + i)) k))).
  rewrite Ers. cbn [bind].
  eexists; split; [reflexivity|]. intros j Hj. cbv beta.
  assert (Hh : 0 < w) by (destruct w; [rewrite Nat.mul_0_r in Hj|]; lia).
  set (J := j / w). set (q := j mod w).
  assert (Hq : q < w) by (apply Nat.mod_upper_bound; lia).
  assert (HJ : J < n) by (apply Nat.div_lt_upper_bound; lia).
  assert (Ej : j = J * w + q) by (unfold J, q; rewrite Nat.mul_comm; apply Nat.div_mod; lia).
  rewrite (fft_ext A n _ (fun k => ksum h (fun i => kmul (ifft n (fun p => u (p * h + i)) k) (fft n (fun t => F (t * h + i) q) k)))).
  2:{ intros k Hk. now rewrite Hrs. }
  rewrite (fft_sum A HA n h (fun i k => kmul (ifft n (fun p => u (p * h + i)) k) (fft n (fun t => F (t * h + i) q) k))).
  unfold vec_times. rewrite ksum_blocks_const, ksum_swap by exact HA.
  apply ksum_ext. intros i Hi. rewrite (correlation A HA HFo) by auto.
  apply ksum_ext. intros I HI. f_equal. rewrite Ej.
  exact (circular_entries c nc hs ws b F I J i q Hcirc Hwf HF HI HJ Hi Hq).
Qed.

Lemma sum_padded_l (n p : nat) (f : nat -> A) (v : nat -> A) : n <= p ->
  ksum p (fun j => kmul (if j <? n then v j else k0) (f j)) = ksum n (fun j => kmul (v j) (f j)).
Proof.
  intros H. replace p with (n + (p - n)) by lia. rewrite ksum_split by exact HA.
  rewrite (ksum_ext A (p - n) _ (fun _ => k0)).
  2:{ intros i Hi. destruct (Nat.ltb_spec (n + i) n); [lia|ring]. }
  rewrite ksum_zero by exact HA.
  rewrite (ksum_ext A n _ (fun j => kmul (v j) (f j))); [ring|].
  intros i Hi. now rewrite (proj2 (Nat.ltb_lt i n) Hi).
Qed.

(** Structured matrices with plain blocks: conjugate of the vector. *)
Lemma structured_rmatvec fuel d c nr nc hs ws (b : nat -> nat -> mat A) F v :
  kconj (@k0 A) = k0 -> c <> Plain -> d < fuel -> wf (Blk c nr nc hs ws b) -> fft_ready (Blk c nr nc hs ws b) ->
  depth_le (S d) (Blk c nr nc hs ws b) -> (forall k, k < nc -> plain_tree (b 0 k)) ->
  represents (Blk c nr nc hs ws b) F ->
  exists r, rmatvec (S fuel) (Blk c nr nc hs ws b) v = Ok r /\
    forall j, j < width (Blk c nr nc hs ws b) ->
      r j = vec_times (height (Blk c nr nc hs ws b)) (fun i => kconj (v i)) F j.
Proof.
  intros Hk0 Hc Hd Hwf Hr Hdep Hp HF.
  pose proof (proj1 (wf_structured _ _ _ _ _ _ Hc) Hwf) as (-> & Hv & Hw).
  assert (Hdep0 : forall j, j < nc -> depth_le d (b 0 j)) by (intros; apply Hdep; lia).
  assert (Ewid : width (Blk c 1 nc hs ws b) = nblocks c nc * ws 0).
  { unfold width. rewrite shape_blk. cbn [snd]. rewrite widths_structured by exact Hc.
    destruct (gr_nblocks c 1 nc Hc) as [_ ->]. reflexivity. }
  assert (Ehei : height (Blk c 1 nc hs ws b) = nblocks c nc * hs 0).
  { unfold height. rewrite shape_blk. cbn [fst]. rewrite heights_structured by exact Hc.
    destruct (gr_nblocks c 1 nc Hc) as [-> _]. reflexivity. }
  assert (Htop : forall c', c = Toeplitz /\ c' = Circulant \/ c = SymToeplitz /\ c' = EvenCirculant /\ 2 <= nc ->
    exists r, circulant_rmatvec fuel c' nc hs ws b (fun i => if i <? height (Blk c 1 nc hs ws b) then v i else k0) = Ok r /\
      forall j, j < width (Blk c 1 nc hs ws b) -> r j = vec_times (height (Blk c 1 nc hs ws b)) (fun i => kconj (v i)) F j).
  { intros c' Hcc. destruct (super_wf c c' nc hs ws b Hcc Hwf) as [Hwf' Hle].
    assert (Hcirc' : circular c') by (destruct Hcc as [[_ ->]|(_ & -> & _)]; unfold circular; auto).
    pose proof (represents_entry _ Hwf') as HF'.
    assert (Hr' : fft_ready (Blk c' 1 nc hs ws b)).
    { apply fft_ready_structured; [now apply circular_not_plain|].
      apply fft_ready_structured in Hr; [|exact Hc]. destruct Hr as (_ & H2 & H3).
      split; [|auto]. intros ->. destruct Hcc as [[_ H]|(_ & H & _)]; discriminate H. }
    destruct (circulant_rmatvec_ok fuel d c' nc hs ws b _
       (fun j => if j <? height (Blk c 1 nc hs ws b) then v j else k0) Hcirc' Hd Hwf' Hr' Hdep0 Hp HF') as (r & Er & Hres).
    exists r. split; [exact Er|]. rewrite Ehei, Ewid in *. intros j Hj.
    rewrite Hres by (eapply Nat.lt_le_trans; [exact Hj|]; now apply Nat.mul_le_mono_r).
    unfold vec_times.
    rewrite (ksum_ext A _ _ (fun i => kmul (if i <? nblocks c nc * hs 0 then kconj (v i) else k0) (entry (Blk c' 1 nc hs ws b) i j))).
    2:{ intros i Hi. f_equal. destruct (_ <? _); [reflexivity|exact Hk0]. }
    rewrite (sum_padded_l _ _ (fun i => entry (Blk c' 1 nc hs ws b) i j) (fun i => kconj (v i))) by (now apply Nat.mul_le_mono_r).
    apply ksum_ext. intros i Hi. f_equal. now apply (toeplitz_super c c' nc hs ws b). }
  assert (Hcir : circular c -> exists r, circulant_rmatvec fuel c nc hs ws b v = Ok r /\
      forall j, j < width (Blk c 1 nc hs ws b) -> r j = vec_times (height (Blk c 1 nc hs ws b)) (fun i => kconj (v i)) F j).
  { intros Hcirc. rewrite Ehei, Ewid. apply (circulant_rmatvec_ok fuel d); auto. }
  destruct c; [congruence| | | | |].
  - apply (Htop Circulant). auto.
  - apply fft_ready_structured in Hr; [|exact Hc]. destruct Hr as (H2 & _). specialize (H2 eq_refl).
    destruct (Htop EvenCirculant) as (r & Er & Hres); [auto|].
    exists r. split; [|exact Hres]. cbn [rmatvec].
    destruct (Nat.ltb_spec (fst (nb_blocks EvenCirculant 1 nc) * hs 0) (height (Blk SymToeplitz 1 nc hs ws b))) as [Hlt|Hge].
    { exfalso. rewrite Ehei in Hlt. unfold nblocks in Hlt. cbn [nb_blocks fst snd] in Hlt.
      assert (nc <= (nc - 1) * 2) by lia. apply (Nat.mul_le_mono_r _ _ (hs 0)) in H. lia. }
    exact Er.
  - apply Hcir. unfold circular; auto.
  - apply Hcir. unfold circular; auto.
  - apply Hcir. unfold circular; auto.
Qed.

Lemma rmatvec_real fuel : kconj (@k0 A) = k0 -> rmatvec_correct one_level realv fuel.
Proof.
  intros Hk0. induction fuel as [|fuel IH]; intros d m F v Hd Hwf Hr Hdep Hp Hv HF; [lia|].
  destruct (is_block m) eqn:Eb; [|now apply rmatvec_leaf].
  destruct m as [e|h w f|h w r l rr|c nr nc hs ws b]; try discriminate.
  destruct d as [|d]; [destruct Hdep|].
  destruct (plain_dec c) as [->|Hc].
  - apply (rmatvec_plain one_level realv fuel d); auto; [lia|]. intros s i. apply Hv.
  - destruct (structured_rmatvec fuel d c nr nc hs ws b F v Hk0 Hc ltac:(lia) Hwf Hr Hdep) as (r & Er & Hres); auto.
    { destruct c; try exact Hp. congruence. }
    exists r. split; [exact Er|]. intros j Hj. rewrite Hres by auto. apply vec_times_ext. intros; apply Hv.
Qed.
End Left.
