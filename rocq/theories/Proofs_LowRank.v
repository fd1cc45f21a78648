From Coq Require Import Reals.
From Coquelicot Require Import Complex.
From Coq Require Import List Arith Bool Lia Lra Ring.
From Verif Require Import Model_Base Model_Ring Spec_Ring Proofs_Ring Model_Block Model_LowRank Spec_LowRank.
Import ListNotations.
Open Scope nat_scope.

Section Algebra.
Context {A : coeffs}.
Hypothesis HA : ring_laws A.
Let HA' : ring_theory (@k0 A) k1 kadd kmul ksub kopp eq := HA.
Add Ring Aring : HA'.

Lemma new_low_rank_ok (l r : array2 A) :
  (exists m, new_low_rank l r = Ok m) <-> a_w l = a_h r /\ a_complex l = a_complex r.
Proof.
  unfold new_low_rank. split.
  - intros [m H]. destruct (Nat.eqb_spec (a_w l) (a_h r)); [|discriminate].
    destruct (Bool.eqb (a_complex l) (a_complex r)) eqn:E; [|discriminate]. apply eqb_prop in E. now split.
  - intros [-> ->]. rewrite Nat.eqb_refl, eqb_reflx. eauto.
Qed.
Lemma new_low_rank_inv (l r : array2 A) m : new_low_rank l r = Ok m -> m = LowRank l r /\ lr_valid m.
Proof.
  unfold new_low_rank. destruct (Nat.eqb_spec (a_w l) (a_h r)); [|discriminate].
  destruct (Bool.eqb (a_complex l) (a_complex r)) eqn:E; [|discriminate].
  apply eqb_prop in E. intros [= <-]. split; [reflexivity|split; assumption].
Qed.
Lemma represents_valid (m : low_rank A) : lr_valid m ->
  represents m (a_h (lr_left m)) (a_w (lr_right m))
    (fun i j => ksum (lr_rank m) (fun p => kmul (a_at (lr_left m) i p) (a_at (lr_right m) p j))).
Proof.
  intros [H _]. unfold represents, lr_full, np_matmul. rewrite H, Nat.eqb_refl.
  eexists; split; [reflexivity|]. cbn. unfold lr_rank. rewrite <- H. tauto.
Qed.
Lemma represents_unique (m : low_rank A) h w F h' w' F' :
  represents m h w F -> represents m h' w' F' ->
  h = h' /\ w = w' /\ forall i j, i < h -> j < w -> F i j = F' i j.
Proof.
  intros (x & E & Hh & Hw & HF) (y & E' & Hh' & Hw' & HF'). rewrite E in E'. injection E' as <-.
  repeat split; try congruence. intros i j Hi Hj. rewrite <- HF, <- HF'; auto; congruence.
Qed.
Lemma represents_ext (m : low_rank A) h w F F' :
  (forall i j, i < h -> j < w -> F i j = F' i j) -> represents m h w F -> represents m h w F'.
Proof.
  intros HE (x & E & Hh & Hw & HF). exists x. repeat split; auto. intros i j Hi Hj. rewrite HF, HE; auto.
Qed.
Lemma represents_inv (m : low_rank A) h w F : represents m h w F ->
  a_h (lr_left m) = h /\ a_w (lr_right m) = w /\ a_w (lr_left m) = a_h (lr_right m) /\
  forall i j, i < h -> j < w -> F i j = ksum (lr_rank m) (fun p => kmul (a_at (lr_left m) i p) (a_at (lr_right m) p j)).
Proof.
  intros (x & E & Hh & Hw & HF). unfold lr_full, np_matmul in E.
  destruct (Nat.eqb_spec (a_w (lr_left m)) (a_h (lr_right m))) as [Hm|]; [|discriminate].
  injection E as <-. cbn in *. repeat split; auto. intros i j Hi Hj. rewrite <- HF by auto. reflexivity.
Qed.

Lemma lr_neg_ok (m : low_rank A) h w F : lr_valid m -> represents m h w F ->
  exists m', lr_neg m = Ok m' /\ lr_valid m' /\ lr_rank m' = lr_rank m /\ represents m' h w (fun i j => kopp (F i j)).
Proof.
  intros HV HR. destruct (represents_inv _ _ _ _ HR) as (Hh & Hw & Hm & HF).
  unfold lr_neg, new_low_rank. cbn. destruct HV as [Hm' Hc]. rewrite Hm', Hc, Nat.eqb_refl, eqb_reflx.
  eexists; split; [reflexivity|]. cbn. split; [split; cbn; auto; now rewrite Hm'|].
  split; [unfold lr_rank; cbn; congruence|].
  assert (HV' : lr_valid (LowRank (@Array2 A (a_h (lr_left m)) (a_h (lr_right m)) (a_complex (lr_right m))
     (fun i j => kopp (a_at (lr_left m) i j))) (lr_right m))) by (split; reflexivity).
  generalize (represents_valid _ HV'). cbn. subst h w. apply represents_ext.
  intros i j Hi Hj. rewrite HF by auto. unfold lr_rank. cbn. rewrite Hm'.
  transitivity (ksum (a_h (lr_right m)) (fun p => ksub k0 (kmul (a_at (lr_left m) i p) (a_at (lr_right m) p j)))).
  { apply ksum_ext; intros; ring. }
  rewrite (ksum_sub _ HA), (ksum_zero _ HA). ring.
Qed.

Lemma lr_truediv_ok (m : low_rank A) h w F cplx inv : lr_valid m -> represents m h w F ->
  (cplx = true -> a_complex (lr_left m) = true) ->
  exists m', lr_truediv m cplx inv = Ok m' /\ lr_valid m' /\ lr_rank m' = lr_rank m /\
    represents m' h w (fun i j => kmul (F i j) inv).
Proof.
  intros HV HR HC. destruct (represents_inv _ _ _ _ HR) as (Hh & Hw & Hm & HF).
  unfold lr_truediv, new_low_rank. cbn. destruct HV as [Hm' Hc]. rewrite Hm', Nat.eqb_refl.
  assert (E : a_complex (lr_right m) || cplx = a_complex (lr_left m)).
  { rewrite Hc in *. destruct cplx; [rewrite HC by reflexivity|]; now destruct (a_complex (lr_right m)). }
  rewrite E, eqb_reflx. eexists; split; [reflexivity|]. cbn.
  assert (HV' : lr_valid (LowRank (lr_left m) (@Array2 A (a_h (lr_right m)) (a_w (lr_right m)) (a_complex (lr_left m))
     (fun i j => kmul (a_at (lr_right m) i j) inv)))) by (split; auto).
  split; [exact HV'|]. split; [reflexivity|].
  generalize (represents_valid _ HV'). cbn. subst h w. apply represents_ext.
  intros i j Hi Hj. rewrite HF by auto. unfold lr_rank. cbn.
  rewrite <- (ksum_mul_r _ HA). apply ksum_ext; intros; ring.
Qed.
Lemma lr_matvec_ok (m : low_rank A) h w F v : represents m h w F ->
  exists y, lr_matvec m w v = Ok y /\ forall i, i < h -> y i = ksum w (fun j => kmul (F i j) (v j)).
Proof.
  intros HR. destruct (represents_inv _ _ _ _ HR) as (Hh & Hw & Hm & HF).
  unfold lr_matvec. rewrite Hw, Nat.eqb_refl. eexists; split; [reflexivity|]. intros i Hi. cbn.
  transitivity (ksum w (fun j => ksum (lr_rank m) (fun p => kmul (kmul (a_at (lr_left m) i p) (a_at (lr_right m) p j)) (v j)))).
  - rewrite (ksum_swap _ HA). apply ksum_ext. intros p Hp. rewrite <- (ksum_mul_l _ HA).
    apply ksum_ext. intros; ring.
  - apply ksum_ext. intros j Hj. rewrite HF by auto. now rewrite (ksum_mul_r _ HA).
Qed.
Lemma lr_rmatvec_ok (m : low_rank A) h w F v : represents m h w F ->
  exists y, lr_rmatvec m h v = Ok y /\ forall j, j < w -> y j = ksum h (fun i => kmul (v i) (F i j)).
Proof.
  intros HR. destruct (represents_inv _ _ _ _ HR) as (Hh & Hw & Hm & HF).
  unfold lr_rmatvec. rewrite Hh, Nat.eqb_refl. eexists; split; [reflexivity|]. intros j Hj. cbn.
  transitivity (ksum h (fun i => ksum (lr_rank m) (fun p => kmul (v i) (kmul (a_at (lr_left m) i p) (a_at (lr_right m) p j))))).
  - rewrite (ksum_swap _ HA). unfold lr_rank. rewrite Hm. apply ksum_ext. intros p Hp. rewrite <- (ksum_mul_r _ HA).
    apply ksum_ext. intros; ring.
  - apply ksum_ext. intros i Hi. rewrite HF by auto. now rewrite (ksum_mul_l _ HA).
Qed.

Lemma rank_represents (m : low_rank A) h w F : represents m h w F -> rank_at_most (lr_rank m) h w F.
Proof.
  intros HR. destruct (represents_inv _ _ _ _ HR) as (Hh & Hw & Hm & HF).
  exists (fun p i => a_at (lr_left m) i p), (fun p j => a_at (lr_right m) p j). exact HF.
Qed.
Lemma rank_mono r r' h w (F : nat -> nat -> A) : r <= r' -> rank_at_most r h w F -> rank_at_most r' h w F.
Proof.
  intros Hr (u & v & H). exists (fun p i => if p <? r then u p i else k0), v. intros i j Hi Hj.
  replace r' with (r + (r' - r)) by lia. rewrite (ksum_split _ HA), H by auto.
  transitivity (kadd (ksum r (fun p => kmul (u p i) (v p j))) k0); [ring|]. f_equal.
  - apply ksum_ext. intros p Hp. now destruct (Nat.ltb_spec p r); [|lia].
  - symmetry. transitivity (ksum (r' - r) (fun _ => @k0 A)); [|now apply (ksum_zero _ HA)].
    apply ksum_ext. intros p Hp. destruct (Nat.ltb_spec (r + p) r); [lia|]. ring.
Qed.

(** Truncated singular value decomposition. *)
Lemma np_matmul_inv (x y z : array2 A) : np_matmul x y = Ok z ->
  a_w x = a_h y /\ a_h z = a_h x /\ a_w z = a_w y /\ a_complex z = a_complex x || a_complex y /\
  forall i j, a_at z i j = ksum (a_w x) (fun p => kmul (a_at x i p) (a_at y p j)).
Proof.
  unfold np_matmul. destruct (Nat.eqb_spec (a_w x) (a_h y)); [|discriminate]. intros [= <-]. cbn. tauto.
Qed.
Lemma diag_product n len (s u : nat -> A) j : j < Nat.min n len ->
  ksum (Nat.min n len) (fun p => kmul (u p) (a_at (diag n len s) p j)) = kmul (u j) (s j).
Proof.
  intros Hj. rewrite (ksum_single _ HA _ j); [|exact Hj|intros i Hi Hij; cbn; destruct (Nat.eqb_spec i j); [lia|ring]].
  cbn. now rewrite Nat.eqb_refl.
Qed.

Section Oracles.
Variable svd : array2 A -> array2 A * (nat -> A) * array2 A.
Variable qr : array2 A -> array2 A * array2 A.
Hypothesis Hsvd : svd_shapes svd.
Hypothesis Hqr : qr_shapes qr.

Lemma from_svd_ok (x : array2 A) r u s v : svd x = (u, s, v) -> svd_product x u s v ->
  r <= Nat.min (a_h x) (a_w x) \/ a_h x = a_w x ->
  let k := Nat.min r (Nat.min (a_h x) (a_w x)) in
  exists m, from_svd svd x r = Ok m /\ lr_rank m = k /\
    represents m (a_h x) (a_w x) (fun i j =>
      ksub (a_at x i j) (ksum (Nat.min (a_h x) (a_w x) - k) (fun p => kmul (kmul (a_at u i (k + p)) (s (k + p))) (a_at v (k + p) j)))).
Proof.
  intros E HP Hr k. unfold from_svd. rewrite E. destruct (Hsvd _ _ _ _ E) as (H1 & H2 & H3 & H4 & H5 & H6).
  assert (Hk : a_w (first_cols r u) = k) by (cbn; unfold k; lia).
  assert (Hk' : a_h (diag r (Nat.min (a_h x) (a_w x)) s) = k) by reflexivity.
  unfold np_matmul. rewrite Hk, Hk', Nat.eqb_refl. cbn [bind].
  unfold new_low_rank. cbn [a_w a_h a_complex first_rows].
  assert (Hk2 : a_w (diag r (Nat.min (a_h x) (a_w x)) s) = k) by reflexivity.
  assert (Hk3 : Nat.min r (a_h v) = k) by (unfold k; lia).
  rewrite Hk2, Hk3, Nat.eqb_refl. cbn [first_cols a_complex diag]. rewrite orb_false_r, H5, H6, eqb_reflx.
  eexists; split; [reflexivity|]. split; [reflexivity|].
  unfold represents, lr_full, np_matmul. cbn [lr_left lr_right a_w a_h a_at a_complex first_cols first_rows].
  rewrite Hk3, Nat.eqb_refl. eexists; split; [reflexivity|]. cbn [a_w a_h a_at].
  split; [exact H1|]. split; [exact H4|]. intros i j Hi Hj.
  rewrite (HP i j) by auto.
  assert (Hs : forall f : nat -> A, ksum (Nat.min (a_h x) (a_w x)) f
     = kadd (ksum k f) (ksum (Nat.min (a_h x) (a_w x) - k) (fun p => f (k + p)))).
  { intros f. rewrite <- (ksum_split _ HA). f_equal. unfold k; lia. }
  rewrite Hs.
  transitivity (ksum k (fun p => kmul (kmul (a_at u i p) (s p)) (a_at v p j))); [|ring].
  apply ksum_ext. intros p Hp. f_equal. unfold k in *. now rewrite diag_product.
Qed.
Lemma from_svd_fails (x : array2 A) r :
  ~ (r <= Nat.min (a_h x) (a_w x) \/ a_h x = a_w x) -> exists e, from_svd svd x r = Err e.
Proof.
  intros Hr. unfold from_svd. destruct (svd x) as [[u s] v] eqn:E.
  destruct (Hsvd _ _ _ _ E) as (H1 & H2 & H3 & H4 & H5 & H6).
  unfold np_matmul. cbn [first_cols a_w a_h diag].
  destruct (Nat.eqb_spec (Nat.min r (a_w u)) (Nat.min r (Nat.min (a_h x) (a_w x)))) as [E1|]; [|cbn; eauto].
  cbn [bind]. unfold new_low_rank. cbn [a_w a_h first_rows].
  destruct (Nat.eqb_spec (Nat.min r (Nat.min (a_h x) (a_w x))) (Nat.min r (a_h v))) as [E2|]; [|cbn; eauto]. lia.
Qed.

(** recompress: the rank is bounded. *)
Lemma recompress_rank (m m' : low_rank A) r : recompress svd qr m r = Ok m' ->
  lr_rank m' <= r /\ lr_valid m'.
Proof.
  unfold recompress. destruct (qr (lr_left m)) as [QA RA], (qr (transpose (lr_right m))) as [QB RB].
  destruct (np_matmul RA (transpose RB)) as [x|] eqn:Ex; [|discriminate]. cbn [bind].
  destruct (svd x) as [[U s] Vh].
  destruct (np_matmul (first_cols r U) _) as [us|] eqn:Eus; [|discriminate]. cbn [bind].
  destruct (np_matmul QA us) as [l|] eqn:El; [|discriminate]. cbn [bind].
  destruct (np_matmul QB _) as [B|] eqn:EB; [|discriminate]. cbn [bind].
  intros H. apply new_low_rank_inv in H. destruct H as [-> HV]. split; [|exact HV].
  apply np_matmul_inv in Eus, El. unfold lr_rank. cbn. destruct El as (_ & _ & -> & _), Eus as (_ & _ & -> & _).
  cbn. lia.
Qed.
Lemma lr_add_rank (m n m' : low_rank A) : lr_add svd qr m n = Ok m' ->
  lr_rank m' <= Nat.min (lr_rank m) (lr_rank n).
Proof.
  unfold lr_add. destruct (lr_join m n); [|discriminate]. cbn. intros H. now apply recompress_rank in H.
Qed.
Lemma lr_join_ok (m n : low_rank A) h w F G : lr_valid m -> lr_valid n -> a_complex (lr_left m) = a_complex (lr_left n) ->
  represents m h w F -> represents n h w G ->
  exists x, lr_join m n = Ok x /\ lr_valid x /\ lr_rank x = lr_rank m + lr_rank n /\
    represents x h w (fun i j => kadd (F i j) (G i j)).
Proof.
  intros HV HV' HC HR HR'. destruct (represents_inv _ _ _ _ HR) as (Hh & Hw & Hm & HF).
  destruct (represents_inv _ _ _ _ HR') as (Hh' & Hw' & Hm' & HF').
  destruct HV as [_ Hc], HV' as [_ Hc'].
  unfold lr_join, concat_cols, concat_rows. rewrite Hh, Hh', Hw, Hw', !Nat.eqb_refl. cbn [bind].
  unfold new_low_rank. cbn [a_w a_h a_complex]. rewrite Hm, Hm', Nat.eqb_refl, <- Hc, <- Hc', HC, eqb_reflx.
  eexists; split; [reflexivity|]. split; [split; reflexivity|]. unfold lr_rank; cbn [lr_left lr_right a_w].
  split; [congruence|]. unfold represents, lr_full, np_matmul. cbn [lr_left lr_right a_w a_h a_at].
  rewrite Nat.eqb_refl. eexists; split; [reflexivity|]. cbn [a_w a_h a_at]. split; [reflexivity|]. split; [reflexivity|].
  intros i j Hi Hj. rewrite (ksum_split _ HA), HF, HF' by auto. unfold lr_rank. rewrite Hm, Hm'. f_equal; apply ksum_ext.
  - intros p Hp. now destruct (Nat.ltb_spec p (a_h (lr_right m))); [|lia].
  - intros p Hp. destruct (Nat.ltb_spec (a_h (lr_right m) + p) (a_h (lr_right m))); [lia|].
    now replace (a_h (lr_right m) + p - a_h (lr_right m)) with p by lia.
Qed.
(** recompress fails when the two triangular factors have different sizes, smaller than the rank
    asked for. *)
Lemma recompress_fails (m : low_rank A) r : lr_valid m ->
  Nat.min r (Nat.min (a_h (lr_left m)) (lr_rank m)) <> Nat.min r (Nat.min (a_w (lr_right m)) (lr_rank m)) ->
  exists e, recompress svd qr m r = Err e.
Proof.
  intros [Hm Hc] Hr. unfold recompress. destruct (qr (lr_left m)) as [QA RA] eqn:E1, (qr (transpose (lr_right m))) as [QB RB] eqn:E2.
  destruct (Hqr _ _ _ E1) as (_ & _ & HhA & HwA & _). destruct (Hqr _ _ _ E2) as (_ & _ & HhB & HwB & _).
  cbn [transpose a_h a_w] in *.
  destruct (np_matmul RA (transpose RB)) as [x|] eqn:Ex; [|cbn [bind]; eauto]. cbn [bind].
  destruct (np_matmul_inv _ _ _ Ex) as (_ & Hhx & Hwx & _). cbn [transpose a_h a_w] in *.
  destruct (svd x) as [[U s] Vh] eqn:Es. destruct (Hsvd _ _ _ _ Es) as (H1 & H2 & H3 & H4 & _).
  destruct (np_matmul (first_cols r U) _) as [us|] eqn:Eus; [|cbn [bind]; eauto]. cbn [bind].
  destruct (np_matmul_inv _ _ _ Eus) as (Hu & _ & Hwu & _). cbn [first_cols diag a_h a_w] in *.
  destruct (np_matmul QA us) as [l|] eqn:El; [|cbn [bind]; eauto]. cbn [bind].
  destruct (np_matmul_inv _ _ _ El) as (_ & _ & Hwl & _).
  destruct (np_matmul QB _) as [B|] eqn:EB; [|cbn [bind]; eauto]. cbn [bind].
  destruct (np_matmul_inv _ _ _ EB) as (_ & _ & HwB' & _). cbn [first_cols a_w] in HwB'.
  unfold new_low_rank. cbn [transpose a_h]. destruct (Nat.eqb_spec (a_w l) (a_w B)) as [E|]; [|eauto].
  exfalso. apply Hr. unfold lr_rank in *. lia.
Qed.
End Oracles.
End Algebra.
