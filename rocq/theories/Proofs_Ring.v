(** Sums, the discrete Fourier transform, and the laws of the complex numbers. *)
From Coq Require Import Reals.
From Coquelicot Require Import Complex.
From Coq Require Import List Arith Lia Lra Ring Field.
From Verif Require Import Model_Ring Spec_Ring.
Import ListNotations.

Section Sums.
Variable A : coeffs.
Hypothesis HA : ring_laws A.
Let HA' : ring_theory (@k0 A) k1 kadd kmul ksub kopp eq := HA.
Add Ring Aring : HA'.

Lemma ksum_ext n (f g : nat -> A) : (forall i, i < n -> f i = g i) -> ksum n f = ksum n g.
Proof. induction n; cbn; intros H; [reflexivity|]. rewrite IHn by (intros; apply H; lia). now rewrite (H n) by lia. Qed.
Lemma ksum_zero n : ksum n (fun _ => @k0 A) = k0.
Proof. induction n; cbn; [reflexivity|]. rewrite IHn. ring. Qed.
Lemma ksum_add n (f g : nat -> A) : ksum n (fun i => kadd (f i) (g i)) = kadd (ksum n f) (ksum n g).
Proof. induction n; cbn; [ring|]. rewrite IHn. ring. Qed.
Lemma ksum_sub n (f g : nat -> A) : ksum n (fun i => ksub (f i) (g i)) = ksub (ksum n f) (ksum n g).
Proof. induction n; cbn; [ring|]. rewrite IHn. ring. Qed.
Lemma ksum_mul_l n (c : A) f : ksum n (fun i => kmul c (f i)) = kmul c (ksum n f).
Proof. induction n; cbn; [ring|]. rewrite IHn. ring. Qed.
Lemma ksum_mul_r n (c : A) f : ksum n (fun i => kmul (f i) c) = kmul (ksum n f) c.
Proof. induction n; cbn; [ring|]. rewrite IHn. ring. Qed.
Lemma ksum_swap n m (f : nat -> nat -> A) :
  ksum n (fun i => ksum m (fun j => f i j)) = ksum m (fun j => ksum n (fun i => f i j)).
Proof.
  induction n; cbn.
  - now rewrite ksum_zero.
  - rewrite IHn, <- ksum_add. reflexivity.
Qed.
Lemma ksum_split n m (f : nat -> A) : ksum (n + m) f = kadd (ksum n f) (ksum m (fun i => f (n + i))).
Proof.
  induction m; cbn.
  - rewrite Nat.add_0_r. ring.
  - rewrite Nat.add_succ_r. cbn. rewrite IHm. ring.
Qed.
Lemma ksum_single n j (f : nat -> A) : j < n -> (forall i, i < n -> i <> j -> f i = k0) -> ksum n f = f j.
Proof.
  induction n; cbn; intros Hj H; [lia|].
  destruct (Nat.eq_dec j n) as [->|Hne].
  - rewrite (ksum_ext n f (fun _ => k0)) by (intros; apply H; lia). rewrite ksum_zero. ring.
  - rewrite IHn by (try lia; intros; apply H; lia). rewrite (H n) by lia. ring.
Qed.
(** Sum over a concatenation of slices. *)
Lemma ksum_blocks nb (w : nat -> nat) (f : nat -> A) :
  ksum (nsum nb w) f = ksum nb (fun b => ksum (w b) (fun j => f (nsum b w + j))).
Proof. induction nb; cbn; [reflexivity|]. rewrite ksum_split, IHnb. reflexivity. Qed.

Lemma nsum_const n c : nsum n (fun _ => c) = n * c.
Proof. induction n; cbn; lia. Qed.
Lemma ksum_blocks_const nb w (f : nat -> A) :
  ksum (nb * w) f = ksum nb (fun b => ksum w (fun j => f (b * w + j))).
Proof.
  rewrite <- (nsum_const nb w), ksum_blocks. apply ksum_ext; intros b _.
  apply ksum_ext; intros j _. now rewrite nsum_const.
Qed.

Lemma kpow_add (x : A) a b : kpow x (a + b) = kmul (kpow x a) (kpow x b).
Proof. induction a; cbn; [ring|]. rewrite IHa. ring. Qed.
Lemma kpow_mul_one (x : A) n k : kpow x n = k1 -> kpow x (n * k) = k1.
Proof.
  intros H. induction k; [now rewrite Nat.mul_0_r|].
  rewrite Nat.mul_succ_r, kpow_add, IHk, H. ring.
Qed.
Lemma kpow_mult (x y : A) n : kmul (kpow x n) (kpow y n) = kpow (kmul x y) n.
Proof. induction n; cbn; [ring|]. rewrite <- IHn. ring. Qed.
Lemma kpow_one n : kpow (@k1 A) n = k1.
Proof. induction n; cbn; [reflexivity|]. rewrite IHn. ring. Qed.

Hypothesis HF : fourier_laws A.

Lemma rooti_pow n : 0 < n -> kpow (@rooti A n) n = k1.
Proof.
  intros Hn. transitivity (kmul (kpow (@root A n) n) (kpow (rooti n) n)).
  - rewrite root_pow by auto. ring.
  - rewrite kpow_mult, root_inv by auto. apply kpow_one.
Qed.
Lemma root_mod n m : 0 < n -> kpow (@root A n) m = kpow (root n) (m mod n).
Proof.
  intros Hn. rewrite (Nat.div_mod m n) at 1 by lia.
  rewrite kpow_add, kpow_mul_one by (now apply root_pow). ring.
Qed.
Lemma rooti_mod n m : 0 < n -> kpow (@rooti A n) m = kpow (rooti n) (m mod n).
Proof.
  intros Hn. rewrite (Nat.div_mod m n) at 1 by lia.
  rewrite kpow_add, kpow_mul_one by (now apply rooti_pow). ring.
Qed.
(** A power of the inverse root is a power of the root. *)
Lemma rooti_root n a : 0 < n -> a <= n -> kpow (@rooti A n) a = kpow (root n) (n - a).
Proof.
  intros Hn Ha.
  transitivity (kmul (kmul (kpow (@root A n) (n - a)) (kpow (root n) a)) (kpow (rooti n) a)).
  - rewrite <- kpow_add. replace (n - a + a) with n by lia. rewrite root_pow by auto. ring.
  - transitivity (kmul (kpow (@root A n) (n - a)) (kmul (kpow (root n) a) (kpow (rooti n) a))); [ring|].
    rewrite kpow_mult, root_inv, kpow_one by auto. ring.
Qed.
Lemma ksum_const n (c : A) : ksum n (fun _ => c) = kmul c (ksum n (fun _ => k1)).
Proof. rewrite <- ksum_mul_l. apply ksum_ext; intros; ring. Qed.

(** Orthogonality: the sum over k of root^(k d) is n if n divides d and 0 otherwise. *)
Lemma root_orth n d : 0 < n ->
  kmul (ninv n) (ksum n (fun k => kpow (@root A n) (k * d))) = if Nat.eqb (d mod n) 0 then k1 else k0.
Proof.
  intros Hn.
  assert (E : ksum n (fun k => kpow (@root A n) (k * d)) = ksum n (fun k => kpow (@root A n) (k * (d mod n)))).
  { apply ksum_ext; intros k _. rewrite root_mod by auto. rewrite (root_mod n (k * (d mod n))) by auto.
    f_equal. now rewrite Nat.mul_mod_idemp_r by lia. }
  rewrite E. destruct (Nat.eqb_spec (d mod n) 0) as [->|Hd].
  - rewrite (ksum_ext n _ (fun _ => k1)) by (intros; now rewrite Nat.mul_0_r). now apply ninv_law.
  - rewrite root_sum. { ring. } auto. pose proof (Nat.mod_upper_bound d n). lia.
Qed.

Lemma kpow_pow (x : A) a b : kpow x (a * b) = kpow (kpow x a) b.
Proof.
  induction b; [now rewrite Nat.mul_0_r|].
  rewrite Nat.mul_succ_r, Nat.add_comm, kpow_add, IHb. reflexivity.
Qed.

(** root^(a k) * rooti^(b k) = root^(k (a - b)), with a - b taken modulo n. *)
Lemma root_rooti n a b k : 0 < n -> b <= n ->
  kmul (kpow (@root A n) (a * k)) (kpow (rooti n) (b * k)) = kpow (root n) (k * (a + (n - b))).
Proof.
  intros Hn Hb. rewrite (kpow_pow (root n) a k), (kpow_pow (rooti n) b k), (rooti_root n b Hn Hb), kpow_mult, <- kpow_add, <- kpow_pow.
  f_equal. apply Nat.mul_comm.
Qed.

(** Product of two transforms, transformed back: the cyclic convolution. *)
Lemma convolution n (c v : nat -> A) i : i < n ->
  ifft n (fun k => kmul (fft n c k) (fft n v k)) i
  = ksum n (fun j => kmul (c ((i + (n - j)) mod n)) (v j)).
Proof.
  intros Hi. assert (Hn : 0 < n) by lia. unfold ifft, fft.
  set (T := fun k p q => kmul (kmul (c p) (v q)) (kmul (kpow (@root A n) ((p + q) * k)) (kpow (rooti n) (i * k)))).
  rewrite (ksum_ext n _ (fun k => ksum n (fun q => ksum n (fun p => T k p q)))).
  2:{ intros k Hk. rewrite <- ksum_mul_r. rewrite <- ksum_mul_r.
      rewrite ksum_swap. apply ksum_ext; intros p Hp.
      rewrite <- ksum_mul_l, <- ksum_mul_r. apply ksum_ext; intros q Hq.
      unfold T. rewrite Nat.mul_add_distr_r, kpow_add, (Nat.mul_comm k i). ring. }
  rewrite ksum_swap, <- ksum_mul_l. apply ksum_ext; intros q Hq.
  rewrite ksum_swap, <- ksum_mul_l.
  rewrite (ksum_single n ((i + (n - q)) mod n)).
  - unfold T. rewrite (ksum_ext n _ (fun k => kmul (kmul (c ((i + (n - q)) mod n)) (v q)) (kpow (root n) (k * ((i + (n - q)) mod n + q + (n - i)))))).
    2:{ intros k Hk. now rewrite root_rooti by lia. }
    rewrite ksum_mul_l.
    transitivity (kmul (kmul (c ((i + (n - q)) mod n)) (v q)) (kmul (ninv n) (ksum n (fun k => kpow (@root A n) (k * ((i + (n - q)) mod n + q + (n - i))))))); [ring|].
    rewrite root_orth by auto.
    replace (((i + (n - q)) mod n + q + (n - i)) mod n) with 0; [cbn; ring|].
    rewrite <- (Nat.add_assoc _ q), Nat.add_mod_idemp_l by lia.
    replace (i + (n - q) + (q + (n - i))) with (2 * n) by lia. symmetry. apply Nat.mod_mul; lia.
  - apply Nat.mod_upper_bound; lia.
  - intros p Hp Hne. unfold T.
    rewrite (ksum_ext n _ (fun k => kmul (kmul (c p) (v q)) (kpow (root n) (k * (p + q + (n - i)))))).
    2:{ intros k Hk. now rewrite root_rooti by lia. }
    rewrite ksum_mul_l.
    transitivity (kmul (kmul (c p) (v q)) (kmul (ninv n) (ksum n (fun k => kpow (@root A n) (k * (p + q + (n - i))))))); [ring|].
    rewrite root_orth by auto.
    destruct (Nat.eqb_spec ((p + q + (n - i)) mod n) 0) as [E|E]; [|ring].
    exfalso. apply Hne.
    replace p with ((p + (q + (n - i)) + (i + (n - q))) mod n).
    + rewrite (Nat.add_assoc p q), <- Nat.add_mod_idemp_l, E by lia. reflexivity.
    + replace (p + (q + (n - i)) + (i + (n - q))) with (p + 2 * n) by lia.
      rewrite Nat.mod_add by lia. now apply Nat.mod_small.
Qed.

(** The same for the left product, where the vector is transformed with ifft and back with fft. *)
Lemma correlation n (c v : nat -> A) j : j < n ->
  fft n (fun k => kmul (ifft n v k) (fft n c k)) j
  = ksum n (fun i => kmul (v i) (c ((i + (n - j)) mod n))).
Proof.
  intros Hj. assert (Hn : 0 < n) by lia. unfold ifft, fft.
  set (T := fun k p q => kmul (kmul (c p) (v q)) (kmul (kpow (@root A n) ((p + j) * k)) (kpow (rooti n) (q * k)))).
  rewrite (ksum_ext n _ (fun k => ksum n (fun q => ksum n (fun p => kmul (ninv n) (T k p q))))).
  2:{ intros k Hk. rewrite <- (ksum_mul_l n (ninv n)), <- ksum_mul_r, <- ksum_mul_r.
      apply ksum_ext; intros q Hq.
      rewrite <- ksum_mul_l, <- ksum_mul_r. apply ksum_ext; intros p Hp.
      unfold T. rewrite Nat.mul_add_distr_r, kpow_add, (Nat.mul_comm k j). ring. }
  rewrite ksum_swap. apply ksum_ext; intros q Hq.
  rewrite ksum_swap.
  assert (E : forall p, ksum n (fun k => kmul (ninv n) (T k p q))
     = if Nat.eqb ((p + j + (n - q)) mod n) 0 then kmul (c p) (v q) else k0).
  { intros p. unfold T.
    rewrite (ksum_ext n _ (fun k => kmul (kmul (c p) (v q)) (kmul (ninv n) (kpow (root n) (k * (p + j + (n - q))))))).
    2:{ intros k Hk. rewrite root_rooti by lia. ring. }
    rewrite ksum_mul_l, ksum_mul_l, root_orth by auto.
    destruct (Nat.eqb _ 0); ring. }
  rewrite (ksum_ext n _ _ (fun p _ => E p)).
  rewrite (ksum_single n ((q + (n - j)) mod n)).
  - replace (((q + (n - j)) mod n + j + (n - q)) mod n) with 0; [cbn; ring|].
    rewrite <- (Nat.add_assoc _ j), Nat.add_mod_idemp_l by lia.
    replace (q + (n - j) + (j + (n - q))) with (2 * n) by lia. symmetry. apply Nat.mod_mul; lia.
  - apply Nat.mod_upper_bound; lia.
  - intros p Hp Hne. destruct (Nat.eqb_spec ((p + j + (n - q)) mod n) 0) as [E0|E0]; [|reflexivity].
    exfalso. apply Hne.
    replace p with ((p + (j + (n - q)) + (q + (n - j))) mod n).
    + rewrite (Nat.add_assoc p j), <- Nat.add_mod_idemp_l, E0 by lia. reflexivity.
    + replace (p + (j + (n - q)) + (q + (n - j))) with (p + 2 * n) by lia.
      rewrite Nat.mod_add by lia. now apply Nat.mod_small.
Qed.

Lemma fft_ext n (f g : nat -> A) k : (forall i, i < n -> f i = g i) -> fft n f k = fft n g k.
Proof. intros H. apply ksum_ext; intros i Hi. now rewrite H. Qed.
Lemma ifft_ext n (f g : nat -> A) k : (forall i, i < n -> f i = g i) -> ifft n f k = ifft n g k.
Proof. intros H. unfold ifft. f_equal. apply ksum_ext; intros i Hi. now rewrite H. Qed.
Lemma fft_sum n m (f : nat -> nat -> A) k :
  fft n (fun i => ksum m (fun j => f j i)) k = ksum m (fun j => fft n (f j) k).
Proof.
  unfold fft. rewrite ksum_swap with (n := m).
  apply ksum_ext; intros i _. now rewrite <- ksum_mul_r.
Qed.
Lemma ifft_sum n m (f : nat -> nat -> A) k :
  ifft n (fun i => ksum m (fun j => f j i)) k = ksum m (fun j => ifft n (f j) k).
Proof.
  unfold ifft. rewrite ksum_mul_l. f_equal.
  rewrite ksum_swap with (n := m). apply ksum_ext; intros i _. now rewrite <- ksum_mul_r.
Qed.
End Sums.

(** * The complex numbers *)

Lemma complexes_ring : ring_laws complexes.
Proof.
  unfold ring_laws. cbn. constructor; intros; apply injective_projections; cbn; ring.
Qed.

Lemma complexes_conj : conj_laws complexes.
Proof.
  constructor; cbn; intros; apply injective_projections; cbn; ring.
Qed.

(** Powers of the root: de Moivre. *)
Lemma cis_pow (t : R) m :
  @kpow complexes (cos t, (- sin t)%R) m = (cos (INR m * t), (- sin (INR m * t))%R).
Proof.
  induction m.
  - cbn. rewrite Rmult_0_l, cos_0, sin_0, Ropp_0. reflexivity.
  - change (@kpow complexes (cos t, (- sin t)%R) (S m)) with (Cmult (cos t, (- sin t)%R) (@kpow complexes (cos t, (- sin t)%R) m)).
    rewrite IHm, S_INR, Rmult_plus_distr_r, Rmult_1_l, (Rplus_comm _ t), cos_plus, sin_plus.
    apply injective_projections; cbn; ring.
Qed.

Lemma cos_lt_1 x : (0 < x < 2 * PI)%R -> (cos x < 1)%R.
Proof.
  intros [H0 H2].
  destruct (Rle_lt_dec x PI).
  - rewrite <- cos_0. apply cos_decreasing_1; lra.
  - replace x with (- (2 * PI - x) + 2 * PI)%R by lra.
    replace (cos (- (2 * PI - x) + 2 * PI)) with (cos (2 * PI - x)).
    + rewrite <- cos_0. apply cos_decreasing_1; lra.
    + rewrite <- (cos_neg (2 * PI - x)). symmetry.
      replace (2 * PI)%R with (2 * INR 1 * PI)%R at 2 by (cbn; ring). apply cos_period.
Qed.

(** Geometric sums. *)
Lemma geom_sum (x : C) n :
  Cmult (Cminus x (RtoC 1)) (@ksum complexes n (fun i => @kpow complexes x i)) = Cminus (@kpow complexes x n) (RtoC 1).
Proof.
  pose proof complexes_ring as H. unfold ring_laws in H. cbn in H.
  induction n.
  - cbn. apply injective_projections; cbn; ring.
  - cbn [ksum kpow kadd kmul complexes]. 
    change (@kpow complexes x (S n)) with (Cmult x (@kpow complexes x n)).
    transitivity (Cplus (Cmult (Cminus x (RtoC 1)) (@ksum complexes n (fun i => @kpow complexes x i)))
                        (Cmult (Cminus x (RtoC 1)) (@kpow complexes x n))).
    { apply injective_projections; cbn; ring. }
    rewrite IHn. apply injective_projections; cbn; ring.
Qed.

Lemma ksum_ones n : @ksum complexes n (fun _ => k1) = RtoC (INR n).
Proof.
  induction n; [reflexivity|]. cbn [ksum]. rewrite IHn, S_INR.
  apply injective_projections; cbn; ring.
Qed.

Lemma Cmult_zero (z w : C) : Cmult z w = RtoC 0 -> z <> RtoC 0 -> w = RtoC 0.
Proof.
  intros E H. transitivity (Cmult (Cmult (Cinv z) z) w).
  - rewrite Cinv_l by auto. now rewrite Cmult_1_l.
  - rewrite <- Cmult_assoc, E. apply injective_projections; cbn; ring.
Qed.

Lemma complexes_fourier : fourier_laws complexes.
Proof.
  assert (Hpos : forall n, 0 < n -> (0 < INR n)%R) by (intros; now apply lt_0_INR).
  constructor.
  - intros n Hn. cbn. apply injective_projections; cbn; [|ring].
    rewrite <- (sin2_cos2 (2 * PI / INR n)). unfold Rsqr. ring.
  - intros n Hn. unfold root. cbn [complexes].
    rewrite cis_pow. replace (INR n * (2 * PI / INR n))%R with (2 * PI)%R
      by (field; apply not_eq_sym, Rlt_not_eq; auto).
    rewrite cos_2PI, sin_2PI, Ropp_0. reflexivity.
  - intros n d Hd. assert (Hn : 0 < n) by lia. specialize (Hpos n Hn).
    set (t := (INR d * (2 * PI / INR n))%R).
    set (z := (cos t, (- sin t)%R) : C).
    assert (Hz : forall i, kpow (@root complexes n) (i * d) = @kpow complexes z i).
    { intros i. unfold root, z. cbn [complexes]. rewrite !cis_pow, mult_INR. unfold t.
      now rewrite Rmult_assoc. }
    rewrite (ksum_ext complexes n _ (fun i => @kpow complexes z i)) by (intros; apply Hz).
    assert (E := geom_sum z n).
    assert (Hzn : @kpow complexes z n = RtoC 1).
    { unfold z. rewrite cis_pow. unfold t.
      replace (INR n * (INR d * (2 * PI / INR n)))%R with (0 + 2 * INR d * PI)%R
        by (field; apply not_eq_sym, Rlt_not_eq; auto).
      rewrite cos_period, sin_period, cos_0, sin_0, Ropp_0. reflexivity. }
    rewrite Hzn in E.
    assert (E0 : Cmult (Cminus z (RtoC 1)) (@ksum complexes n (fun i => @kpow complexes z i)) = RtoC 0).
    { rewrite E. apply injective_projections; cbn; ring. }
    apply Cmult_zero in E0; [exact E0|]. clear E E0.
    intros E0. apply (f_equal fst) in E0. cbn in E0.
    assert (cos t < 1)%R; [|lra].
    apply cos_lt_1. unfold t.
    assert (0 < INR d)%R by (apply lt_0_INR; lia).
    assert (INR d < INR n)%R by (apply lt_INR; lia).
    pose proof PI_RGT_0.
    replace (INR d * (2 * PI / INR n))%R with (2 * PI * (INR d / INR n))%R by (field; lra).
    assert (0 < INR d / INR n < 1)%R.
    { split; [apply Rdiv_lt_0_compat; lra|]. apply Rmult_lt_reg_r with (INR n); [lra|].
      unfold Rdiv. rewrite Rmult_assoc, Rinv_l, Rmult_1_r, Rmult_1_l by lra. auto. }
    split.
    + apply Rmult_lt_0_compat; lra.
    + rewrite <- (Rmult_1_r (2 * PI)) at 2. apply Rmult_lt_compat_l; lra.
  - intros n Hn. rewrite ksum_ones. cbn. specialize (Hpos n Hn).
    apply injective_projections; cbn; field; lra.
Qed.
