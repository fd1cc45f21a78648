(** Proofs about the tabulation: the reads and the interpolation. *)
From Coq Require Import Reals ZArith.
From Coquelicot Require Import Complex.
From Coq Require Import List Bool Lra Lia.
From Flocq Require Import Core.Raux.
From Verif Require Import Model_Base Proofs_Problem Proofs_Geometry Model_Assembly Model_Wave Model_Tabulation.
Import ListNotations.
Open Scope R_scope.

Lemma ln10_pos : 0 < ln 10.
Proof. rewrite <- ln_1. apply ln_increasing; lra. Qed.
Lemma ln10_big : 5 / 3 < ln 10.
Proof.
  apply exp_lt_inv. rewrite exp_ln by lra. apply Rlt_trans with (exp 2); [apply exp_increasing; lra|].
  replace 2 with (1 + 1) by ring. rewrite exp_plus. pose proof exp_le_3. pose proof (exp_pos 1). nra.
Qed.
Lemma log_pow x : log10 (pow10 x) = x.
Proof. unfold log10, pow10. rewrite ln_exp. field. pose proof ln10_pos. lra. Qed.
Lemma pow_log x : 0 < x -> pow10 (log10 x) = x.
Proof. intros H. unfold log10, pow10. replace (ln x / ln 10 * ln 10) with (ln x) by (field; pose proof ln10_pos; lra). now apply exp_ln. Qed.
Lemma pow10_pos x : 0 < pow10 x.
Proof. apply exp_pos. Qed.
Lemma pow10_lt x y : x < y -> pow10 x < pow10 y.
Proof. intros H. apply exp_increasing. apply Rmult_lt_compat_r; [apply ln10_pos|exact H]. Qed.
Lemma pow10_le x y : x <= y -> pow10 x <= pow10 y.
Proof. intros [H| ->]; [left; now apply pow10_lt|right; reflexivity]. Qed.
Lemma pow10_inj x y : pow10 x = pow10 y -> x = y.
Proof. intros H. rewrite <- (log_pow x), <- (log_pow y). now f_equal. Qed.
Lemma pow10_0 : pow10 0 = 1.
Proof. unfold pow10. rewrite Rmult_0_l. apply exp_0. Qed.
Lemma pow10_plus x y : pow10 (x + y) = pow10 x * pow10 y.
Proof. unfold pow10. rewrite Rmult_plus_distr_r. apply exp_plus. Qed.
Lemma pow10_nat n : pow10 (INR n) = 10 ^ n.
Proof. unfold pow10. rewrite <- (exp_ln (10 ^ n)) by (apply pow_lt; lra). f_equal. rewrite ln_pow by lra. reflexivity. Qed.
Lemma pow10_opp x : pow10 (- x) = / pow10 x.
Proof. unfold pow10. rewrite <- exp_Ropp. f_equal. ring. Qed.
Lemma log10_lt x y : 0 < x -> x < y -> log10 x < log10 y.
Proof. intros P H. unfold log10, Rdiv. apply Rmult_lt_compat_r; [apply Rinv_0_lt_compat, ln10_pos|now apply ln_increasing]. Qed.
Lemma log10_le x y : 0 < x -> x <= y -> log10 x <= log10 y.
Proof. intros P [H| ->]; [left; now apply log10_lt|right; reflexivity]. Qed.
Lemma log10_inv n : log10 (/ 10 ^ n) = - INR n.
Proof. rewrite <- pow10_nat, <- pow10_opp. apply log_pow. Qed.

Lemma nint_near x : IZR (nint x) - 1 / 2 <= x <= IZR (nint x) + 1 / 2.
Proof.
  unfold nint. destruct (Rleb 0 x).
  - pose proof (Zfloor_lb (x + 1 / 2)). pose proof (Zfloor_ub (x + 1 / 2)). lra.
  - pose proof (Zceil_ub (x - 1 / 2)). pose proof (Zceil_lb (x - 1 / 2)). lra.
Qed.
Lemma nint_unique x n : IZR n - 1 / 2 < x < IZR n + 1 / 2 -> nint x = n.
Proof.
  intros H. pose proof (nint_near x) as N. assert (A : IZR (nint x) < IZR (n + 1)) by (rewrite plus_IZR; lra). assert (B : IZR n < IZR (nint x + 1)) by (rewrite plus_IZR; lra).
  apply lt_IZR in A. apply lt_IZR in B. lia.
Qed.
Lemma nint_IZR n : nint (IZR n) = n.
Proof. apply nint_unique. lra. Qed.

(** ** Reads *)
Lemma length_indices n : length (indices n) = n.
Proof. unfold indices. now rewrite map_length, seq_length. Qed.
Lemma elem_some {A} (l : list A) i x : elem l i = Some x <-> (1 <= i)%Z /\ nth_error l (Z.to_nat (i - 1)) = Some x.
Proof.
  unfold elem. destruct (Z.ltb_spec i 1); split; intros H'; try discriminate; try (destruct H'; lia); [split; [lia|exact H']|now destruct H'].
Qed.
Lemma elem_indices {A} (f : Z -> A) n i : (1 <= i <= Z.of_nat n)%Z -> elem (map f (indices n)) i = Some (f i).
Proof.
  intros H. apply elem_some. split; [lia|]. rewrite nth_error_map. unfold indices. rewrite nth_error_map.
  assert (E : nth_error (seq 0 n) (Z.to_nat (i - 1)) = Some (Z.to_nat (i - 1))).
  { rewrite (nth_error_nth' _ 0%nat) by (rewrite seq_length; lia). rewrite seq_nth by lia. reflexivity. }
  rewrite E. cbn [option_map]. do 2 f_equal. lia.
Qed.
Lemma elem_outside {A} (l : list A) i : (i < 1 \/ Z.of_nat (length l) < i)%Z -> elem l i = None.
Proof. intros H. unfold elem. destruct (Z.ltb_spec i 1); [reflexivity|]. apply nth_error_None. lia. Qed.
Lemma size_indices {A} (f : Z -> A) n : size (map f (indices n)) = Z.of_nat n.
Proof. unfold size. now rewrite map_length, length_indices. Qed.
Lemma clamp_in n i : (3 <= n)%Z -> (2 <= clamp n i <= n - 1)%Z.
Proof. unfold clamp. lia. Qed.
Lemma around_indices {A} (f : Z -> A) n i : (2 <= i <= Z.of_nat n - 1)%Z -> around (map f (indices n)) i = Some (f (i - 1), f i, f (i + 1))%Z.
Proof. intros H. unfold around. rewrite !elem_indices by lia. reflexivity. Qed.

(** ** The interpolation *)
Definition basis (u1 u2 u3 x : R) : R := (x - u1) * (x - u2) / ((u3 - u1) * (u3 - u2)).
Definition basis3 (us : R * R * R) (x : R) : R * R * R := let '(a, b, c) := us in (basis b c a x, basis c a b x, basis a b c x).
Definition distinct (us : R * R * R) : Prop := let '(a, b, c) := us in a <> b /\ b <> c /\ a <> c.
Lemma weights_distinct us x : distinct us -> weights us x = Some (basis3 us x).
Proof.
  destruct us as ((a, b), c). intros (H1 & H2 & H3). unfold weights, pl2, divided.
  rewrite !Reqb_false by (apply Rmult_integral_contrapositive_currified; lra). reflexivity.
Qed.
Definition interpolated (F : integrals -> R) (r z : R) (rs zs : R * R * R) (t : (integrals * integrals * integrals) * (integrals * integrals * integrals) * (integrals * integrals * integrals)) : R :=
  combination (map3 (map3 F) t) (basis3 rs r) (basis3 zs z).
Lemma lagrange_distinct r z rs zs t : distinct rs -> distinct zs ->
  lagrange r z rs zs t = Some (Integrals (interpolated I1 r z rs zs t) (interpolated I2 r z rs zs t) (interpolated I3 r z rs zs t) (interpolated I4 r z rs zs t) (interpolated I5 r z rs zs t)).
Proof. intros D1 D2. unfold lagrange. rewrite !weights_distinct by assumption. reflexivity. Qed.
Definition square3 {A} (v : Z -> Z -> A) (i j : Z) : (A * A * A) * (A * A * A) * (A * A * A) :=
  ((v (i - 1) (j - 1), v (i - 1) j, v (i - 1) (j + 1)), (v i (j - 1), v i j, v i (j + 1)), (v (i + 1) (j - 1), v (i + 1) j, v (i + 1) (j + 1)))%Z.
Definition window (f : Z -> R) (i : Z) : R * R * R := (f (i - 1), f i, f (i + 1))%Z.

Lemma window_r n (f : Z -> R) i : (forall i i', (1 <= i < i')%Z -> (i' <= Z.of_nat n)%Z -> f i < f i') -> (2 <= i <= Z.of_nat n - 1)%Z -> distinct (window f i).
Proof. intros Fi H. unfold window, distinct. pose proof (Fi (i - 1)%Z i ltac:(lia) ltac:(lia)). pose proof (Fi i (i + 1)%Z ltac:(lia) ltac:(lia)). repeat split; lra. Qed.
Lemma window_z n (g : Z -> R) i : (forall i i', (1 <= i < i')%Z -> (i' <= Z.of_nat n)%Z -> g i' < g i) -> (2 <= i <= Z.of_nat n - 1)%Z -> distinct (window g i).
Proof. intros Gi H. unfold window, distinct. pose proof (Gi (i - 1)%Z i ltac:(lia) ltac:(lia)). pose proof (Gi i (i + 1)%Z ltac:(lia) ltac:(lia)). repeat split; lra. Qed.
Section Pick.
  Variables (m : grid_shape) (nr nz : nat) (f g : Z -> R) (v : Z -> Z -> integrals).
  Definition table_of : table := Table m (map f (indices nr)) (map g (indices nz)) (map (fun i => map (v i) (indices nz)) (indices nr)).
  Hypothesis Nr : (3 <= nr)%nat.
  Hypothesis Nz : (3 <= nz)%nat.
  Hypothesis Fi : forall i i', (1 <= i < i')%Z -> (i' <= Z.of_nat nr)%Z -> f i < f i'.
  Hypothesis Gi : forall i i', (1 <= i < i')%Z -> (i' <= Z.of_nat nz)%Z -> g i' < g i.
  Definition pick_value (i j : Z) (r z : R) : integrals :=
    let t := square3 v i j in let rs := window f i in let zs := window g j in
    Integrals (interpolated I1 r z rs zs t) (interpolated I2 r z rs zs t) (interpolated I3 r z rs zs t) (interpolated I4 r z rs zs t) (interpolated I5 r z rs zs t).
  Lemma pick_form r z i0 j0 : nearest_r_index r (t_r table_of) m = Some i0 -> nearest_z_index z (t_z table_of) m = Some j0 ->
    pick table_of r z = Some (pick_value (clamp (Z.of_nat nr) i0) (clamp (Z.of_nat nz) j0) r z).
  Proof.
    intros E1 E2. unfold pick. change (t_shape table_of) with m. rewrite E1, E2. cbn [obind]. cbn [t_r t_z t_values table_of]. rewrite !size_indices.
    pose proof (clamp_in (Z.of_nat nr) i0 ltac:(lia)) as B1. pose proof (clamp_in (Z.of_nat nz) j0 ltac:(lia)) as B2.
    set (i := clamp (Z.of_nat nr) i0) in *. set (j := clamp (Z.of_nat nz) j0) in *.
    rewrite !around_indices by assumption. cbn [obind]. rewrite !around_indices by assumption. cbn [obind].
    apply lagrange_distinct; [now apply (window_r nr)|now apply (window_z nz)].
  Qed.
End Pick.

(** At a node the basis polynomials are 0 or 1. *)
Lemma basis_at (us : R * R * R) : distinct us ->
  basis3 us (fst (fst us)) = (1, 0, 0) /\ basis3 us (snd (fst us)) = (0, 1, 0) /\ basis3 us (snd us) = (0, 0, 1).
Proof.
  destruct us as ((a, b), c). intros (H1 & H2 & H3). cbn [fst snd]. unfold basis3, basis.
  repeat split; repeat (apply f_equal2); field; repeat split; lra.
Qed.
Section Node.
  Variables (nr nz : nat) (f g : Z -> R) (v : Z -> Z -> integrals).
  Hypothesis Nr : (3 <= nr)%nat.
  Hypothesis Nz : (3 <= nz)%nat.
  Hypothesis Fi : forall i i', (1 <= i < i')%Z -> (i' <= Z.of_nat nr)%Z -> f i < f i'.
  Hypothesis Gi : forall i i', (1 <= i < i')%Z -> (i' <= Z.of_nat nz)%Z -> g i' < g i.
  Lemma near n i : (3 <= n)%Z -> (1 <= i <= n)%Z -> i = (clamp n i - 1)%Z \/ i = clamp n i \/ i = (clamp n i + 1)%Z.
  Proof. unfold clamp. lia. Qed.
  Lemma pick_node i j : (1 <= i <= Z.of_nat nr)%Z -> (1 <= j <= Z.of_nat nz)%Z ->
    forall i0 j0, (clamp (Z.of_nat nr) i0 = clamp (Z.of_nat nr) i) -> clamp (Z.of_nat nz) j0 = clamp (Z.of_nat nz) j ->
    pick_value f g v (clamp (Z.of_nat nr) i0) (clamp (Z.of_nat nz) j0) (f i) (g j) = v i j.
  Proof.
    intros Hi Hj i0 j0 -> ->. pose proof (clamp_in (Z.of_nat nr) i ltac:(lia)) as B1. pose proof (clamp_in (Z.of_nat nz) j ltac:(lia)) as B2.
    pose proof (near (Z.of_nat nr) i ltac:(lia) Hi) as N1. pose proof (near (Z.of_nat nz) j ltac:(lia) Hj) as N2.
    set (i' := clamp (Z.of_nat nr) i) in *. set (j' := clamp (Z.of_nat nz) j) in *. clearbody i' j'.
    pose proof (basis_at _ (window_r nr f i' Fi B1)) as (R1 & R2 & R3). pose proof (basis_at _ (window_z nz g j' Gi B2)) as (Z1 & Z2 & Z3).
    unfold window in R1, R2, R3, Z1, Z2, Z3. cbn [fst snd] in R1, R2, R3, Z1, Z2, Z3.
    unfold pick_value. cbv zeta. unfold interpolated, window.
    assert (X : forall F : integrals -> R, combination (map3 (map3 F) (square3 v i' j')) (basis3 (f (i' - 1)%Z, f i', f (i' + 1)%Z) (f i)) (basis3 (g (j' - 1)%Z, g j', g (j' + 1)%Z) (g j)) = F (v i j)).
    { intros F. destruct N1 as [-> |[-> | ->]]; destruct N2 as [-> |[-> | ->]]; rewrite ?R1, ?R2, ?R3, ?Z1, ?Z2, ?Z3;
      unfold combination, square3, map3, dot3; cbn [fst snd]; ring. }
    rewrite !X. now destruct (v i j).
  Qed.
End Node.

(** ** Polynomials *)
Lemma basis_quadratic us x c0 c1 c2 : distinct us ->
  dot3 (basis3 us x) (map3 (fun u => c0 + c1 * u + c2 * (u * u)) us) = c0 + c1 * x + c2 * (x * x).
Proof.
  destruct us as ((a, b), c). intros (H1 & H2 & H3). unfold dot3, basis3, map3, basis. cbn [fst snd]. field. repeat split; lra.
Qed.
Lemma basis_sum us x : distinct us -> let '(l1, l2, l3) := basis3 us x in l1 + l2 + l3 = 1.
Proof. destruct us as ((a, b), c). intros (H1 & H2 & H3). unfold basis3, basis. field. repeat split; lra. Qed.
