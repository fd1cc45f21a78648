(** C66: the values read in the tabulation of the Green function. *)
From Coq Require Import Reals ZArith.
From Coquelicot Require Import Coquelicot.
From Coq Require Import List Bool Lra Lia.
From Verif Require Import Model_Base Proofs_Problem Proofs_Geometry Model_Assembly Model_Wave Model_Tabulation Spec_Tabulation Proofs_Tabulation Proofs_Tabulation2 Proofs_Tabulation3 Proofs_Tabulation4 Proofs_Tabulation5.
Import ListNotations.
Open Scope R_scope.

(** For every shape and every size of the grid from three, the table can be built, and for every r and every negative z the integrals
    can be evaluated: no read outside of the arrays, no division by zero. *)
Theorem tabulation_is_defined :
  forall exp_e1 nr rmax nz zmin nb m, proper_grid nr rmax nz zmin m -> (2 <= nb)%nat ->
  exists t, create_tabulation exp_e1 nr rmax nz zmin nb m = Some t /\ forall r z, 0 <= r -> z < 0 -> exists v, lookup exp_e1 t nb r z = Some v.
Proof.
  intros e nr rmax nz zmin nb m P Hn. destruct (create_defined nr nz rmax zmin m P e nb Hn) as (t & Ht). exists t. split; [exact Ht|].
  destruct (create_form nr nz rmax zmin m e nb t Ht) as (v & -> & _). exact (lookup_defined nr nz rmax zmin m P e nb v).
Qed.
Print Assumptions tabulation_is_defined.

(** At the coordinates of the table the interpolated values are those of the numerical integration. *)
Theorem tabulation_at_nodes :
  forall exp_e1 nr rmax nz zmin nb m t, proper_grid nr rmax nz zmin m -> create_tabulation exp_e1 nr rmax nz zmin nb m = Some t ->
  forall i j r z, node t i j r z -> in_table t r z -> lookup exp_e1 t nb r z = numerical_integration exp_e1 r z nb.
Proof.
  intros e nr rmax nz zmin nb m t P Ht i j r z Hn Hi. destruct (create_form nr nz rmax zmin m e nb t Ht) as (v & -> & E).
  rewrite (lookup_node nr nz rmax zmin m P e nb v i j r z Hn Hi). destruct (node_form nr nz rmax zmin m v i j r z Hn) as (Li & Lj & -> & ->). symmetry. apply E; lia.
Qed.
Print Assumptions tabulation_at_nodes.

(** The interpolation reproduces exactly the polynomials of degree two in each variable, in all the range of the table. *)
Theorem tabulation_of_polynomials :
  forall exp_e1 nr rmax nz zmin nb m t, proper_grid nr rmax nz zmin m -> create_tabulation exp_e1 nr rmax nz zmin nb m = Some t ->
  forall F p, component F -> biquadratic p -> (forall i j r z u, node t i j r z -> stored t i j u -> F u = p r z) ->
  forall r z, in_table t r z -> exists v, lookup exp_e1 t nb r z = Some v /\ F v = p r z.
Proof.
  intros e nr rmax nz zmin nb m t P Ht F p HF Hp Hs r z Hi. destruct (create_form nr nz rmax zmin m e nb t Ht) as (v & -> & _).
  destruct (in_table_form nr nz rmax zmin m P e nb v r z Hi) as (Hr & Hz & _).
  destruct (lookup_defined nr nz rmax zmin m P e nb v r z (proj1 Hr) (proj2 Hz)) as (w & Hw). exists w. split; [exact Hw|].
  exact (lookup_polynomial nr nz rmax zmin m P e nb v F p r z w HF Hp Hs Hi Hw).
Qed.
Print Assumptions tabulation_of_polynomials.

(** The interpolated value is that of the polynomial that goes through three by three neighbours of the point: the point is between the
    first and the last of them, unless it is before the first coordinates of the table. *)
Theorem tabulation_uses_neighbours :
  forall exp_e1 nr rmax nz zmin nb m t, proper_grid nr rmax nz zmin m -> create_tabulation exp_e1 nr rmax nz zmin nb m = Some t ->
  forall r z, in_table t r z ->
  exists i j r0 r1 r2 z0 z1 z2 u,
    node t i j r0 z0 /\ node t (i + 1) (j + 1) r1 z1 /\ node t (i + 2) (j + 2) r2 z2
    /\ (forall r' z', node t 0 0 r' z' -> (r' <= r -> r0 <= r <= r2) /\ (z <= z' -> z2 <= z <= z0))
    /\ (forall a b, (a <= 2)%nat -> (b <= 2)%nat -> stored t (i + a) (j + b) (u a b))
    /\ exists v, lookup exp_e1 t nb r z = Some v /\ forall F, component F ->
       F v = lagrange_polynomial r1 r2 r0 r * (lagrange_polynomial z1 z2 z0 z * F (u 0%nat 0%nat) + lagrange_polynomial z2 z0 z1 z * F (u 0%nat 1%nat) + lagrange_polynomial z0 z1 z2 z * F (u 0%nat 2%nat))
           + lagrange_polynomial r2 r0 r1 r * (lagrange_polynomial z1 z2 z0 z * F (u 1%nat 0%nat) + lagrange_polynomial z2 z0 z1 z * F (u 1%nat 1%nat) + lagrange_polynomial z0 z1 z2 z * F (u 1%nat 2%nat))
           + lagrange_polynomial r0 r1 r2 r * (lagrange_polynomial z1 z2 z0 z * F (u 2%nat 0%nat) + lagrange_polynomial z2 z0 z1 z * F (u 2%nat 1%nat) + lagrange_polynomial z0 z1 z2 z * F (u 2%nat 2%nat)).
Proof.
  intros e nr rmax nz zmin nb m t P Ht r z Hi. destruct (create_form nr nz rmax zmin m e nb t Ht) as (v & -> & _).
  destruct (lookup_window nr nz rmax zmin m P e nb v r z Hi) as (i & j & Bi & Bj & E & Br & Bz).
  pose proof (fun a b Ha Hb => node_at nr nz rmax zmin m v (i - 1 + Z.of_nat a)%Z (j - 1 + Z.of_nat b)%Z Ha Hb) as Nd.
  exists (Z.to_nat (i - 2)), (Z.to_nat (j - 2)), (r_node nr rmax m (i - 1)), (r_node nr rmax m i), (r_node nr rmax m (i + 1)), (z_node nz zmin m (j - 1)), (z_node nz zmin m j), (z_node nz zmin m (j + 1)),
    (fun a b => v (i - 1 + Z.of_nat a)%Z (j - 1 + Z.of_nat b)%Z).
  assert (Nd' : forall a b, (a <= 2)%nat -> (b <= 2)%nat -> node (table_of m nr nz (r_node nr rmax m) (z_node nz zmin m) v) (Z.to_nat (i - 2) + a) (Z.to_nat (j - 2) + b) (r_node nr rmax m (i - 1 + Z.of_nat a)) (z_node nz zmin m (j - 1 + Z.of_nat b))
    /\ stored (table_of m nr nz (r_node nr rmax m) (z_node nz zmin m) v) (Z.to_nat (i - 2) + a) (Z.to_nat (j - 2) + b) (v (i - 1 + Z.of_nat a) (j - 1 + Z.of_nat b))%Z).
  { intros a b Ha Hb. specialize (Nd a b ltac:(lia) ltac:(lia)). replace (Z.to_nat (i - 1 + Z.of_nat a - 1)) with (Z.to_nat (i - 2) + a)%nat in Nd by lia. replace (Z.to_nat (j - 1 + Z.of_nat b - 1)) with (Z.to_nat (j - 2) + b)%nat in Nd by lia. exact Nd. }
  split; [|split; [|split; [|split; [|split]]]].
  - destruct (Nd' 0%nat 0%nat) as (X & _); try lia. rewrite !Nat.add_0_r in X. cbn [Z.of_nat] in X. now rewrite !Z.add_0_r in X.
  - destruct (Nd' 1%nat 1%nat) as (X & _); try lia. replace (i - 1 + Z.of_nat 1)%Z with i in X by lia. replace (j - 1 + Z.of_nat 1)%Z with j in X by lia. exact X.
  - destruct (Nd' 2%nat 2%nat) as (X & _); try lia. replace (i - 1 + Z.of_nat 2)%Z with (i + 1)%Z in X by lia. replace (j - 1 + Z.of_nat 2)%Z with (j + 1)%Z in X by lia. exact X.
  - intros r' z' H0. destruct (node_form nr nz rmax zmin m v 0 0 r' z' H0) as (_ & _ & -> & ->). cbn [Z.of_nat Z.add]. split; assumption.
  - intros a b Ha Hb. exact (proj2 (Nd' a b Ha Hb)).
  - eexists. split; [exact E|]. intros F HF. rewrite (pick_component nr nz rmax zmin m v F i j r z HF). unfold interpolated, square3, map3, combination, basis3, window, dot3. cbn [fst snd].
    change (Z.of_nat 0) with 0%Z. change (Z.of_nat 1) with 1%Z. change (Z.of_nat 2) with 2%Z. replace (i - 1 + 1)%Z with i by lia. replace (j - 1 + 1)%Z with j by lia. replace (i - 1 + 2)%Z with (i + 1)%Z by lia. replace (j - 1 + 2)%Z with (j + 1)%Z by lia. rewrite !Z.add_0_r.
    change basis with lagrange_polynomial. ring.
Qed.
Print Assumptions tabulation_uses_neighbours.

(** The numerical integration is Simpson's rule on the interval from -pi/2 to pi/2, with as many panels as the points allow. *)
Theorem integration_is_simpson :
  forall exp_e1 r z nb v m, (1 <= m)%nat -> (nb = 2 * m \/ nb = 2 * m + 1)%nat -> numerical_integration exp_e1 r z nb = Some v ->
  let S f := composite_simpson m (- fortran_pi / 2) (fortran_pi / (2 * INR m)) f in
  I1 v = 2 / fortran_pi * S (fun th => fst (j_at exp_e1 r z th))
  /\ I2 v = 2 / fortran_pi * S (fun th => fst (Cminus (j_at exp_e1 r z th) (Cinv (zeta_at r z th))))
  /\ I3 v = 2 * S (fun th => fst (exponential_at r z th))
  /\ I4 v = 2 / fortran_pi * S (fun th => - (cos th * snd (Cminus (j_at exp_e1 r z th) (Cinv (zeta_at r z th)))))
  /\ I5 v = 2 * S (fun th => - (cos th * snd (exponential_at r z th))).
Proof. exact integration_simpson. Qed.
Print Assumptions integration_is_simpson.

(** The rule is exact for the polynomials of degree three: its value is that of the integral. *)
Theorem simpson_exact_on_cubics :
  forall m a h c0 c1 c2 c3, composite_simpson m a h (fun x => c0 + c1 * x + c2 * (x * x) + c3 * (x * x * x))
  = RInt (fun x => c0 + c1 * x + c2 * (x * x) + c3 * (x * x * x)) a (a + 2 * INR m * h).
Proof.
  intros. rewrite composite_exact. cbv zeta. symmetry. apply is_RInt_unique.
  apply (is_RInt_derive (fun x => c0 * x + c1 / 2 * (x * x) + c2 / 3 * (x * x * x) + c3 / 4 * (x * x * x * x)) (fun x => c0 + c1 * x + c2 * (x * x) + c3 * (x * x * x))).
  - intros x _. auto_derive; [exact I|field].
  - intros x _. apply (ex_derive_continuous (fun x => c0 + c1 * x + c2 * (x * x) + c3 * (x * x * x))). auto_derive. exact I.
Qed.
Print Assumptions simpson_exact_on_cubics.
Example integration_ex exp_e1 : exists v, numerical_integration exp_e1 1 (-1) 1001 = Some v /\ (1001 = 2 * 500 \/ 1001 = 2 * 500 + 1)%nat.
Proof. destruct (integration_defined exp_e1 1001 1 (-1)) as (v & Hv); [apply Nat.leb_le; reflexivity|lra|]. exists v. split; [exact Hv|right; reflexivity]. Qed.

(** Outside of the table the two ways to extract the singularities differ by the same term as the exact integrals, 2 / r1. *)
Theorem asymptotic_singularities :
  forall r z, 0 < r -> I2 (asymptotic r z) = I1 (asymptotic r z) + 2 / sqrt (r * r + z * z).
Proof.
  intros r z Hr. unfold asymptotic. cbn [I1 I2]. assert (P : 0 < sqrt (r * r + z * z)) by (apply sqrt_lt_R0; nra). field. lra.
Qed.
Print Assumptions asymptotic_singularities.

(** C66 is false for one point of integration: the step is a division by zero. *)
Theorem one_point_refuted : forall exp_e1 r z, numerical_integration exp_e1 r z 1 = None.
Proof. reflexivity. Qed.
Print Assumptions one_point_refuted.

(** The default parameters (delhommeau.py:19-26), and a point in the table. *)
Example tabulation_ex exp_e1 : proper_grid 676 100 372 (-251) ScaledGrid /\ proper_grid 328 100 46 (-16) LegacyGrid
  /\ exists t, create_tabulation exp_e1 676 100 372 (-251) 1001 ScaledGrid = Some t /\ in_table t 10 (-1).
Proof.
  assert (A : Rabs (-251) = 251) by (rewrite Rabs_left; lra).
  assert (P : proper_grid 676 100 372 (-251) ScaledGrid).
  { split; [apply Nat.leb_le; reflexivity|]. split; [apply Nat.leb_le; reflexivity|]. intros _. rewrite A. split; lra. }
  split; [exact P|]. split.
  - split; [apply Nat.leb_le; reflexivity|]. split; [apply Nat.leb_le; reflexivity|discriminate].
  - destruct (create_defined 676 372 100 (-251) ScaledGrid P exp_e1 1001 ltac:(apply Nat.leb_le; reflexivity)) as (t & Ht). exists t. split; [exact Ht|].
    destruct (create_form 676 372 100 (-251) ScaledGrid exp_e1 1001 t Ht) as (v & -> & _). 
    destruct P as (P1 & P2 & P3). destruct (P3 eq_refl) as (P4 & P5). exists 100, (-251). split; [|split; lra].
    pose proof (node_at 676 372 100 (-251) ScaledGrid v (Z.of_nat 676) (Z.of_nat 372)) as N. destruct N as (N & _); try lia.
    rewrite (scaled_last 676 100 P1), (zs_last 372 (-251) P5 P2), A in N. replace (Z.to_nat (Z.of_nat 676 - 1)) with (676 - 1)%nat in N by lia. replace (Z.to_nat (Z.of_nat 372 - 1)) with (372 - 1)%nat in N by lia.
    unfold node in *. cbn [t_r t_z table_of] in *. rewrite !map_length, !length_indices. exact N.
Qed.

(** C66 is false for two coordinates: the sizes below two disable the table, but for size two the third coordinate is read outside of
    the array. *)
Theorem two_coordinates_refuted :
  forall exp_e1 nb nz rmax zmin t, (2 <= nz)%nat -> create_tabulation exp_e1 2 rmax nz zmin nb LegacyGrid = Some t ->
  forall r z, in_table t r z -> lookup exp_e1 t nb r z = None.
Proof.
  intros e nb nz rmax zmin t Hz Ht r z (rl & zl & (N1 & N2) & Hr & Hzz). destruct (create_form 2 nz rmax zmin LegacyGrid e nb t Ht) as (v & -> & _).
  unfold lookup. cbn [t_r t_z table_of] in *. rewrite !size_indices, !elem_indices by lia. rewrite !map_length, !length_indices in N1, N2.
  pose proof (elem_indices (r_node 2 rmax LegacyGrid) 2 2 ltac:(lia)) as Ea. apply elem_some in Ea. destruct Ea as (_ & Ea). change (Z.to_nat (2 - 1)) with (2 - 1)%nat in Ea. assert (Ea' : rl = r_node 2 rmax LegacyGrid 2) by congruence.
  pose proof (elem_indices (z_node nz zmin LegacyGrid) nz (Z.of_nat nz) ltac:(lia)) as Eb. apply elem_some in Eb. destruct Eb as (_ & Eb). replace (Z.to_nat (Z.of_nat nz - 1)) with (nz - 1)%nat in Eb by lia. assert (Eb' : zl = z_node nz zmin LegacyGrid (Z.of_nat nz)) by congruence.
  rewrite (proj2 (Z.leb_gt _ _)) by lia. cbn [orb]. change (Z.of_nat 2 <=? 1)%Z with false. cbv iota. cbn [obind]. change (Z.of_nat 2) with 2%Z. rewrite <- Ea', <- Eb'.
  rewrite (Rabs_left z), (Rabs_left zl) by lra. rewrite !(proj2 (Rltb_true _ _)) by lra. cbn [andb].
  unfold pick. cbn [t_r t_z t_shape table_of]. destruct (nearest_r_index _ _ _) as [i0|]; [|reflexivity]. destruct (nearest_z_index _ _ _) as [j0|]; [|reflexivity]. cbn [obind]. rewrite !size_indices.
  replace (clamp (Z.of_nat 2) i0) with 2%Z by (unfold clamp; lia). unfold around at 1. rewrite (elem_outside _ (2 + 1)) by (rewrite map_length, length_indices; lia).
  destruct (elem _ (2 - 1)); [|reflexivity]. cbn [obind]. destruct (elem _ 2); reflexivity.
Qed.
Print Assumptions two_coordinates_refuted.
Example two_coordinates_ex exp_e1 : exists t, create_tabulation exp_e1 2 100 46 (-16) 1001 LegacyGrid = Some t.
Proof.
  unfold create_tabulation, construct. destruct (all_some _) eqn:E; [eexists; reflexivity|exfalso]. 
  assert (Row : forall r, exists row, all_some (map (fun z => numerical_integration exp_e1 r z 1001) (z_spacing 46 (-16) LegacyGrid)) = Some row).
  { intros r. destruct (forall2_exists (fun z v => numerical_integration exp_e1 r z 1001 = Some v) (z_spacing 46 (-16) LegacyGrid)) as (row & Hr).
    - intros z Hz. rewrite z_spacing_nodes in Hz. apply in_map_iff in Hz. destruct Hz as (j & <- & Hj). apply in_indices in Hj. apply integration_defined; [apply Nat.leb_le; reflexivity|]. pose proof (z_negative 46 (-16) j ltac:(lia)). lra.
    - exists row. now apply all_some_map. }
  rewrite r_spacing_nodes in E. cbn [indices seq map all_some] in E. destruct (Row (r_node 2 100 LegacyGrid (Z.of_nat 0 + 1)%Z)) as (a & Ea). destruct (Row (r_node 2 100 LegacyGrid (Z.of_nat 1 + 1)%Z)) as (b & Eb).
  unfold indices in E. cbn [seq map all_some] in E. rewrite Ea in E. cbn [obind] in E. rewrite Eb in E. cbn [obind] in E. clear - E. congruence.
Qed.

(** C66 is false for z = 0, that is for two points of the free surface, as on a lid at the free surface: the index is the conversion of
    the logarithm of zero. *)
Theorem free_surface_index_refuted :
  forall exp_e1 nr rmax nz zmin nb m t, proper_grid nr rmax nz zmin m -> create_tabulation exp_e1 nr rmax nz zmin nb m = Some t ->
  forall r, in_table t r (-1) -> lookup exp_e1 t nb r 0 = None.
Proof.
  intros e nr rmax nz zmin nb m t P Ht r Hi. destruct (create_form nr nz rmax zmin m e nb t Ht) as (v & -> & _).
  destruct (in_table_form nr nz rmax zmin m P e nb v r (-1) Hi) as (Hr & Hz & _). rewrite (lookup_form nr nz rmax zmin m P e nb v).
  rewrite Rabs_R0, (Rabs_left (z_node _ _ _ _)) by lra. rewrite !(proj2 (Rltb_true _ _)) by lra. cbn [andb].
  unfold pick. destruct (nearest_r_index _ _ _) as [i0|]; [|reflexivity]. cbn [obind]. assert (N : nearest_z_index 0 (t_z (table_of m nr nz (r_node nr rmax m) (z_node nz zmin m) v)) (t_shape (table_of m nr nz (r_node nr rmax m) (z_node nz zmin m) v)) = None); [|now rewrite N].
  unfold nearest_z_index. rewrite Rabs_R0. unfold finite_log10. rewrite (Reqb_refl 0). cbn [t_shape table_of]. destruct m; [reflexivity|]. destruct (elem _ _) as [x|]; [|reflexivity]. cbn [obind]. destruct (Reqb _ _); reflexivity.
Qed.
Print Assumptions free_surface_index_refuted.
