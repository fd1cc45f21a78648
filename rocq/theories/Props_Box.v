(** Properties of the meshes of rectangular boxes (C70). *)
From Coq Require Import Reals List Bool Arith ZArith Lia Lra Permutation.
From Verif Require Import Model_Base Model_Geometry Model_Mesh Model_Clip Spec_Mesh Spec_Tree Spec_Clip Model_Tree Model_Integrals Spec_Integrals
  Model_Quality Spec_Quality Props_Quality Spec_Grid Model_Box Spec_Box Proofs_Box3 Proofs_Box7 Proofs_Box8.
Import ListNotations.
Open Scope R_scope.

Section Oracles.
  (** Any correct sort (C22) and any order of enumeration of the sets (C53). *)
  Variable argsort : list R -> list nat.
  Hypothesis Hs : sorts argsort.
  Variable set_order : list nat -> list nat.
  Hypothesis Ho : forall l, Permutation l (set_order l).

  (** C70. A box is made of exactly the panels of the regular grids of the sides that are not missing, whatever the option about symmetries;
      all normals point outwards. *)
  Theorem box_is_its_sides w t h c nw nt nh missing rf tr : (0 < nw)%nat -> (0 < nt)%nat -> (0 < nh)%nat ->
    / 1000000 <= w / INR nw -> / 1000000 <= t / INR nt -> / 1000000 <= h / INR nh -> comparable w t h nw nt nh (shown rf missing) ->
    existsb (shown rf missing) box_sides = true -> tr && rf = false -> (rf = true -> Nat.even nw = true /\ Nat.even nt = true) ->
    (tr = true -> (2 <= nw)%nat /\ existsb (shown rf missing) [FrontSide; BackSide; TopSide; BottomSide] = true) ->
    exists T, mesh_parallelepiped argsort set_order w t h c (Z.of_nat nw) (Z.of_nat nt) (Z.of_nat nh) None missing rf tr = Ok T
      /\ is_box c w t h nw nt nh (shown rf missing) T.
  Proof.
    intros Nw Nt Nh Dw Dt Dh Cm Ex Sy Ev Tw.
    destruct (box_ok argsort Hs set_order Ho w t h c (Z.of_nat nw) (Z.of_nat nt) (Z.of_nat nh) None missing rf tr nw nt nh) as (T & E & _ & B);
      try assumption; try lia; try reflexivity; try exact (Proofs_Box6.edge_pos _ _ Nw Dw); try exact (Proofs_Box6.edge_pos _ _ Nt Dt); try exact (Proofs_Box6.edge_pos _ _ Nh Dh). eauto.
  Qed.
  (** If no side is missing the surface is closed and its volume is that of the box. *)
  Theorem box_is_closed w t h c nw nt nh rf tr : (0 < nw)%nat -> (0 < nt)%nat -> (0 < nh)%nat ->
    / 1000000 <= w / INR nw -> / 1000000 <= t / INR nt -> / 1000000 <= h / INR nh -> comparable w t h nw nt nh (fun _ => true) ->
    tr && rf = false -> (rf = true -> Nat.even nw = true /\ Nat.even nt = true) -> (tr = true -> (2 <= nw)%nat) ->
    exists T qs, mesh_parallelepiped argsort set_order w t h c (Z.of_nat nw) (Z.of_nat nt) (Z.of_nat nh) None (fun _ => false) rf tr = Ok T
      /\ proper_surface T qs /\ watertight qs /\ volume T = Ok (w * t * h).
  Proof.
    intros Nw Nt Nh Dw Dt Dh Cm Sy Ev Tw.
    destruct (box_ok argsort Hs set_order Ho w t h c (Z.of_nat nw) (Z.of_nat nt) (Z.of_nat nh) None (fun _ => false) rf tr nw nt nh) as (T & E & F & B);
      try assumption; try lia; try reflexivity; try exact (Proofs_Box6.edge_pos _ _ Nw Dw); try exact (Proofs_Box6.edge_pos _ _ Nt Dt); try exact (Proofs_Box6.edge_pos _ _ Nh Dh).
    { intros H. split; [now apply Tw|reflexivity]. }
    destruct (closed_box c w t h nw nt nh Nw Nt Nh Dw Dt Dh T F B) as (qs & P & W & Vol). exists T, qs. auto.
  Qed.
  (** The cases where no mesh is returned. *)
  Theorem box_errors_raised w t h c nw0 nt0 nh0 r missing rf tr :
    (~ (0 < w /\ 0 < t /\ 0 < h /\ (0 < nw0)%Z /\ (0 < nt0)%Z /\ (0 < nh0)%Z) -> mesh_parallelepiped argsort set_order w t h c nw0 nt0 nh0 r missing rf tr = Err AssertionError)
    /\ (0 < w -> 0 < t -> 0 < h -> (0 < nw0)%Z -> (0 < nt0)%Z -> (0 < nh0)%Z -> forall nw nt nh, refined_box w t h nw0 nt0 nh0 r = Ok (nw, nt, nh) ->
        (0 < nw)%Z -> (0 < nt)%Z -> (0 < nh)%Z ->
        (tr && rf = true -> mesh_parallelepiped argsort set_order w t h c nw0 nt0 nh0 r missing rf tr = Err NotImplementedError)
        /\ (tr = false -> rf = true -> Z.odd nw || Z.odd nt = true -> mesh_parallelepiped argsort set_order w t h c nw0 nt0 nh0 r missing rf tr = Err ValueError)
        /\ (tr && rf = false -> existsb (shown rf missing) box_sides = false -> mesh_parallelepiped argsort set_order w t h c nw0 nt0 nh0 r missing rf tr = Err ValueError)
        /\ (tr = true -> rf = false -> existsb (shown rf missing) [FrontSide; BackSide; TopSide; BottomSide] = false ->
            mesh_parallelepiped argsort set_order w t h c nw0 nt0 nh0 r missing rf tr = Err ValueError)).
  Proof. exact (box_errors argsort set_order w t h c nw0 nt0 nh0 r missing rf tr). Qed.
  Theorem box_single_strip w t h c nw0 nt0 nh0 r missing nt nh : 0 < w -> 0 < t -> 0 < h -> (0 < nw0)%Z -> (0 < nt0)%Z -> (0 < nh0)%Z ->
    refined_box w t h nw0 nt0 nh0 r = Ok (1%Z, Z.of_nat nt, Z.of_nat nh) -> (0 < nt)%nat -> (0 < nh)%nat ->
    / 1000000 <= w -> / 1000000 <= t / INR nt -> / 1000000 <= h / INR nh -> comparable w t h 1 nt nh (shown false missing) ->
    existsb (shown false missing) [FrontSide; BackSide; TopSide; BottomSide] = true ->
    mesh_parallelepiped argsort set_order w t h c nw0 nt0 nh0 r missing false true = Err AssertionError.
  Proof. exact (box_one argsort Hs set_order Ho w t h c nw0 nt0 nh0 r missing nt nh). Qed.

  (** C45 for boxes. Whenever a box is returned for a maximal radius, it is made of the panels of the sides of some resolution and all
      of them are at most this large. *)
  Theorem box_radius_at_most w t h c nw0 nt0 nh0 r missing rf tr T : / 500000 <= w -> / 500000 <= t -> / 500000 <= h -> (0 < nw0)%Z -> (0 < nt0)%Z -> (0 < nh0)%Z ->
    / 1000000 <= w / IZR nw0 -> / 1000000 <= t / IZR nt0 -> / 1000000 <= h / IZR nh0 -> / 500000 <= r -> r <= w -> r <= t -> r <= h ->
    comparable w t h (Z.to_nat nw0) (Z.to_nat nt0) (Z.to_nat nh0) (fun _ => true) ->
    mesh_parallelepiped argsort set_order w t h c nw0 nt0 nh0 (Some r) missing rf tr = Ok T ->
    (exists nw nt nh, (0 < nw)%nat /\ (0 < nt)%nat /\ (0 < nh)%nat /\ is_box c w t h nw nt nh (shown rf missing) T)
    /\ exists ps, t_props T = Ok ps /\ ps <> [] /\ Forall (fun p => p_radius p <= r) ps.
  Proof.
    intros Pw Pt Ph N1 N2 N3 Dw Dt Dh Hr Rw Rt Rh Cm E.
    destruct (box_radius argsort Hs set_order Ho w t h c nw0 nt0 nh0 r missing rf tr T) as (nw & nt & nh & Nw & Nt & Nh & Ex & Fl & B & Rr); try assumption.
    split; [eauto 9|]. destruct B as (_ & Mo & ps & Ep & Fp). exists ps. split; [exact Ep|]. split.
    - intros ->. destruct Mo as (qs1 & qs2 & (qss & P2 & E2) & Pm & S). apply existsb_exists in Ex. destruct Ex as (s & Is & Ss).
      assert (Hq : In (placed (box_node c w t h nw nt nh) (side_panel nw nt nh s 0 0)) (box_panels c w t h nw nt nh (shown rf missing))).
      { apply in_flat_map. exists s. split; [apply filter_In; auto|]. apply in_flat_map. exists 0%nat. split; [apply in_seq; destruct s; cbn; lia|].
        apply in_map_iff. exists 0%nat. split; [reflexivity|]. apply in_seq. destruct s; cbn; lia. }
      apply (Permutation_in _ Pm) in Hq. assert (X : qs2 = []) by (apply (t_props_empty T); [exact Ep|exists qss; auto|exact Fl]). rewrite X in S. inversion S. subst qs1. destruct Hq.
    - eapply Forall_impl; [|exact Fp]. intros p (s & _ & Sp). specialize (Rr s). unfold side_panel_is in Sp. destruct (side_edges _ _ _ _ _ _ s). destruct Sp as ((_ & _ & ->) & _). exact Rr.
  Qed.
  (** Without symmetry a mesh is always returned. *)
  Theorem box_radius_reached w t h c nw0 nt0 nh0 r missing : / 500000 <= w -> / 500000 <= t -> / 500000 <= h -> (0 < nw0)%Z -> (0 < nt0)%Z -> (0 < nh0)%Z ->
    / 1000000 <= w / IZR nw0 -> / 1000000 <= t / IZR nt0 -> / 1000000 <= h / IZR nh0 -> / 500000 <= r -> r <= w -> r <= t -> r <= h ->
    comparable w t h (Z.to_nat nw0) (Z.to_nat nt0) (Z.to_nat nh0) (fun _ => true) -> existsb (shown false missing) box_sides = true ->
    exists T, mesh_parallelepiped argsort set_order w t h c nw0 nt0 nh0 (Some r) missing false false = Ok T.
  Proof. exact (box_radius_returns argsort Hs set_order Ho w t h c nw0 nt0 nh0 r missing). Qed.
  (** With the reflection symmetries an even resolution, accepted without a radius, can be refused with a radius. *)
  Theorem box_radius_symmetric_refuted :
    ~ (forall w t h c nw nt nh r T, 0 < r -> mesh_parallelepiped argsort set_order w t h c nw nt nh None (fun _ => false) true false = Ok T ->
       exists T', mesh_parallelepiped argsort set_order w t h c nw nt nh (Some r) (fun _ => false) true false = Ok T').
  Proof.
    intros H. destruct (box_is_its_sides 3 3 3 v0 2 2 2 (fun _ => false) true false) as (T & E & _); try lia; try discriminate; try reflexivity; try (cbn; lra).
    { intros s s' _ _. unfold panel_area. destruct s, s'; cbn; lra. }
    destruct (H _ _ _ _ _ _ _ 1 _ Rlt_0_1 E) as (T' & E'). change (Z.of_nat 2) with 2%Z in E'. rewrite (box_odd argsort set_order) in E'. discriminate.
  Qed.
  (** Without the hypothesis on the relative sizes of the panels, some of them can be lost: the ends of a long and flat box are missing. *)
  Theorem box_is_its_sides_refuted :
    ~ (forall w t h c nw nt nh, 0 < w -> 0 < t -> 0 < h -> (0 < nw)%nat -> (0 < nt)%nat -> (0 < nh)%nat ->
       exists T, mesh_parallelepiped argsort set_order w t h c (Z.of_nat nw) (Z.of_nat nt) (Z.of_nat nh) None (fun _ => false) false false = Ok T
         /\ is_box c w t h nw nt nh (fun _ => true) T).
  Proof.
    intros H. destruct (H 1000 1 (/ 1000) v0 1%nat 1%nat 1%nat) as (T & E & _ & M & _); try lra; try lia.
    exact (box_thin argsort Hs set_order Ho v0 T E M).
  Qed.
End Oracles.
Print Assumptions box_is_its_sides.
Print Assumptions box_is_closed.
Print Assumptions box_errors_raised.
Print Assumptions box_single_strip.
Print Assumptions box_radius_at_most.
Print Assumptions box_radius_reached.
Print Assumptions box_radius_symmetric_refuted.
Print Assumptions box_is_its_sides_refuted.

Definition same_order (l : list nat) : list nat := l.
(** A box of 4 x 2 x 1 with 4 x 2 x 1 panels, open at the top, in the three ways. *)
Definition no_lid (s : box_side) : bool := match s with TopSide => true | _ => false end.
Lemma cubes present : comparable 4 2 1 4 2 1 present.
Proof. intros s s' _ _. unfold panel_area. destruct s, s'; cbn; lra. Qed.
Example box_example : forall rf tr, tr && rf = false ->
  exists T, mesh_parallelepiped insertion_argsort same_order 4 2 1 (V 10 0 (-3)) 4 2 1 None no_lid rf tr = Ok T /\ is_box (V 10 0 (-3)) 4 2 1 4 2 1 (shown rf no_lid) T.
Proof.
  intros rf tr Sy. apply (box_is_its_sides insertion_argsort insertion_sorts same_order (fun l => Permutation_refl l) 4 2 1 (V 10 0 (-3)) 4 2 1 no_lid rf tr); try lia; try (cbn; lra);
    [apply cubes|now destruct rf|exact Sy|intros _; split; [lia|now destruct rf]].
Qed.
(** Its panels: 2 at each end, 4 at the front and at the back, 8 at the bottom. *)
Example box_panels_example : length (box_panels v0 4 2 1 4 2 1 (shown false no_lid)) = 20%nat.
Proof. reflexivity. Qed.
Example box_volume_example : exists T, mesh_parallelepiped insertion_argsort same_order 4 2 1 (V 10 0 (-3)) 4 2 1 None (fun _ => false) true false = Ok T /\ volume T = Ok 8.
Proof.
  destruct (box_is_closed insertion_argsort insertion_sorts same_order (fun l => Permutation_refl l) 4 2 1 (V 10 0 (-3)) 4 2 1 true false) as (T & qs & E & _ & _ & Vol); try lia; try (cbn; lra);
    [apply cubes|]. exists T. split; [exact E|]. rewrite Vol. f_equal. lra.
Qed.
Example box_single_strip_example : mesh_parallelepiped insertion_argsort same_order 4 2 1 v0 1 2 1 None no_lid false true = Err AssertionError.
Proof.
  apply (box_single_strip insertion_argsort insertion_sorts same_order (fun l => Permutation_refl l) 4 2 1 v0 1 2 1 None no_lid 2 1); try lra; try lia; try reflexivity; try (cbn; lra).
  intros s s' _ _. unfold panel_area. destruct s, s'; cbn; lra.
Qed.
Example box_radius_example : exists T ps, mesh_parallelepiped insertion_argsort same_order 4 2 1 v0 4 2 1 (Some (/ 2)) no_lid false false = Ok T
  /\ t_props T = Ok ps /\ ps <> [] /\ Forall (fun p => p_radius p <= / 2) ps.
Proof.
  destruct (box_radius_reached insertion_argsort insertion_sorts same_order (fun l => Permutation_refl l) 4 2 1 v0 4 2 1 (/ 2) no_lid) as (T & E); try lra; try lia; [apply (cubes (fun _ => true))|reflexivity|].
  destruct (box_radius_at_most insertion_argsort insertion_sorts same_order (fun l => Permutation_refl l) 4 2 1 v0 4 2 1 (/ 2) no_lid false false T) as (_ & ps & A & B & C); try lra; try lia;
    [apply (cubes (fun _ => true))|exact E|]. eauto 6.
Qed.
