(** One panel of a surface of revolution. *)
From Coq Require Import Reals List Bool Arith Lia Lra Permutation.
From Verif Require Import Model_Base Model_Geometry Model_Mesh Spec_Mesh Spec_Clip Spec_Tree Spec_Integrals Spec_Body Model_Normals Spec_Normals
  Proofs_Geometry Proofs_Mesh Proofs_Mesh2 Proofs_Mesh3 Proofs_Clip4 Model_Integrals Proofs_Integrals Proofs_Clip7 Proofs_Grid2 Spec_Cylinder.
Import ListNotations.
Open Scope R_scope.

Section Panel.
  Variables (o : vec) (r0 r1 z0 z1 s0 c0 s1 c1 : R).
  Definition tp (r s c z : R) : vec := vadd o (V (r * s) (r * c) z).
  Definition quad4 : polygon := (tp r0 s0 c0 z0, tp r1 s0 c0 z1, tp r1 s1 c1 z1, tp r0 s1 c1 z0).
  Definition wide : vec := V ((z1 - z0) * (c0 - c1)) ((z1 - z0) * (s1 - s0)) (- (r1 - r0) * (s1 * c0 - c1 * s0)).
  Lemma wide_area : let '(a, b, c, d) := quad4 in area_vector a b c d = vscale ((r0 + r1) / 2) wide.
  Proof. unfold quad4, tp, wide, area_vector, cross. destruct o as [ox oy oz]. apply vec_ext; cbn [vx vy vz vadd vscale]; field. Qed.
  Lemma wide_tri a b c d : quad4 = (a, b, c, d) ->
    cross (vsub b a) (vsub c a) = vscale r1 wide /\ cross (vsub c a) (vsub d a) = vscale r0 wide
    /\ cross (vsub c b) (vsub d b) = vscale r1 wide /\ cross (vsub d b) (vsub a b) = vscale r0 wide.
  Proof.
    unfold quad4, tp. intros E. injection E as <- <- <- <-. unfold wide, cross. destruct o as [ox oy oz]. repeat split; apply vec_ext; cbn [vx vy vz vadd vsub vscale]; ring.
  Qed.
  Definition vflux : R := (s1 * c0 - c1 * s0) / 2 * ((z1 - z0) * (r0 * r0 + r0 * r1 + r1 * r1) / 3 - ((vz o + z1) * (r1 * r1) - (vz o + z0) * (r0 * r0))).
  Lemma quad_flux q' : same_polygon quad4 q' -> vz (flux q') = vflux.
  Proof.
    unfold quad4, vflux, tp. destruct o as [ox oy oz]. intros [->|[->|[->| ->]]]; unfold flux, tri1, tri2, cen1, cen2, area_vector, cross; cbn [vmul vx vy vz vadd vscale]; field.
  Qed.
  Lemma quad_area_z q' : same_polygon quad4 q' -> vz (area_of q') = - (s1 * c0 - c1 * s0) / 2 * (r1 * r1 - r0 * r0).
  Proof.
    unfold quad4, tp. destruct o as [ox oy oz]. intros [->|[->|[->| ->]]]; unfold area_of, area_vector, cross; cbn [vx vy vz vadd vscale]; field.
  Qed.
  Hypotheses (P0 : 0 <= r0) (P1 : 0 <= r1) (Pw : 0 < norm wide).
  Lemma quad_planar : let '(a, b, c, d) := quad4 in planar_convex a b c d.
  Proof.
    unfold quad4, planar_convex. exists (vscale (/ norm wide) wide), (r1 * norm wide), (r1 * norm wide), (r0 * norm wide), (r0 * norm wide).
    assert (0 <= r0 * norm wide) by (apply Rmult_le_pos; lra). assert (0 <= r1 * norm wide) by (apply Rmult_le_pos; lra).
    assert (E : forall r, vscale (r * norm wide) (vscale (/ norm wide) wide) = vscale r wide).
    { intros r. generalize dependent (norm wide). intros l Pl _ _. destruct wide as [wx wy wz]. apply vec_ext; cbn; field; lra. }
    split; [unfold unit_vector; rewrite norm_scale, Rabs_right; [field; lra|apply Rle_ge, Rlt_le, Rinv_0_lt_compat; exact Pw]|].
    do 4 (split; [assumption|]). rewrite !E. unfold tp, wide, cross. destruct o as [ox oy oz]. repeat split; apply vec_ext; cbn [vx vy vz vadd vsub vscale]; ring.
  Qed.
  Lemma quad_proper q' : same_polygon quad4 q' -> / 1000000000000 <= (r0 + r1) * norm wide -> proper_face q'.
  Proof.
    intros S L. pose proof quad_planar as Pq. pose proof wide_area as Aq. destruct quad4 as [[[a b] c] d].
    assert (N : / 1000000000000 <= 2 * norm (area_vector a b c d)) by (rewrite Aq, norm_scale, Rabs_right by lra; lra).
    assert (A1 : area_vector b c d a = area_vector a b c d) by (unfold area_vector; vring').
    assert (A2 : area_vector c d a b = area_vector a b c d) by (unfold area_vector; vring').
    assert (A3 : area_vector d a b c = area_vector a b c d) by (unfold area_vector; vring').
    destruct S as [->|[->|[->| ->]]]; (split; [right|congruence]).
    - exact Pq.
    - now apply planar_next.
    - do 2 apply planar_next. exact Pq.
    - do 3 apply planar_next. exact Pq.
  Qed.
  Lemma quad_sized A q' : same_polygon quad4 q' -> / 1000000000000 <= (r0 + r1) * norm wide -> A / 100000 <= (r0 + r1) * norm wide / 2 <= A -> well_sized A q'.
  Proof.
    intros S L B. pose proof wide_area as Aq. pose proof wide_tri as Tq. destruct quad4 as [[[a b] c] d]. specialize (Tq a b c d eq_refl). destruct Tq as (T1 & T2 & T3 & T4).
    assert (N : / 1000000000000 <= 2 * norm (area_vector a b c d)) by (rewrite Aq, norm_scale, Rabs_right by lra; lra).
    assert (Z : forall r u v, 0 <= r -> cross u v = vscale r wide -> norm (cross u v) / 2 = r * norm wide / 2) by (intros r u v Hr E; rewrite E, norm_scale, Rabs_right by lra; reflexivity).
    pose proof (Z _ _ _ P1 T1) as U1. pose proof (Z _ _ _ P0 T2) as U2. pose proof (Z _ _ _ P1 T3) as U3. pose proof (Z _ _ _ P0 T4) as U4.
    assert (A1 : area_vector b c d a = area_vector a b c d) by (unfold area_vector; vring').
    assert (A2 : area_vector c d a b = area_vector a b c d) by (unfold area_vector; vring').
    assert (A3 : area_vector d a b c = area_vector a b c d) by (unfold area_vector; vring').
    assert (R3 : forall x y z, tri_area x y z = tri_area y z x) by (intros; unfold tri_area; do 2 f_equal; vring').
    fold (tri_area a b c) in U1. fold (tri_area a c d) in U2. fold (tri_area b c d) in U3. fold (tri_area b d a) in U4.
    pose proof (R3 a b c) as V1. pose proof (R3 b c a) as V2. pose proof (R3 a c d) as V3. pose proof (R3 b d a) as V4. pose proof (R3 d b c) as V5. pose proof (R3 c d b) as V6.
    unfold well_sized. destruct S as [->|[->|[->| ->]]]; rewrite ?A1, ?A2, ?A3; (split; [exact N|]); lra.
  Qed.
End Panel.
