(** The position of a lid, the estimated irregular frequencies and the generated lids. *)
From Coq Require Import Reals List Bool Arith ZArith Lia Lra Permutation.
From Verif Require Import Model_Base Model_Geometry Model_Mesh Model_Clip Spec_Mesh Spec_Tree Spec_Clip Model_Tree Model_Body Spec_Body
  Proofs_Geometry Proofs_Integrals Model_Quality Spec_Quality Props_Quality Model_Grid Spec_Grid Model_Lid Spec_Lid Proofs_Lid3 Proofs_Lid4 Proofs_Lid6 Proofs_Lid7 Proofs_Lid8 Proofs_Lid9 Proofs_Clip7.
Import ListNotations.
Open Scope R_scope.

(** ** C73 *)
(** The returned height is nine tenths of the greatest depth at which the estimate of one of the waterlines is the given frequency, or 0 if there is none. *)
Theorem lid_position_value :
  forall argsort m g w, valid m -> immersed m -> proper_waterlines m -> 0 < g -> 0 < w ->
  (forall l x y, is_waterline m l -> waterline_size m l x y -> PI * g * inverse_length x y <> w * w) ->
  exists z, lowest_lid_position argsort w g m = Ok (Fin z) /\ z <= 0
    /\ (forall l x y d, is_waterline m l -> waterline_size m l x y -> 0 < d -> parallelepiped_frequency g x y d = w -> z <= - (9 / 10 * d))
    /\ (z = 0 \/ exists l x y d, is_waterline m l /\ waterline_size m l x y /\ 0 < d /\ parallelepiped_frequency g x y d = w /\ z = - (9 / 10 * d)).
Proof. intros argsort m g w Vm Im Pm Hg Hw. exact (position_ok argsort m Vm Im Pm g w Hg Hw). Qed.
Print Assumptions lid_position_value.
Lemma critical_proper g s l x y : 0 < g -> 4 < s -> is_waterline (twin s) l -> waterline_size (twin s) l x y -> PI * g * inverse_length x y <> critical g * critical g.
Proof.
  intros Hg Hs W Sz E. destruct (critical_square g Hg) as [_ Sc]. rewrite Sc in E. assert (Ps : 0 < s) by lra. pose proof PI_RGT_0. assert (0 < PI * g) by now apply Rmult_lt_0_compat.
  assert (X : inverse_length x y = sqrt 2 / 4) by (apply Rmult_eq_reg_l with (PI * g); [exact E|lra]). pose proof sqrt2_pos.
  destruct (twin_sizes s Ps l x y W Sz) as [[-> ->]|[-> ->]]; rewrite inverse_square in X by lra; [lra|].
  assert (sqrt 2 / s * s = sqrt 2) by (field; lra). rewrite X in H2. nra.
Qed.
Example lid_position_value_ex : valid (twin 5) /\ immersed (twin 5) /\ proper_waterlines (twin 5) /\ 0 < critical (981 / 100)
  /\ (forall l x y, is_waterline (twin 5) l -> waterline_size (twin 5) l x y -> PI * (981 / 100) * inverse_length x y <> critical (981 / 100) * critical (981 / 100))
  /\ is_waterline (twin 5) [0; 1; 2]%nat /\ waterline_size (twin 5) [0; 1; 2]%nat 12 12 /\ is_waterline (twin 5) [3; 4; 5]%nat /\ waterline_size (twin 5) [3; 4; 5]%nat 5 5.
Proof.
  split; [apply twin_valid|]. split; [apply twin_immersed|]. split; [apply twin_proper; lra|]. split; [apply critical_square; lra|].
  split; [intros l x y; apply critical_proper; lra|]. destruct (twin_first 5) as [A B]; [lra|]. destruct (twin_second 5) as [C D]; [lra|]. exact (conj A (conj B (conj C D))).
Qed.

(** The waterlines of a mesh that goes above the free surface are those of its clipped part: the connected sets of faces of
    this part that have a vertex at the free surface. *)
Theorem waterline_of_immersed_part :
  forall argsort m, sorts argsort -> clippable (level_plane 0) vicinity m -> (exists v, In v (m_vertices m) /\ / 100000000 < vz v) ->
  exists m' ids faces c parts, clip argsort (level_plane 0) vicinity m = Ok (m', ids) /\ clipped (level_plane 0) m m' ids
    /\ (forall i, In i faces <-> wet m' i) /\ selects m' faces c /\ connected_components c = Some (Ok parts)
    /\ components_of_waterline argsort 0 m = Ok parts.
Proof. exact waterline_clipped. Qed.
Print Assumptions waterline_of_immersed_part.
Example waterline_of_immersed_part_ex : sorts insertion_argsort /\ clippable (level_plane 0) vicinity square /\ (exists v, In v (m_vertices square) /\ / 100000000 < vz v).
Proof. split; [apply insertion_sorts|]. split; [exact square_clippable|]. exists (V 0 0 1). split; [now left|cbn; lra]. Qed.

(** Without lid, the estimate is the least frequency of the parallelepipeds having the draft of the hull and the dimensions of the waterlines. *)
Theorem irregular_frequency_without_lid :
  forall argsort m g, valid m -> immersed m -> proper_waterlines m -> 0 < g ->
  forall d, 0 < d -> (exists v, In v (m_vertices m) /\ vz v = - d) -> (forall v, In v (m_vertices m) -> - d <= vz v) ->
  exists e, first_irregular_frequency_estimate argsort g m None = Ok e
    /\ (e = PInf \/ exists l x y, is_waterline m l /\ waterline_size m l x y /\ e = Fin (parallelepiped_frequency g x y d))
    /\ (forall l x y, is_waterline m l -> waterline_size m l x y -> exists v, e = Fin v /\ v <= parallelepiped_frequency g x y d).
Proof. intros argsort m g Vm Im Pm Hg. exact (no_lid_ok argsort m Vm Im Pm g Hg). Qed.
Print Assumptions irregular_frequency_without_lid.
Example irregular_frequency_without_lid_ex : valid (twin 5) /\ immersed (twin 5) /\ proper_waterlines (twin 5)
  /\ (exists v, In v (m_vertices (twin 5)) /\ vz v = - (4)) /\ (forall v, In v (m_vertices (twin 5)) -> - (4) <= vz v).
Proof.
  split; [apply twin_valid|]. split; [apply twin_immersed|]. split; [apply twin_proper; lra|]. split; [exists (V 4 4 (-4)); split; [cbn; tauto|cbn; ring]|].
  intros v Hv. cbn in Hv. repeat (destruct Hv as [<-|Hv]; [cbn; lra|]). destruct Hv.
Qed.

(** With a horizontal lid, the draft is the depth of the lid; a lid on the free surface gives infinity. *)
Theorem irregular_frequency_with_lid :
  forall argsort m g, valid m -> immersed m -> proper_waterlines m -> 0 < g -> forall lid z, lid_at lid z -> z <= 0 ->
  exists e, first_irregular_frequency_estimate argsort g m (Some lid) = Ok e
    /\ (- z < / 1000000 -> e = PInf)
    /\ (/ 1000000 <= - z -> (e = PInf \/ exists l x y, is_waterline m l /\ waterline_size m l x y /\ e = Fin (parallelepiped_frequency g x y (- z)))
        /\ forall l x y, is_waterline m l -> waterline_size m l x y -> exists v, e = Fin v /\ v <= parallelepiped_frequency g x y (- z)).
Proof. intros argsort m g Vm Im Pm Hg. exact (estimate_ok argsort m Vm Im Pm g Hg). Qed.
Print Assumptions irregular_frequency_with_lid.
Definition some_lid (z : R) : mesh := Mesh [V 1 1 z; V 2 1 z; V 2 2 z; V 1 2 z] [F 0 3 2 1].
Lemma some_lid_at z : lid_at (some_lid z) z.
Proof. split; [discriminate|]. intros v Hv. cbn in Hv. repeat (destruct Hv as [<-|Hv]; [reflexivity|]). destruct Hv. Qed.
Example irregular_frequency_with_lid_ex : valid (twin 5) /\ immersed (twin 5) /\ proper_waterlines (twin 5) /\ lid_at (some_lid (- / 2)) (- / 2) /\ - / 2 <= 0.
Proof. split; [apply twin_valid|]. split; [apply twin_immersed|]. split; [apply twin_proper; lra|]. split; [apply some_lid_at|lra]. Qed.

(** If all the waterlines have the same dimensions, a lid at the returned height removes the irregular frequencies up to the given frequency, and a
    lid deeper by one ninth does not.
    Missing with respect to the whole property: waterlines of different dimensions, for which it is false (next theorem). *)
Theorem lid_position_removes_partial :
  forall argsort m g w, valid m -> immersed m -> proper_waterlines m -> 0 < g -> 0 < w ->
  forall p, p <> w * w / (PI * g) -> (forall l x y, is_waterline m l -> waterline_size m l x y -> inverse_length x y = p) ->
  exists z, lowest_lid_position argsort w g m = Ok (Fin z) /\ z <= 0
    /\ (forall lid, lid_at lid z -> exists e, first_irregular_frequency_estimate argsort g m (Some lid) = Ok e /\ lower_than w e)
    /\ (z < 0 -> forall lid z', lid_at lid z' -> z' <= 10 / 9 * z -> z' <= - / 1000000 ->
          exists e, first_irregular_frequency_estimate argsort g m (Some lid) = Ok (Fin e) /\ e <= w).
Proof. intros argsort m g w Vm Im Pm Hg Hw. exact (safe_ok argsort m Vm Im Pm g w Hg Hw). Qed.
Print Assumptions lid_position_removes_partial.
Example lid_position_removes_ex : valid (twin 12) /\ immersed (twin 12) /\ proper_waterlines (twin 12) /\ sqrt 2 / 12 <> critical 1 * critical 1 / (PI * 1)
  /\ forall l x y, is_waterline (twin 12) l -> waterline_size (twin 12) l x y -> inverse_length x y = sqrt 2 / 12.
Proof.
  split; [apply twin_valid|]. split; [apply twin_immersed|]. split; [apply twin_proper; lra|]. destruct (critical_square 1) as [_ ->]; [lra|]. split.
  - intros E. pose proof sqrt2_pos. pose proof PI_RGT_0. replace (PI * 1 * (sqrt 2 / 4) / (PI * 1)) with (sqrt 2 / 4) in E by (field; lra). lra.
  - intros l x y W Sz. assert (P12 : 0 < 12) by lra. destruct (twin_sizes 12 P12 l x y W Sz) as [[-> ->]|[-> ->]]; now apply inverse_square.
Qed.

(** With two waterlines of different dimensions, the lid at the returned height is too deep for one of them. *)
Theorem lid_position_two_waterlines_refuted :
  exists m, valid m /\ immersed m /\ proper_waterlines m
    /\ forall argsort g, 0 < g -> exists w z, 0 < w /\ lowest_lid_position argsort w g m = Ok (Fin z)
         /\ forall lid, lid_at lid z -> exists e, first_irregular_frequency_estimate argsort g m (Some lid) = Ok (Fin e) /\ e < w.
Proof.
  exists (twin 5). split; [apply twin_valid|]. split; [apply twin_immersed|]. split; [apply twin_proper; lra|]. intros argsort g Hg.
  destruct (twin_too_low argsort g Hg) as (z & E & H). exists (critical g), z. split; [now apply critical_square|]. now split.
Qed.
Print Assumptions lid_position_two_waterlines_refuted.

(** ** C74 *)
(** The generated lid is made of the panels of a regular grid, larger by one tenth than the hull and as fine as requested, whose four corners are
    inside of the hull; each point of the grid is tested by the parity of the number of panels of the hull below it. *)
Theorem generated_lid_panels :
  forall argsort, sorts argsort -> forall set_order, (forall l, Permutation l (set_order l)) ->
  forall m z rad hull ids panels x0 x1 y0 y1 r,
  clip argsort (level_plane z) vicinity m = Ok (hull, ids) -> nb_faces hull <> 0%nat ->
  polygons_of hull panels -> (forall q, In q panels -> seen_well q) ->
  bounds vx (m_vertices hull) x0 x1 -> bounds vy (m_vertices hull) y0 y1 -> / 200000 <= x1 - x0 -> / 200000 <= y1 - y0 ->
  wanted_radius hull rad r -> / 500000 <= r ->
  exists nx ny lid qs, lid_counts (11 / 10 * (x1 - x0)) (11 / 10 * (y1 - y0)) r nx ny
    /\ generate_lid argsort set_order m z rad = Ok lid
    /\ kept (fun q => forall p, In p (polygon_corners q) -> inside panels p) (cells (lid_node x0 x1 y0 y1 z nx ny) nx ny) qs
    /\ (qs = [] -> lid = Mesh [] [])
    /\ valid lid /\ all_used lid /\ NoDup (m_vertices lid) /\ made_of (Leaf lid) qs
    /\ exists ps, faces_props lid = Ok ps /\ Forall (fun p => p_normal p = V 0 0 (-1) /\ p_radius p <= r
         /\ p_area p = 11 / 10 * (x1 - x0) / INR nx * (11 / 10 * (y1 - y0) / INR ny)) ps.
Proof. exact generate_lid_ok. Qed.
Print Assumptions generated_lid_panels.
Example generated_lid_panels_ex : sorts insertion_argsort
  /\ clip insertion_argsort (level_plane 0) vicinity keel = Ok (keel, seq 0 4) /\ nb_faces keel <> 0%nat /\ polygons_of keel keel_panels /\ (forall q, In q keel_panels -> seen_well q)
  /\ bounds vx (m_vertices keel) (-1) 1 /\ bounds vy (m_vertices keel) (-1) 1 /\ wanted_radius keel (Some (3 / 10)) (3 / 10).
Proof.
  split; [apply insertion_sorts|]. split; [apply keel_clip|]. split; [discriminate|]. split; [exact keel_polygons|]. split; [exact keel_seen|].
  split; [apply keel_bounds|]. split; [apply keel_bounds|now left].
Qed.

(** There is no lid if nothing is under its height, and a failed assertion if the hull is flat in one of the horizontal directions. *)
Theorem generated_lid_limits :
  forall argsort set_order m z rad hull ids, clip argsort (level_plane z) vicinity m = Ok (hull, ids) ->
  (nb_faces hull = 0%nat -> generate_lid argsort set_order m z rad = Ok (Mesh [] []))
  /\ forall x0 x1 y0 y1 r, nb_faces hull <> 0%nat -> bounds vx (m_vertices hull) x0 x1 -> bounds vy (m_vertices hull) y0 y1 -> wanted_radius hull rad r ->
       x0 = x1 \/ y0 = y1 -> generate_lid argsort set_order m z rad = Err AssertionError.
Proof.
  intros argsort so m z rad hull ids E. unfold generate_lid. rewrite E. cbn [bind fst]. split; [intros ->; reflexivity|].
  intros x0 x1 y0 y1 r N Bx By Wr D. apply Nat.eqb_neq in N. rewrite N. unfold candidate_lid.
  destruct (bounds_array _ _ _ _ Bx) as [-> ->]. destruct (bounds_array _ _ _ _ By) as [-> ->]. cbn [bind]. rewrite (radius_wanted _ _ _ Wr). cbn [bind].
  unfold mesh_rectangle, rectangle_checks. destruct D as [<-|<-].
  - rewrite (proj2 (Rltb_false 0 (11 / 10 * (x0 - x0)))) by lra. rewrite andb_false_r. reflexivity.
  - rewrite (proj2 (Rltb_false 0 (11 / 10 * (y0 - y0)))) by lra. reflexivity.
Qed.
Print Assumptions generated_lid_limits.
(** A vertical plate. *)
Definition plate : mesh := Mesh [V 0 (-1) 0; V 0 1 0; V 0 1 (-1); V 0 (-1) (-1)] [F 0 1 2 3].
Example generated_lid_limits_ex : clip insertion_argsort (level_plane 0) vicinity plate = Ok (plate, [0%nat])
  /\ nb_faces plate <> 0%nat /\ bounds vx (m_vertices plate) 0 0 /\ bounds vy (m_vertices plate) (-1) 1 /\ wanted_radius plate (Some (1 / 2)) (1 / 2).
Proof.
  split; [|split; [discriminate|split; [|split; [|now left]]]].
  - apply (clip_below insertion_argsort 0 plate 3).
    + intros f i [<-|[]] Hi. cbn in *. lia.
    + intros i Hi. exists (F 0 1 2 3). split; [now left|]. cbn in *. lia.
    + discriminate.
    + intros k a b c d (f & Hf & H). destruct k as [|k]; [|destruct k; discriminate]. cbn in Hf. injection Hf as <-. cbn in H. destruct H as (Ha & Hb & Hc & Hd).
      injection Ha as <-. injection Hb as <-. injection Hc as <-. injection Hd as <-.
      assert (R4 : sqrt 4 = 2) by (replace 4 with (2 * 2) by ring; apply sqrt_square; lra).
      unfold well_sized, tri_area, norm, area_vector, dot, cross; cbn [vx vy vz vsub vadd vscale].
      repeat match goal with |- context [sqrt ?x] => replace (sqrt x) with 2 by (symmetry; transitivity (sqrt 4); [f_equal; field|exact R4]) end. lra.
    + intros v Hv. unfold vicinity. cbn in Hv. repeat (destruct Hv as [<-|Hv]; [cbn [vz]; first [left; rewrite Rminus_0_r, Rabs_R0; lra|right; lra]|]). destruct Hv.
  - split; [exists (V 0 1 0); split; [cbn; tauto|reflexivity]|]. split; [exists (V 0 1 0); split; [cbn; tauto|reflexivity]|]. intros v Hv. cbn in Hv. repeat (destruct Hv as [<-|Hv]; [cbn; lra|]). destruct Hv.
  - split; [exists (V 0 (-1) 0); split; [cbn; tauto|reflexivity]|]. split; [exists (V 0 1 0); split; [cbn; tauto|reflexivity]|]. intros v Hv. cbn in Hv. repeat (destruct Hv as [<-|Hv]; [cbn; lra|]). destruct Hv.
Qed.

(** The lid does not cover the whole inside of a hull: the points of the grid above the common side of two panels are seen as outside. For a hull with a
    keel, whose waterplane is the square [-1, 1] x [-1, 1], no panel covers the band |x| < 1/3. *)
Theorem lid_above_keel_refuted :
  exists m panels r, valid m /\ polygons_of m panels /\ 0 < r
    /\ (forall p, -1 <= vx p <= 1 -> -1 <= vy p <= 1 -> exists q, In q panels /\ convex_from_above q /\ over p q)
    /\ forall argsort, sorts argsort -> forall set_order, (forall l, Permutation l (set_order l)) ->
       exists lid, generate_lid argsort set_order m 0 (Some r) = Ok lid /\ m_faces lid <> [] /\ forall v, In v (m_vertices lid) -> 1 / 3 <= Rabs (vx v).
Proof.
  exists keel, keel_panels, (3 / 10). split; [exact keel_valid|]. split; [exact keel_polygons|]. split; [lra|]. split; [exact keel_covers|exact keel_lid].
Qed.
Print Assumptions lid_above_keel_refuted.
