From Coq Require Import Reals List Bool ZArith Arith Lra Lia Permutation.
From Verif Require Import Model_Base Model_Geometry Model_Mesh Spec_Mesh Model_Tree Spec_Tree Spec_Clip Spec_Integrals
  Proofs_Geometry Proofs_Mesh Proofs_Mesh2 Proofs_Mesh3 Proofs_Tree Proofs_Tree2 Proofs_Clip4 Proofs_Clip5 Proofs_Clip6 Model_Integrals Proofs_Integrals.
Import ListNotations.
Open Scope R_scope.

(** ** Transformations of a proper surface *)
Lemma surface_map g h t t' qs : leaves t' = map g (leaves t) -> (filled t -> filled t') ->
  (forall m q, polygons_of m q -> polygons_of (g m) (map h q)) -> (forall q, proper_face q -> proper_face (h q)) ->
  proper_surface t qs -> proper_surface t' (map h qs).
Proof.
  intros E Hf H Hp (F & P & G). split; [auto|]. split; [exact (polygons_leaves g t t' qs E h H P)|].
  rewrite Forall_forall in *. intros x Hx. apply in_map_iff in Hx. destruct Hx as (q & <- & Hq). auto.
Qed.
Lemma translate_proper v q : proper_face q -> proper_face (poly_map (fun x => vadd x v) q).
Proof.
  apply (iso_proper (fun x => x) v 1); intros; try reflexivity; [|ring]. vring.
Qed.
Lemma translate_surface t v qs : proper_surface t qs -> proper_surface (t_translate t v) (map (poly_map (fun x => vadd x v)) qs).
Proof.
  apply (surface_map (fun m => translate m v)); [apply leaves_translate|apply filled_translate| |apply translate_proper].
  intros m q. apply (leaf_polygons (fun x => vadd x v)).
Qed.
Section Rotation.
  Variable b : axis.
  Variable th : R.
  Hypothesis U : proper_axis b.
  Let t0 := vsub (ax_point b) (rotate_vector b th (ax_point b)).
  Lemma rotate_as x : rotate_point b th x = vadd (rotate_vector b th x) t0.
  Proof.
    unfold rotate_point, t0. rewrite rotate_vector_sub.
    generalize (rotate_vector b th x) (rotate_vector b th (ax_point b)) (ax_point b). clear. vring.
  Qed.
  Lemma rot_cross u v : cross (rotate_vector b th u) (rotate_vector b th v) = vscale 1 (rotate_vector b th (cross u v)).
  Proof. rewrite rotate_vector_cross by exact U. generalize (rotate_vector b th (cross u v)). clear. vring. Qed.
  Lemma poly_rotate q : poly_map (rotate_point b th) q = poly_map (fun x => vadd (rotate_vector b th x) t0) q.
  Proof. destruct q as [[[a c] d] e]. cbn. now rewrite !rotate_as. Qed.
  Lemma rotate_proper q : proper_face q -> proper_face (poly_map (rotate_point b th) q).
  Proof.
    rewrite poly_rotate. apply (iso_proper (rotate_vector b th) t0 1 (rotate_vector_add b th) (rotate_vector_scale b th)); [|exact rot_cross|ring].
    intros; now apply rotate_vector_dot.
  Qed.
  Lemma rotate_surface t qs : proper_surface t qs -> proper_surface (t_rotate t b th) (map (poly_map (rotate_point b th)) qs).
  Proof.
    apply (surface_map (fun m => rotate m b th)); [apply leaves_rotate|apply filled_rotate| |apply rotate_proper].
    intros m q. apply (leaf_polygons (rotate_point b th)).
  Qed.
  Lemma rotate_total qs : watertight qs -> Rsum (map signed_volume (map (poly_map (rotate_point b th)) qs)) = Rsum (map signed_volume qs).
  Proof.
    intros W. rewrite (map_ext _ _ poly_rotate), (iso_total (rotate_vector b th) t0 1 (rotate_vector_add b th) (rotate_vector_scale b th)); [ring| |exact rot_cross|exact W].
    intros; now apply rotate_vector_dot.
  Qed.
End Rotation.
Section Mirror.
  Variable p : plane.
  Hypothesis U : proper_plane p.
  Let t0 := vscale (2 * pl_c p) (pl_normal p).
  Lemma mirror_as x : mirror_point p x = vadd (mirror_vector p x) t0.
  Proof. unfold mirror_point, mirror_vector, t0. generalize (pl_c p) (pl_normal p). clear. vring. Qed.
  Lemma mir_add u v : mirror_vector p (vadd u v) = vadd (mirror_vector p u) (mirror_vector p v).
  Proof. unfold mirror_vector. generalize (pl_normal p). clear. vring. Qed.
  Lemma mir_scale k u : mirror_vector p (vscale k u) = vscale k (mirror_vector p u).
  Proof. unfold mirror_vector. generalize (pl_normal p). clear. vring. Qed.
  Lemma mir_cross u v : cross (mirror_vector p u) (mirror_vector p v) = vscale (-1) (mirror_vector p (cross u v)).
  Proof. now rewrite mirror_vector_cross. Qed.
  Lemma poly_mirror q : poly_map (mirror_point p) q = poly_map (fun x => vadd (mirror_vector p x) t0) q.
  Proof. destruct q as [[[a c] d] e]. cbn. now rewrite !mirror_as. Qed.
  Let h q := poly_flip (poly_map (mirror_point p) q).
  Lemma mirror_proper0 q : proper_face q -> proper_face (poly_map (mirror_point p) q).
  Proof.
    rewrite poly_mirror. apply (iso_proper (mirror_vector p) t0 (-1) mir_add mir_scale); [|exact mir_cross|ring].
    intros; now apply mirror_vector_dot.
  Qed.
  Lemma mirror_surface t t' qs : t_mirror t p = Ok t' -> proper_surface t qs -> proper_surface t' (map h qs).
  Proof.
    intros E. apply (surface_map (fun m => mirror m p)); [now apply leaves_mirror|now apply filled_mirror with (q := p)| |].
    - intros m q Hq. unfold h, mirror. rewrite <- (map_map (poly_map (mirror_point p)) poly_flip). apply leaf_polygons_flip. now apply leaf_polygons.
    - intros q Hq. apply flip_proper. now apply mirror_proper0.
  Qed.
  Lemma mirror_total qs : Forall proper_face qs -> watertight qs -> Rsum (map signed_volume (map h qs)) = Rsum (map signed_volume qs).
  Proof.
    intros G W. assert (E : Rsum (map signed_volume (map (poly_map (mirror_point p)) qs)) = -1 * Rsum (map signed_volume qs)).
    { rewrite (map_ext _ _ poly_mirror). apply (iso_total (mirror_vector p) t0 (-1) mir_add mir_scale); [|exact mir_cross|exact W].
      intros; now apply mirror_vector_dot. }
    rewrite map_map in *. transitivity (Rsum (map (fun q => -1 * signed_volume (poly_map (mirror_point p) q)) qs)).
    - apply Rsum_ext. intros q Hq. unfold h. rewrite (proj2 (flip_proper _ (mirror_proper0 q (proj1 (Forall_forall _ _) G q Hq)))). ring.
    - rewrite Rsum_scal, E. ring.
  Qed.
End Mirror.

(** ** The center of buoyancy *)
Lemma buoyancy_value t qs : filled t -> tree_polygons t qs ->
  surface_integral3 t (fun p => vmul (p_normal p) (vmul (p_center p) (p_center p)))
  = Ok (vsum (map (fun q => vscale (p_area (face_of q)) (vmul (p_normal (face_of q)) (vmul (p_center (face_of q)) (p_center (face_of q))))) qs)).
Proof.
  intros F P. rewrite (integral3_value t qs F P). f_equal. clear.
  induction qs as [|q l IH]; [reflexivity|]. cbn [map]. rewrite vsum_cons, <- IH, !Rsum_cons. apply vec_ext; cbn [vx vy vz vadd vscale vmul]; ring.
Qed.
Lemma translated_face v q : proper_face q -> moved (fun p => vadd p v) (fun n => n) (face_of q) (face_of (poly_map (fun x => vadd x v) q)).
Proof.
  intros H. destruct (face_flux q H) as (N & _). destruct q as [[[a b] c] d].
  unfold face_of. cbn [quad_of poly_map]. apply (translation_props v false (Q a b c d)). unfold face_of in N. cbn [quad_of] in N. lra.
Qed.
Lemma buoyancy_translated t v qs V0 b : proper_surface t qs -> watertight qs -> volume t = Ok V0 -> V0 <> 0 ->
  center_of_buoyancy t = Ok (Some b) -> center_of_buoyancy (t_translate t v) = Ok (Some (vadd b v)).
Proof.
  intros S W Ev NV Eb. pose proof (translate_surface t v qs S) as S'.
  destruct (S) as (F & P & G). destruct (S') as (F' & P' & G').
  assert (Ev' : volume (t_translate t v) = Ok V0).
  { rewrite (volume_value _ _ S'), <- Ev, (volume_value _ _ S). f_equal.
    rewrite (iso_total (fun x => x) v 1); intros; try reflexivity; [ring| |exact W]. generalize (cross u v0). clear. vring. }
  unfold center_of_buoyancy in *. rewrite Ev' in *. rewrite Ev in Eb. rewrite (buoyancy_value _ _ F P) in Eb. rewrite (buoyancy_value _ _ F' P'). cbn [bind] in *.
  assert (Nb : Reqb V0 0 = false) by (unfold Reqb; now destruct (Req_EM_T V0 0)). rewrite Nb in *. apply Ok_inj' in Eb. injection Eb as <-. do 2 f_equal.
  rewrite map_map.
  (* the sum for each component *)
  pose proof (volumes_value t qs S) as Evs. pose proof (closed_flux qs W) as [C1 C2]. pose proof (flux_total qs) as Ft.
  rewrite (volume_value t qs S) in Ev. apply Ok_inj' in Ev.
  assert (X : forall (z : vec -> R), (forall u w, z (vadd u w) = z u + z w) -> (forall k u, z (vscale k u) = k * z u) -> z v0 = 0 -> (forall u w, z (vmul u w) = z u * z w) ->
     Rsum (map (fun q => z (flux q)) qs) = V0 ->
     z (vsum (map (fun q => vscale (p_area (face_of (poly_map (fun x => vadd x v) q))) (vmul (p_normal (face_of (poly_map (fun x => vadd x v) q)))
           (vmul (p_center (face_of (poly_map (fun x => vadd x v) q))) (p_center (face_of (poly_map (fun x => vadd x v) q)))))) qs))
     = z (vsum (map (fun q => vscale (p_area (face_of q)) (vmul (p_normal (face_of q)) (vmul (p_center (face_of q)) (p_center (face_of q))))) qs)) + 2 * V0 * z v).
  { intros z Za Zs Z0 Zm Ez. assert (Zsum : forall l, z (vsum l) = Rsum (map z l)).
    { induction l as [|u l IH]; [exact Z0|]. change (z (vadd u (vsum l)) = z u + Rsum (map z l)). now rewrite Za, IH. }
    rewrite !Zsum, !map_map.
    transitivity (Rsum (map (fun q => z (vscale (p_area (face_of q)) (vmul (p_normal (face_of q)) (vmul (p_center (face_of q)) (p_center (face_of q)))))
                                    + (2 * z v * z (flux q) + z v * z v * z (area_of q))) qs)).
    - apply Rsum_ext. intros q Hq. pose proof (proj1 (Forall_forall _ _) G q Hq) as Hp.
      destruct (translated_face v q Hp) as (A1 & A2 & A3 & _). rewrite A1, A2, A3.
      destruct (face_flux q Hp) as (_ & _ & B1 & B2). fold (flux q) in B2. rewrite <- B1, <- B2, !Zs, !Zm, !Za. ring.
    - rewrite Rsum_plus, Rsum_plus, !Rsum_scal, Ez. assert (Rsum (map (fun q => z (area_of q)) qs) = 0) as ->.
      { rewrite <- (map_map area_of z), <- Zsum, closed_area; [exact Z0|exact W]. }
      ring. }
  apply vec_ext; cbn [vx vy vz vadd vscale]; rewrite X; try (intros; reflexivity); try (field; exact NV); lra.
Qed.

(** ** Open hulls closed by the free surface *)
Lemma lid_flux q : horizontal_lid q -> flux q = v0 /\ signed_volume q = 0 /\ vx (area_of q) = 0 /\ vy (area_of q) = 0.
Proof.
  destruct q as [[[a b] c] d]. intros (A & B & C & D & _). destruct a as [a1 a2 a3], b as [b1 b2 b3], c as [c1 c2 c3], d as [d1 d2 d3]. cbn in A, B, C, D. subst.
  unfold flux, tri1, tri2, cen1, cen2, signed_volume, triple, area_of, area_vector, vmul, vadd, vscale, cross, dot, v0. cbn [vx vy vz].
  split; [apply vec_ext; cbn [vx vy vz]; field|]. split; [field|]. split; field.
Qed.
Lemma vsum_app' l l' : vsum (l ++ l') = vadd (vsum l) (vsum l').
Proof. apply vsum_app. Qed.
Lemma Rsum_zero {A} (f : A -> R) l : (forall x, In x l -> f x = 0) -> Rsum (map f l) = 0.
Proof.
  intros H. rewrite (Rsum_ext f (fun _ => 0 * 0)) by (intros; rewrite H by assumption; ring). rewrite Rsum_scal. ring.
Qed.
Lemma vz_vsum l : vz (vsum l) = Rsum (map vz l).
Proof. induction l as [|u l IH]; [reflexivity|]. change (vz u + vz (vsum l) = vz u + Rsum (map vz l)). now rewrite IH. Qed.
Lemma hull_volumes t qs ls : proper_surface t qs -> Forall horizontal_lid ls -> watertight (qs ++ ls) ->
  exists v, volumes t = Ok (V v v v) /\ volume t = Ok v /\ v = Rsum (map signed_volume qs)
    /\ waterplane_area t = Ok (Rsum (map (fun q => vz (area_of q)) ls)).
Proof.
  intros S Hl W. exists (Rsum (map signed_volume qs)). rewrite Forall_forall in Hl.
  destruct (closed_flux _ W) as [C1 C2]. rewrite !map_app, !Rsum_app in C1, C2.
  rewrite (Rsum_zero (fun q => vx (flux q)) ls), (Rsum_zero (fun q => vy (flux q)) ls) in C1 by (intros q Hq; now rewrite (proj1 (lid_flux q (Hl q Hq)))).
  rewrite (Rsum_zero (fun q => vy (flux q)) ls), (Rsum_zero (fun q => vz (flux q)) ls) in C2 by (intros q Hq; now rewrite (proj1 (lid_flux q (Hl q Hq)))).
  pose proof (flux_total qs) as T. split; [|split; [now apply volume_value|split; [reflexivity|]]].
  - rewrite (volumes_value t qs S). f_equal. apply vec_ext; cbn [vx vy vz]; lra.
  - rewrite (waterplane_proper t qs S). f_equal. pose proof (closed_area _ W) as C. rewrite map_app, vsum_app' in C. apply (f_equal vz) in C.
    cbn [vadd vz v0] in C. rewrite (vz_vsum (map area_of ls)), map_map in C. lra.
Qed.

(** ** The waterplane center *)
Lemma face_moment q : proper_face q ->
  vscale (p_area (face_of q)) (vscale (vz (p_normal (face_of q))) (p_center (face_of q))) = first_moment q.
Proof.
  destruct q as [[[a b] c] d]. intros [[<-|Hp] N].
  - destruct (face_flux (a, b, c, a)) as (A & _ & E & _); [now split; [left|]|].
    assert (C : p_center (face_of (a, b, c, a)) = vscale (/ 3) (vadd (vadd a b) c)).
    { unfold face_of, props_of in *. cbn [quad_of] in *. rewrite tri_as_quad in *. unfold tri_props in *. cbn [qa qb qc] in *.
      destruct (Rltb _ _) in *; [cbn in A; lra|reflexivity]. }
    rewrite C. apply (f_equal vz) in E. cbn [area_of vscale vz] in E. cbn [first_moment]. rewrite <- E.
    assert (Z : area_vector a c a a = v0) by (unfold area_vector; clear; vring). rewrite Z. generalize (p_area (face_of (a, b, c, a))) (vz (p_normal (face_of (a, b, c, a)))).
    clear. intros x y. apply vec_ext; cbn [vx vy vz vadd vscale v0]; field.
  - destruct (planar_area a b c d Hp) as (u & k1 & k2 & k3 & k4 & HA & _).
    unfold face_of, props_of. cbn [quad_of]. rewrite (quad_props_value a b c d k1 k3 u HA).
    destruct HA as [U K1 K3 A1 A3].
    assert (N1 : area_vector a b c a = vscale (k1 / 2) u).
    { transitivity (vscale (1 / 2) (cross (vsub b a) (vsub c a))); [unfold area_vector; clear; vring|]. rewrite A1. clear. destruct u; apply vec_ext; cbn; field. }
    assert (N3 : area_vector a c d a = vscale (k3 / 2) u).
    { transitivity (vscale (- (1 / 2)) (cross (vsub d a) (vsub c a))); [unfold area_vector; clear; vring|]. rewrite A3. clear. destruct u; apply vec_ext; cbn; field. }
    assert (Nq : area_vector a b c d = vscale ((k1 + k3) / 2) u).
    { rewrite <- area_split, N1, N3. clear. destruct u; apply vec_ext; cbn; field. }
    assert (L : / 1000000000000 <= k1 + k3).
    { rewrite Nq, norm_scale, U, Rabs_right in N by lra. lra. }
    rewrite (proj2 (Rltb_false (k1 + k3) degenerate_tol)) by exact L. cbn [p_area p_normal p_center].
    cbn [first_moment]. rewrite N1, N3. assert (0 < k1 + k3) by lra. clear - H.
    destruct u, a, b, c, d; apply vec_ext; cbn; field; lra.
Qed.
Lemma moment_x q : vx (first_moment q) = Rsum (map (fun e => / 2 * along vx vx vy e) (edges q)).
Proof. destruct q as [[[a b] c] d]. destruct a, b, c, d. cbn. field. Qed.
Lemma moment_y q : vy (first_moment q) = Rsum (map (fun e => - / 2 * along vy vy vx e) (edges q)).
Proof. destruct q as [[[a b] c] d]. destruct a, b, c, d. cbn. field. Qed.
Lemma closed_moments qs : watertight qs -> Rsum (map (fun q => vx (first_moment q)) qs) = 0 /\ Rsum (map (fun q => vy (first_moment q)) qs) = 0.
Proof.
  intros W. split.
  - rewrite (Rsum_ext _ (fun q => Rsum (map (fun e => / 2 * along vx vx vy e) (edges q)))) by (intros; apply moment_x).
    apply watertight_sum; [exact W|]. intros e. rewrite along_swap. ring.
  - rewrite (Rsum_ext _ (fun q => Rsum (map (fun e => - / 2 * along vy vy vx e) (edges q)))) by (intros; apply moment_y).
    apply watertight_sum; [exact W|]. intros e. rewrite along_swap. ring.
Qed.
Lemma hull_waterplane_center t qs ls : proper_surface t qs -> Forall horizontal_lid ls -> watertight (qs ++ ls) ->
  let area := Rsum (map (fun q => vz (area_of q)) ls) in
  waterplane_center t = Ok (if Rltb area (/ 10000000000) then None
    else Some (Rsum (map (fun q => vx (first_moment q)) ls) / area, Rsum (map (fun q => vy (first_moment q)) ls) / area)).
Proof.
  intros S Hl W area. destruct (hull_volumes t qs ls S Hl W) as (v & _ & _ & _ & Ea). fold area in Ea.
  unfold waterplane_center. rewrite Ea. cbn [bind].
  assert (Pa : 0 <= area).
  { unfold area. rewrite Forall_forall in Hl. clear - Hl. induction ls as [|q l IH]; [cbn; lra|]. cbn [map]. rewrite Rsum_cons.
    assert (0 < vz (area_of q)) by (specialize (Hl q (or_introl eq_refl)); destruct q as [[[a b] c] d]; apply Hl).
    specialize (IH (fun x h => Hl x (or_intror h))). lra. }
  rewrite (Rabs_right area) by lra. destruct (Rltb area _); [reflexivity|].
  destruct (S) as (F & P & G). rewrite (integral3_value t qs F P). cbn [bind vx vy vz]. do 3 f_equal.
  - destruct (closed_moments _ W) as [C _]. rewrite map_app, Rsum_app in C. f_equal.
    rewrite (Rsum_ext _ (fun q => vx (first_moment q))); [lra|]. intros q Hq. rewrite <- face_moment by (now apply (proj1 (Forall_forall _ _) G)). cbn. ring.
  - destruct (closed_moments _ W) as [_ C]. rewrite map_app, Rsum_app in C. f_equal.
    rewrite (Rsum_ext _ (fun q => vy (first_moment q))); [lra|]. intros q Hq. rewrite <- face_moment by (now apply (proj1 (Forall_forall _ _) G)). cbn. ring.
Qed.
