From Coq Require Import Reals List Bool ZArith Arith Lra Lia Permutation.
From Verif Require Import Model_Base Model_Geometry Model_Mesh Spec_Mesh Model_Tree Spec_Tree Spec_Clip Spec_Integrals
  Proofs_Geometry Proofs_Mesh Proofs_Mesh2 Proofs_Mesh3 Proofs_Tree Proofs_Tree2 Proofs_Clip4 Proofs_Clip5 Proofs_Clip6 Model_Integrals.
Import ListNotations.
Open Scope R_scope.

(** ** Sums *)
Lemma Rsum_app l l' : Rsum (l ++ l') = Rsum l + Rsum l'.
Proof.
  induction l as [|a l IH]; [change (Rsum l' = 0 + Rsum l'); ring|]. change (a + Rsum (l ++ l') = a + Rsum l + Rsum l'). rewrite IH. ring.
Qed.
Lemma Rsum_cons a l : Rsum (a :: l) = a + Rsum l. Proof. reflexivity. Qed.
Lemma Rsum_nil : Rsum [] = 0. Proof. reflexivity. Qed.
Lemma Rsum_plus {A} (f g : A -> R) l : Rsum (map (fun x => f x + g x) l) = Rsum (map f l) + Rsum (map g l).
Proof. induction l as [|a l IH]; cbn [map]; [rewrite !Rsum_nil; ring|]. rewrite !Rsum_cons, IH. ring. Qed.
Lemma Rsum_scal {A} k (f : A -> R) l : Rsum (map (fun x => k * f x) l) = k * Rsum (map f l).
Proof. induction l as [|a l IH]; cbn [map]; [rewrite !Rsum_nil; ring|]. rewrite !Rsum_cons, IH. ring. Qed.
Lemma Rsum_ext {A} (f g : A -> R) l : (forall x, In x l -> f x = g x) -> Rsum (map f l) = Rsum (map g l).
Proof. intros H. f_equal. now apply map_ext_in. Qed.
Lemma Rsum_perm l l' : Permutation l l' -> Rsum l = Rsum l'.
Proof. induction 1; try rewrite !Rsum_cons; [reflexivity|now rewrite IHPermutation|ring|congruence]. Qed.
(** An antisymmetric function of the edges has a zero sum on a watertight surface. *)
Lemma watertight_sum (g : vec * vec -> R) qs : watertight qs -> (forall e, g (swap e) = - g e) ->
  Rsum (map (fun q => Rsum (map g (edges q))) qs) = 0.
Proof.
  intros W H. assert (E : Rsum (map (fun q => Rsum (map g (edges q))) qs) = Rsum (map g (flat_map edges qs))).
  { clear. induction qs as [|q qs IH]; [reflexivity|]. cbn [map flat_map]. rewrite map_app, Rsum_app, Rsum_cons, IH. reflexivity. }
  rewrite E. pose proof (Rsum_perm _ _ (Permutation_map g W)) as P. rewrite map_map in P.
  assert (E2 : Rsum (map (fun x => g (swap x)) (flat_map edges qs)) = - Rsum (map g (flat_map edges qs))).
  { rewrite (Rsum_ext _ (fun x => -1 * g x)), Rsum_scal; [ring|]. intros e _. rewrite H. ring. }
  rewrite E2 in P. lra.
Qed.

(** ** The properties of the faces *)
Definition quad_of (q : polygon) : quad := let '(a, b, c, d) := q in Q a b c d.
Definition face_of (q : polygon) : fprops := props_of false (quad_of q).
Lemma leaf_props m qs : polygons_of m qs -> faces_props m = Ok (map face_of qs).
Proof.
  intros P. unfold faces_props. apply mapM_ok. apply Forall2_nth in P. destruct P as [L P].
  split; [now rewrite map_length|]. intros k f Hf. unfold face_props.
  assert (k < length qs)%nat as Hk by (rewrite <- L; apply nth_error_Some; congruence).
  destruct (nth_error qs k) as [[[[a b] c] d]|] eqn:Eq; [|apply nth_error_None in Eq; lia].
  specialize (P k f _ Hf Eq). destruct P as (A & B & C & D).
  assert (Ep : face_points (m_vertices m) f = Ok (Q a b c d)) by (apply face_points_ok; auto).
  rewrite Ep. cbn [bind]. eexists. split; [reflexivity|]. rewrite nth_error_map, Eq. cbn. f_equal. unfold face_of. cbn [quad_of].
  apply props_of_one_face. intros T. exact (face_points_tri _ _ _ Ep T).
Qed.
Lemma tree_props t qs : filled t -> tree_polygons t qs -> t_props t = Ok (map face_of qs).
Proof.
  intros F (qss & P & ->). rewrite concat_map. apply t_props_leaves; [exact F|].
  apply mapM_ok. apply Forall2_nth in P. destruct P as [L P]. split; [now rewrite map_length|].
  intros k m Hm. assert (k < length qss)%nat as Hk by (rewrite <- L; apply nth_error_Some; congruence).
  destruct (nth_error qss k) as [q|] eqn:Eq; [|apply nth_error_None in Eq; lia].
  eexists. split; [apply (leaf_props m q); now apply (P k)|]. now rewrite nth_error_map, Eq.
Qed.
Lemma product_same xs ys : length xs = length ys -> product xs ys = Ok (map (fun p => fst p * snd p) (combine xs ys)).
Proof. intros L. unfold product. now rewrite L, Nat.eqb_refl. Qed.
Lemma product_maps {A} (f g : A -> R) l : product (map f l) (map g l) = Ok (map (fun x => f x * g x) l).
Proof.
  rewrite product_same by now rewrite !map_length. f_equal. induction l as [|a l IH]; [reflexivity|]. cbn. now f_equal.
Qed.
Lemma product_one_l x ys : product [x] ys = Ok (map (fun y => x * y) ys).
Proof. destruct ys as [|y [|y' ys]]; reflexivity. Qed.
Lemma product_one_r x xs : product xs [x] = Ok (map (fun y => y * x) xs).
Proof. destruct xs as [|y [|y' ys]]; reflexivity. Qed.

Section Surface.
  Variable t : tree.
  Variable qs : list polygon.
  Hypothesis F : filled t.
  Hypothesis P : tree_polygons t qs.
  Let E : t_props t = Ok (map face_of qs) := tree_props t qs F P.
  Lemma integral_value (f : polygon -> R) : surface_integral t (map f qs) = Ok (Rsum (map (fun q => f q * p_area (face_of q)) qs)).
  Proof. unfold surface_integral. rewrite E. cbn [bind]. rewrite map_map, product_maps. reflexivity. Qed.
  Lemma integral_const k : surface_integral t [k] = Ok (Rsum (map (fun q => k * p_area (face_of q)) qs)).
  Proof. unfold surface_integral. rewrite E. cbn [bind]. rewrite product_one_l. cbn [bind]. now rewrite !map_map. Qed.
  Lemma integral3_value data : surface_integral3 t data = Ok
    (V (Rsum (map (fun q => vx (data (face_of q)) * p_area (face_of q)) qs))
       (Rsum (map (fun q => vy (data (face_of q)) * p_area (face_of q)) qs))
       (Rsum (map (fun q => vz (data (face_of q)) * p_area (face_of q)) qs))).
  Proof.
    unfold surface_integral3. rewrite E. cbn [bind]. rewrite !map_map.
    rewrite (integral_value (fun q => vx (data (face_of q)))). cbn [bind].
    rewrite (integral_value (fun q => vy (data (face_of q)))). cbn [bind].
    rewrite (integral_value (fun q => vz (data (face_of q)))). reflexivity.
  Qed.
  Lemma waterplane_value : waterplane_area t = Ok (- Rsum (map (fun q => vz (p_normal (face_of q)) * p_area (face_of q)) qs)).
  Proof.
    unfold waterplane_area, waterplane_integral. rewrite E. cbn [bind]. rewrite product_one_r. cbn [bind]. rewrite !map_map.
    rewrite (integral_value (fun q => vz (p_normal (face_of q)) * 1)). cbn [bind]. do 2 f_equal. apply Rsum_ext. intros; ring.
  Qed.
End Surface.

(** ** One face *)
Definition tri1 (q : polygon) : vec := let '(a, b, c, d) := q in area_vector a b c a.
Definition tri2 (q : polygon) : vec := let '(a, b, c, d) := q in area_vector a c d a.
Definition cen1 (q : polygon) : vec := let '(a, b, c, d) := q in vscale (/ 3) (vadd (vadd a b) c).
Definition cen2 (q : polygon) : vec := let '(a, b, c, d) := q in vscale (/ 3) (vadd (vadd a c) d).
Lemma face_flux q : proper_face q ->
  0 < p_area (face_of q)
  /\ unit_vector (p_normal (face_of q))
  /\ vscale (p_area (face_of q)) (p_normal (face_of q)) = area_of q
  /\ vscale (p_area (face_of q)) (vmul (p_normal (face_of q)) (p_center (face_of q)))
     = vadd (vmul (tri1 q) (cen1 q)) (vmul (tri2 q) (cen2 q)).
Proof.
  destruct q as [[[a b] c] d]. intros [[<-|Hp] N].
  - unfold face_of, props_of. cbn [quad_of]. rewrite tri_as_quad. unfold tri_props. cbn [qa qb qc].
    set (n := cross (vsub b a) (vsub c a)). assert (En : vscale 2 (area_vector a b c a) = n) by (unfold n, area_vector; clear; apply vec_ext; cbn; field).
    assert (L : / 1000000000000 <= norm n) by (rewrite <- En, norm_scale, Rabs_right by lra; lra).
    rewrite (proj2 (Rltb_false (Rabs (norm n)) degenerate_tol)) by (rewrite Rabs_right by (pose proof (norm_pos n); lra); exact L).
    cbn [p_area p_normal p_center]. assert (0 < norm n) by lra. assert (En' : area_vector a b c a = vscale (1 / 2) n) by (rewrite <- En; generalize (area_vector a b c a); intros [x y z]; apply vec_ext; cbn; lra).
    split; [lra|]. split; [|split].
    + apply unit_dot. rewrite dot_scale_l, dot_scale_r, <- norm_sq. field. lra.
    + cbn [area_of]. rewrite En'. clear En En'. clearbody n. generalize dependent (norm n). intros l _ Hl. destruct n as [x y z]. apply vec_ext; cbn; field; lra.
    + cbn [tri1 tri2 cen1 cen2]. rewrite En'. clear En En'. clearbody n. generalize dependent (norm n). intros l _ Hl.
      destruct n as [x y z], a, b, c; apply vec_ext; cbn; field; lra.
  - destruct (planar_area a b c d Hp) as (u & k1 & k2 & k3 & k4 & HA & _).
    unfold face_of, props_of. cbn [quad_of]. rewrite (quad_props_value a b c d k1 k3 u HA).
    destruct HA as [U K1 K3 A1 A3].
    assert (N1 : area_vector a b c a = vscale (k1 / 2) u).
    { transitivity (vscale (1 / 2) (cross (vsub b a) (vsub c a))); [unfold area_vector; clear; vring|]. rewrite A1. clear. destruct u; apply vec_ext; cbn; field. }
    assert (N3 : area_vector a c d a = vscale (k3 / 2) u).
    { transitivity (vscale (- (1 / 2)) (cross (vsub d a) (vsub c a))); [unfold area_vector; clear; vring|]. rewrite A3. clear. destruct u; apply vec_ext; cbn; field. }
    assert (Nq : area_vector a b c d = vscale ((k1 + k3) / 2) u).
    { rewrite <- area_split, N1, N3. clear. destruct u; apply vec_ext; cbn; field. }
    assert (L : / 1000000000000 <= k1 + k3).
    { rewrite Nq, norm_scale, U, Rabs_right in N by lra. lra. }
    rewrite (proj2 (Rltb_false (k1 + k3) degenerate_tol)) by exact L. cbn [p_area p_normal p_center].
    split; [lra|]. split; [exact U|]. split; [exact (eq_sym Nq)|].
    cbn [tri1 tri2 cen1 cen2]. rewrite N1, N3. assert (0 < k1 + k3) by lra. clear - H.
    destruct u, a, b, c, d; apply vec_ext; cbn; field; lra.
Qed.

(** ** Antisymmetric functions of the edges *)
Definition edge_area (e : vec * vec) : vec := vscale (1 / 2) (cross (fst e) (snd e)).
Lemma area_edges q : area_of q = vsum (map edge_area (edges q)).
Proof. destruct q as [[[a b] c] d]. cbn [area_of edges map vsum fold_right]. unfold edge_area, area_vector. cbn [fst snd]. vring. Qed.
(** The integral of [x y dz] along the edge, and its permutations. *)
Definition along (x y z : vec -> R) (e : vec * vec) : R :=
  let (a, b) := e in (z b - z a) * (x a * y a + (x a + x b) * (y a + y b) + x b * y b) / 6.
Lemma along_swap x y z e : along x y z (swap e) = - along x y z e.
Proof. destruct e as [a b]. unfold along, swap. cbn. field. Qed.
Definition flux (q : polygon) : vec := vadd (vmul (tri1 q) (cen1 q)) (vmul (tri2 q) (cen2 q)).
Lemma flux_xy q : vx (flux q) - vy (flux q) = Rsum (map (along vx vy vz) (edges q)).
Proof.
  destruct q as [[[a b] c] d]. destruct a, b, c, d. cbn. field.
Qed.
Lemma flux_yz q : vy (flux q) - vz (flux q) = Rsum (map (along vy vz vx) (edges q)).
Proof. destruct q as [[[a b] c] d]. destruct a, b, c, d. cbn. field. Qed.
Lemma flux_volume q : (vx (flux q) + vy (flux q) + vz (flux q)) / 3 = signed_volume q.
Proof.
  destruct q as [[[a b] c] d]. destruct a, b, c, d. cbn. unfold triple, dot, cross; cbn. field.
Qed.


(** ** Closed surfaces *)
Section Closed.
  Variable qs : list polygon.
  Hypothesis W : watertight qs.
  Lemma closed_area : vsum (map area_of qs) = v0.
  Proof.
    assert (X : forall (z : vec -> R), (forall u v, z (vadd u v) = z u + z v) -> z v0 = 0 -> (forall k u, z (vscale k u) = k * z u) ->
              z (vsum (map area_of qs)) = 0).
    { intros z Za Z0 Zs. assert (S1 : forall l, z (vsum l) = Rsum (map z l)).
      { induction l as [|u l IH]; [exact Z0|]. change (z (vadd u (vsum l)) = z u + Rsum (map z l)). now rewrite Za, IH. }
      rewrite S1, map_map. transitivity (Rsum (map (fun q => Rsum (map (fun e => z (edge_area e)) (edges q))) qs)).
      - apply Rsum_ext. intros q _. now rewrite area_edges, S1, map_map.
      - apply watertight_sum; [exact W|]. intros [u v]. unfold edge_area, swap. cbn [fst snd]. rewrite !Zs.
        assert (z (cross v u) = - z (cross u v)).
        { replace (cross v u) with (vscale (-1) (cross u v)) by vring. rewrite Zs. ring. }
        rewrite H. ring. }
    apply vec_ext; [apply (X vx)|apply (X vy)|apply (X vz)]; intros; reflexivity.
  Qed.
  Lemma closed_flux : Rsum (map (fun q => vx (flux q)) qs) = Rsum (map (fun q => vy (flux q)) qs)
    /\ Rsum (map (fun q => vy (flux q)) qs) = Rsum (map (fun q => vz (flux q)) qs).
  Proof.
    split.
    - pose proof (watertight_sum (along vx vy vz) qs W (along_swap _ _ _)) as H.
      rewrite (Rsum_ext _ (fun q => vx (flux q) + -1 * vy (flux q))), Rsum_plus, Rsum_scal in H by (intros q _; rewrite <- flux_xy; ring). lra.
    - pose proof (watertight_sum (along vy vz vx) qs W (along_swap _ _ _)) as H.
      rewrite (Rsum_ext _ (fun q => vy (flux q) + -1 * vz (flux q))), Rsum_plus, Rsum_scal in H by (intros q _; rewrite <- flux_yz; ring). lra.
  Qed.
End Closed.
Lemma flux_total qs : (Rsum (map (fun q => vx (flux q)) qs) + Rsum (map (fun q => vy (flux q)) qs) + Rsum (map (fun q => vz (flux q)) qs)) / 3
  = Rsum (map signed_volume qs).
Proof.
  transitivity (Rsum (map (fun q => / 3 * (vx (flux q) + (vy (flux q) + vz (flux q)))) qs)).
  - rewrite Rsum_scal, Rsum_plus, Rsum_plus. field.
  - apply Rsum_ext. intros q _. rewrite <- flux_volume. field.
Qed.

(** ** The integrals of a proper surface *)
Section Proper.
  Variable t : tree.
  Variable qs : list polygon.
  Hypothesis S : proper_surface t qs.
  Let F : filled t := proj1 S.
  Let P : tree_polygons t qs := proj1 (proj2 S).
  Let G : Forall proper_face qs := proj2 (proj2 S).
  Lemma proper_each q : In q qs -> proper_face q.
  Proof. intros H. now apply (proj1 (Forall_forall _ _) G). Qed.
  Lemma normals_value : surface_integral3 t p_normal = Ok (vsum (map area_of qs)).
  Proof.
    rewrite (integral3_value t qs F P). f_equal.
    assert (X : forall (z : vec -> R), (forall u v, z (vadd u v) = z u + z v) -> z v0 = 0 -> (forall k u, z (vscale k u) = k * z u) ->
              Rsum (map (fun q => z (p_normal (face_of q)) * p_area (face_of q)) qs) = z (vsum (map area_of qs))).
    { intros z Za Z0 Zs. transitivity (Rsum (map (fun q => z (area_of q)) qs)).
      - apply Rsum_ext. intros q Hq. destruct (face_flux q (proper_each q Hq)) as (_ & _ & E & _). rewrite <- E, Zs. ring.
      - clear - Za Z0. induction qs as [|q l IH]; [exact (eq_sym Z0)|]. cbn [map]. rewrite Rsum_cons, IH. symmetry. apply Za. }
    apply vec_ext; cbn [vx vy vz]; apply X; intros; reflexivity.
  Qed.
  Lemma volumes_value : volumes t = Ok (V (Rsum (map (fun q => vx (flux q)) qs)) (Rsum (map (fun q => vy (flux q)) qs)) (Rsum (map (fun q => vz (flux q)) qs))).
  Proof.
    unfold volumes. rewrite (integral3_value t qs F P). f_equal. apply vec_ext; cbn [vx vy vz]; apply Rsum_ext; intros q Hq;
      destruct (face_flux q (proper_each q Hq)) as (_ & _ & _ & E); fold (flux q) in E; rewrite <- E; cbn; ring.
  Qed.
  Lemma volume_value : volume t = Ok (Rsum (map signed_volume qs)).
  Proof. unfold volume. rewrite volumes_value. cbn [bind vx vy vz]. now rewrite flux_total. Qed.
  Lemma waterplane_proper : waterplane_area t = Ok (- vz (vsum (map area_of qs))).
  Proof.
    pose proof normals_value as H. rewrite (integral3_value t qs F P) in H. rewrite (waterplane_value t qs F P). do 2 f_equal.
    apply Ok_inj' in H. now apply (f_equal vz) in H.
  Qed.
End Proper.

(** ** Transformations *)
Definition poly_map (g : vec -> vec) (q : polygon) : polygon := let '(a, b, c, d) := q in (g a, g b, g c, g d).
Definition poly_flip (q : polygon) : polygon := let '(a, b, c, d) := q in (d, c, b, a).
Lemma leaf_polygons g m qs : polygons_of m qs -> polygons_of (Mesh (map g (m_vertices m)) (m_faces m)) (map (poly_map g) qs).
Proof.
  intros P. unfold polygons_of in *. cbn [m_vertices m_faces]. rewrite <- (map_id (m_faces m)) at 1.
  induction P as [|f q fs qs H P IH]; [constructor|]. cbn. constructor; [|exact IH].
  destruct q as [[[a b] c] d]. destruct H as (A & B & C & D). cbn. rewrite !nth_error_map, A, B, C, D. now cbn.
Qed.
Lemma leaf_polygons_flip m qs : polygons_of m qs -> polygons_of (flip_normals m) (map poly_flip qs).
Proof.
  intros P. unfold polygons_of, flip_normals in *. cbn [m_vertices m_faces].
  induction P as [|f q fs qs H P IH]; [constructor|]. cbn. constructor; [|exact IH].
  destruct q as [[[a b] c] d]. destruct H as (A & B & C & D). cbn. auto.
Qed.
Lemma polygons_leaves g t t' qs : leaves t' = map g (leaves t) ->
  forall h, (forall m q, polygons_of m q -> polygons_of (g m) (map h q)) ->
  tree_polygons t qs -> tree_polygons t' (map h qs).
Proof.
  intros E h H (qss & P & ->). exists (map (map h) qss). split; [|now rewrite concat_map].
  rewrite E. clear E. induction P as [|m q ms qss X P IH]; [constructor|]. cbn. constructor; [now apply H|exact IH].
Qed.

Lemma list_ext {A} : forall l l' : list A, (forall i, nth_error l i = nth_error l' i) -> l = l'.
Proof.
  induction l as [|x l IH]; intros [|y l'] H; [reflexivity|specialize (H 0%nat); discriminate|specialize (H 0%nat); discriminate|].
  f_equal; [specialize (H 0%nat); cbn in H; congruence|]. apply IH. intros i. exact (H (Datatypes.S i)).
Qed.
Lemma leaves_rotate t b th : leaves (t_rotate t b th) = map (fun m => rotate m b th) (leaves t).
Proof.
  induction t as [m|k l IH] using tree_induction; [reflexivity|]. cbn [t_rotate leaves]. rewrite map_map, concat_map, map_map.
  f_equal. apply map_ext_in. intros x Hx. now apply IH.
Qed.
Lemma leaves_mirror t q : forall t', t_mirror t q = Ok t' -> leaves t' = map (fun m => mirror m q) (leaves t).
Proof.
  induction t as [m|k l IH] using tree_induction; intros t' E.
  - cbn in E. apply Ok_inj' in E. now subst.
  - cbn [t_mirror] in E. destruct (match k with Plain => _ | _ => _ end) as [k'|] in E; [|discriminate]. cbn [bind] in E.
    rewrite sequence_map in E. destruct (mapM (fun x => t_mirror x q) l) as [l'|] eqn:El; [|discriminate]. cbn [bind] in E. apply Ok_inj' in E. subst t'.
    cbn [leaves]. rewrite concat_map, map_map. f_equal. apply mapM_ok in El. destruct El as [L El].
    apply list_ext. intros i. rewrite !nth_error_map. destruct (nth_error l i) as [x|] eqn:Ex.
    + destruct (El i x Ex) as (y & Ey & Hy). rewrite Hy. cbn. f_equal. apply IH; [now apply nth_error_In in Ex|exact Ey].
    + assert (nth_error l' i = None) as -> by (apply nth_error_None; apply nth_error_None in Ex; lia). reflexivity.
Qed.
Lemma filled_translate t v : filled t -> filled (t_translate t v).
Proof.
  induction t as [m|k l IH] using tree_induction; intros F; [constructor|]. apply filled_inv in F. destruct F as [N F]. cbn [t_translate].
  constructor; [destruct l; [easy|discriminate]|]. intros x Hx. apply in_map_iff in Hx. destruct Hx as (y & <- & Hy). apply IH; auto.
Qed.
Lemma filled_rotate t b th : filled t -> filled (t_rotate t b th).
Proof.
  induction t as [m|k l IH] using tree_induction; intros F; [constructor|]. apply filled_inv in F. destruct F as [N F]. cbn [t_rotate].
  constructor; [destruct l; [easy|discriminate]|]. intros x Hx. apply in_map_iff in Hx. destruct Hx as (y & <- & Hy). apply IH; auto.
Qed.
Lemma filled_mirror t q : forall t', t_mirror t q = Ok t' -> filled t -> filled t'.
Proof.
  induction t as [m|k l IH] using tree_induction; intros t' E F.
  - cbn in E. apply Ok_inj' in E. subst. constructor.
  - apply filled_inv in F. destruct F as [N F]. cbn [t_mirror] in E. destruct (match k with Plain => _ | _ => _ end) as [k'|] in E; [|discriminate]. cbn [bind] in E.
    rewrite sequence_map in E. destruct (mapM (fun x => t_mirror x q) l) as [l'|] eqn:El; [|discriminate]. cbn [bind] in E. apply Ok_inj' in E. subst t'.
    apply mapM_ok in El. destruct El as [L El]. constructor; [destruct l, l'; easy|]. intros y Hy. apply In_nth_error in Hy. destruct Hy as (i & Hi).
    assert (i < length l)%nat as Hl by (rewrite <- L; apply nth_error_Some; congruence).
    destruct (nth_error l i) as [x|] eqn:Ex; [|apply nth_error_None in Ex; lia]. destruct (El i x Ex) as (y' & Ey & Hy). rewrite Hi in Hy. injection Hy as <-.
    apply (IH x); [now apply nth_error_In in Ex|exact Ey|apply F; now apply nth_error_In in Ex].
Qed.

Ltac vring' := intros; unfold vopp, vsub, vadd, vscale, dot, cross, v0; cbn [vx vy vz]; try (apply vec_ext; cbn [vx vy vz]); ring.
Section Isometry.
  Variable L : vec -> vec.
  Variable tr : vec.
  Variable sg : R.
  Hypothesis L_add : forall u v, L (vadd u v) = vadd (L u) (L v).
  Hypothesis L_scale : forall k u, L (vscale k u) = vscale k (L u).
  Hypothesis L_dot : forall u v, dot (L u) (L v) = dot u v.
  Hypothesis L_cross : forall u v, cross (L u) (L v) = vscale sg (L (cross u v)).
  Hypothesis sg_one : sg * sg = 1.
  Let g (x : vec) : vec := vadd (L x) tr.
  Lemma g_sub x y : vsub (g x) (g y) = L (vsub x y).
  Proof. unfold g. rewrite (L_sub L L_add L_scale). generalize (L x) (L y). clear. vring'. Qed.
  Lemma iso_area a b c d : area_vector (g a) (g b) (g c) (g d) = vscale sg (L (area_vector a b c d)).
  Proof.
    transitivity (vscale (1 / 2) (vadd (cross (vsub (g b) (g a)) (vsub (g c) (g a))) (cross (vsub (g c) (g a)) (vsub (g d) (g a))))).
    { generalize (g a) (g b) (g c) (g d). clear. intros. unfold area_vector. vring'. }
    rewrite !g_sub, !L_cross. transitivity (vscale sg (L (vscale (1 / 2) (vadd (cross (vsub b a) (vsub c a)) (cross (vsub c a) (vsub d a)))))).
    - rewrite L_scale, L_add. generalize (L (cross (vsub b a) (vsub c a))) (L (cross (vsub c a) (vsub d a))). clear. vring'.
    - do 2 f_equal. clear. unfold area_vector. vring'.
  Qed.
  Lemma iso_planar a b c d : planar_convex a b c d -> planar_convex (g a) (g b) (g c) (g d).
  Proof.
    intros (u & k1 & k2 & k3 & k4 & U & P1 & P2 & P3 & P4 & E1 & E2 & E3 & E4). exists (vscale sg (L u)), k1, k2, k3, k4.
    split; [unfold unit_vector; rewrite norm_scale, (L_norm L L_dot), U, (abs_sg sg sg_one); ring|].
    do 4 (split; [assumption|]). rewrite !g_sub, !L_cross, E1, E2, E3, E4, !L_scale. generalize (L u). clear.
    intros u. split; [|split; [|split]]; vring'.
  Qed.
  Lemma iso_proper q : proper_face q -> proper_face (poly_map g q).
  Proof.
    destruct q as [[[a b] c] d]. intros [H N]. cbn [poly_map]. split.
    - destruct H as [<-|H]; [now left|right; now apply iso_planar].
    - rewrite iso_area, norm_scale, (L_norm L L_dot), (abs_sg sg sg_one). lra.
  Qed.
  Lemma iso_triple a b c : triple (g a) (g b) (g c) = sg * triple a b c + sg * dot tr (L (vadd (vadd (cross a b) (cross b c)) (cross c a))).
  Proof.
    unfold triple. transitivity (dot (cross (L a) (L b)) (L c) + dot tr (vadd (vadd (cross (L a) (L b)) (cross (L b) (L c))) (cross (L c) (L a)))).
    { unfold g. generalize (L a) (L b) (L c) tr. clear. vring'. }
    rewrite !L_cross, dot_scale_l, L_dot, !L_add. f_equal. generalize (L (cross a b)) (L (cross b c)) (L (cross c a)) tr. clear. vring'.
  Qed.
  Lemma iso_volume q : signed_volume (poly_map g q) = sg * signed_volume q + sg / 3 * dot tr (L (area_of q)).
  Proof.
    destruct q as [[[a b] c] d]. cbn [poly_map signed_volume area_of]. rewrite !iso_triple. unfold area_vector.
    assert (E : L (vadd (vadd (cross a b) (cross b c)) (vadd (cross c d) (cross d a)))
               = vadd (L (vadd (vadd (cross a b) (cross b c)) (cross c a))) (L (vadd (vadd (cross a c) (cross c d)) (cross d a)))).
    { rewrite <- L_add. f_equal. clear. vring'. }
    rewrite L_scale, E, dot_scale_r, dot_add_r. field.
  Qed.
  Lemma iso_total qs : watertight qs -> Rsum (map signed_volume (map (poly_map g) qs)) = sg * Rsum (map signed_volume qs).
  Proof.
    intros W. rewrite map_map. rewrite (Rsum_ext _ (fun q => sg * signed_volume q + sg / 3 * dot tr (L (area_of q)))) by (intros; apply iso_volume).
    rewrite Rsum_plus, !Rsum_scal. assert (E : Rsum (map (fun q => dot tr (L (area_of q))) qs) = dot tr (L (vsum (map area_of qs)))).
    { clear - L_add L_scale. induction qs as [|q l IH]; cbn [map].
      - change (0 = dot tr (L v0)). replace v0 with (vscale 0 v0) at 1 by vring'. rewrite L_scale. generalize (L v0). vring'.
      - rewrite Rsum_cons, IH. change (vsum (area_of q :: map area_of l)) with (vadd (area_of q) (vsum (map area_of l))). rewrite L_add. generalize (L (area_of q)) (L (vsum (map area_of l))) tr. clear. vring'. }
    rewrite E, (closed_area qs W). assert (L v0 = v0) as ->.
    { replace v0 with (vscale 0 v0) at 1 by vring'. rewrite L_scale. generalize (L v0). vring'. }
    replace (dot tr v0) with 0 by (clear; vring'). ring.
  Qed.
End Isometry.
Lemma flip_proper q : proper_face q -> proper_face (poly_flip q) /\ signed_volume (poly_flip q) = - signed_volume q.
Proof.
  destruct q as [[[a b] c] d]. intros [H N]. cbn [poly_flip]. split; [split|].
  - destruct H as [<-|H]; [now left|right; now apply planar_reverse].
  - rewrite area_vector_flip, norm_opp. exact N.
  - cbn [signed_volume]. destruct H as [<-|H].
    + unfold triple. clear. destruct a, b, c. unfold dot, cross. cbn. field.
    + apply planar_volume in H.
      transitivity (- ((triple a b c + triple a c d) / 6) + - / 6 * dot (cross (vsub b a) (vsub c a)) (vsub d a)); [|rewrite H; ring].
      clear. destruct a, b, c, d. unfold triple, dot, cross, vsub. cbn. field.
Qed.
