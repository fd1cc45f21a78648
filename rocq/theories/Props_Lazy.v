(** Properties of the lazily computed properties of meshes (C42). *)
From Coq Require Import Reals String List Bool ZArith Arith Lra Lia.
From Verif Require Import Model_Base Model_Geometry Model_Mesh Model_Quality Model_Tree Model_Clip Model_Quadrature
  Spec_Mesh Proofs_Geometry Proofs_Mesh Model_Lazy Spec_Lazy Proofs_Lazy Proofs_Lazy2.
Import ListNotations.
Open Scope nat_scope.

(** C42: after any program made of calls of the methods of meshes (transformations,
    in place or on copies, extractions, accesses to properties, assignments of
    vertices and faces; successful or raising an exception), every property of
    every mesh is the one computed from its current vertices and faces, and
    looking at it does not change the mesh.

    Missing (hence [_partial]): the statements excluded by [regular], for which
    the property is refuted below. *)
Theorem properties_never_stale_partial argsort py_hash p : Forall (fun c => regular c = true) p ->
  forall k o a, nth_error (snd (run argsort py_hash [] p)) k = Some o ->
  fst (do_access py_hash a o) = recomputed py_hash a (o_mesh o) /\ o_mesh (snd (do_access py_hash a o)) = o_mesh o.
Proof.
  intros R k o a N. assert (G := run_good argsort py_hash p R). rewrite Forall_forall in G.
  specialize (G o (nth_error_In _ _ N)). destruct (access_spec py_hash a o G) as (V & M & _). auto.
Qed.
Print Assumptions properties_never_stale_partial.

(** C42: the same for the quadrature points. The first access changes the order
    of the corners of the faces ([heal_triangles]); the points are those of the
    mesh after this change. *)
Theorem quadrature_never_stale_partial argsort py_hash p : Forall (fun c => regular c = true) p ->
  forall k o, nth_error (snd (run argsort py_hash [] p)) k = Some o ->
  let (v, o') := do_transform argsort Quadrature o in
  v = ShowQuadrature (quadrature_of (o_mesh o') (o_method o'))
  /\ (o_mesh o' = o_mesh o \/ o_mesh o' = heal_triangles (o_mesh o)) /\ o_method o' = o_method o.
Proof.
  intros R k o N. assert (G := run_good argsort py_hash p R). rewrite Forall_forall in G.
  exact (quadrature_read argsort py_hash o (G o (nth_error_In _ _ N))).
Qed.
Print Assumptions quadrature_never_stale_partial.

(** C42: looking at properties has no effect on the rest of the program: when
    all these accesses are removed, the other statements give the same results
    and the meshes are the same. *)
Theorem accesses_do_not_matter_partial argsort py_hash p : Forall (fun c => regular c = true) p ->
  let q := filter (fun c => negb (is_access c)) p in
  other_outputs p (fst (run argsort py_hash [] p)) = fst (run argsort py_hash [] q)
  /\ map o_mesh (snd (run argsort py_hash [] p)) = map o_mesh (snd (run argsort py_hash [] q)).
Proof.
  intros R q. destruct (run_without_accesses argsort py_hash p R [] [] (Forall2_nil _)) as [V S].
  split; [exact V|]. apply same_meshes with (py_hash := py_hash). exact S.
Qed.
Print Assumptions accesses_do_not_matter_partial.

(** The transformations that use properties (areas of the faces, indices of the
    quadrangles) use right ones. *)
Theorem transformations_use_right_properties argsort py_hash p : Forall (fun c => regular c = true) p ->
  forall k o, nth_error (snd (run argsort py_hash [] p)) k = Some o ->
  (forall rtol m', remove_degenerated rtol (o_mesh o) = Ok m' ->
     fst (do_transform argsort (RemoveDegenerated rtol) o) = Done (Ok tt)
     /\ o_mesh (snd (do_transform argsort (RemoveDegenerated rtol) o)) = m')
  /\ (fst (do_transform argsort Triangulate o) = Done (Ok tt)
      /\ o_mesh (snd (do_transform argsort Triangulate o)) = triangulate (o_mesh o)).
Proof.
  intros R k o N. assert (G := run_good argsort py_hash p R). rewrite Forall_forall in G.
  specialize (G o (nth_error_In _ _ N)). destruct o as [m c q]. unfold good in G. cbn [o_mesh o_method o_cache] in *. split.
  - intros rtol m' E. unfold remove_degenerated in E. destruct (negb (Rltb 0 rtol)) eqn:T; [discriminate|].
    destruct (faces_props m) as [ps|] eqn:P; [|discriminate]. cbn [bind] in E. apply Ok_inj' in E.
    destruct (reads_props py_hash m q c G) as (c' & X & _ & _). rewrite P in X. cbn [bind] in X.
    assert (Y : do_transform argsort (RemoveDegenerated rtol) (Obj m c q) = (Done (Ok tt), Obj m' empty_cache q)).
    { cbn [do_transform transform]. unfold do_remove_degenerated, inplace, andthen. rewrite T, X. unfold the_mesh. cbn [o_mesh].
      change (nb_faces m) with (length (m_faces m)). rewrite (proj2 (Nat.eqb_eq _ _) (mapM_length _ _ _ P)). subst m'. reflexivity. }
    rewrite Y. auto.
  - destruct (reads_ids py_hash m q c G) as (c' & X & _ & _).
    assert (Y : do_transform argsort Triangulate (Obj m c q) = (Done (Ok tt), Obj (triangulate m) empty_cache q)).
    { cbn [do_transform transform]. unfold do_triangulate, inplace, andthen. rewrite X. unfold the_mesh, lift. cbn [o_mesh snd].
      rewrite triangulate_right_ids. reflexivity. }
    rewrite Y. auto.
Qed.
Print Assumptions transformations_use_right_properties.

(** ** A program *)

Definition triangle : mesh := Mesh [V 0 0 0; V 1 0 0; V 0 1 0] [F 0 1 2 0].
Definition longer : mesh := Mesh [V 0 0 0; V 2 0 0; V 0 1 0] [F 0 1 2 0].
Lemma triangle_props : faces_props triangle = Ok [props_of true (Q (V 0 0 0) (V 1 0 0) (V 0 1 0) (V 0 0 0))].
Proof. reflexivity. Qed.
Lemma longer_props : faces_props longer = Ok [props_of true (Q (V 0 0 0) (V 2 0 0) (V 0 1 0) (V 0 0 0))].
Proof. reflexivity. Qed.
Lemma right_triangle_area x : (1 <= x)%R ->
  p_area (props_of true (Q (V 0 0 0) (V x 0 0) (V 0 1 0) (V 0 0 0))) = (x / 2)%R.
Proof.
  intros X. unfold props_of, tri_props. cbn [qa qb qc qd].
  assert (E : norm (cross (vsub (V x 0 0) (V 0 0 0)) (vsub (V 0 1 0) (V 0 0 0))) = x).
  { replace (cross (vsub (V x 0 0) (V 0 0 0)) (vsub (V 0 1 0) (V 0 0 0))) with (vscale x e_z)
      by (unfold e_z; apply vec_ext; cbn; ring).
    rewrite norm_scale, Rabs_right by lra. replace (norm e_z) with 1%R; [ring|].
    symmetry. apply unit_dot. unfold dot; cbn; ring. }
  rewrite E, (proj2 (Rltb_false (Rabs x) degenerate_tol)) by (rewrite Rabs_right by lra; unfold degenerate_tol; lra).
  reflexivity.
Qed.
(** Look at the properties, translate, extract, look again at the copy. *)
Definition example_program : list command :=
  [New triangle; Access 0 Props; Transform 0 (Translate (V 0 0 (-1))); Access 0 Props; Extract 0 [0%Z]; Copy 1;
   Transform 2 Flip; Access 1 Props; Access 2 Diameter].
Example example_program_regular : Forall (fun c => regular c = true) example_program.
Proof. repeat constructor. Qed.
Example example_program_objects argsort py_hash :
  map o_mesh (snd (run argsort py_hash [] example_program))
  = [translate triangle (V 0 0 (-1)); translate triangle (V 0 0 (-1)); flip_normals (translate triangle (V 0 0 (-1)))].
Proof. reflexivity. Qed.

(** ** What is not covered, and why *)

(** Writing in the array of vertices (as [mesh.vertices[1] = ...]) does not
    empty the dictionary. *)
Theorem write_vertex_refuted argsort py_hash :
  exists p k o a, nth_error (snd (run argsort py_hash [] p)) k = Some o
    /\ fst (do_access py_hash a o) <> recomputed py_hash a (o_mesh o).
Proof.
  exists [New triangle; Access 0 Props; WriteVertex 0 1 (V 2 0 0)], 0.
  eexists. exists Props. split; [reflexivity|].
  cbn [o_mesh]. intros E.
  change (recomputed py_hash Props _) with (ShowProps (bind (faces_props longer) (fun l => Ok (Rows l)))) in E.
  rewrite longer_props in E.
  change (fst (do_access py_hash Props _)) with
    (ShowProps (Ok (Rows [props_of true (Q (V 0 0 0) (V 1 0 0) (V 0 1 0) (V 0 0 0))]))) in E.
  cbn [bind] in E. injection E as E. apply (f_equal p_area) in E.
  rewrite !right_triangle_area in E by lra. lra.
Qed.
Print Assumptions write_vertex_refuted.

(** Assigning the quadrature method after the first use of the quadrature points
    has no effect. *)
Theorem assign_method_refuted argsort py_hash :
  exists p k o, nth_error (snd (run argsort py_hash [] p)) k = Some o
    /\ fst (do_transform argsort Quadrature o) <> ShowQuadrature (quadrature_of (o_mesh o) (o_method o)).
Proof.
  exists [New triangle; Transform 0 Quadrature; AssignMethod 0 (Named "Gauss-Legendre 2")], 0.
  eexists. split; [reflexivity|].
  set (l := [[(p_center (props_of true (Q (V 0 0 0) (V 1 0 0) (V 0 1 0) (V 0 0 0))),
               p_area (props_of true (Q (V 0 0 0) (V 1 0 0) (V 0 1 0) (V 0 0 0))))]]).
  intros E. change (ShowQuadrature (Ok l) = ShowQuadrature (Ok [face_quadrature gauss_legendre_2 (Q (V 0 0 0) (V 1 0 0) (V 0 1 0) (V 0 0 0))])) in E.
  discriminate E.
Qed.
Print Assumptions assign_method_refuted.

(** Extracting with a column of indices, as the function that finds the
    connected components of a mesh does, gives arrays of a wrong shape if the
    properties of the mesh have been looked at before; the meshes obtained can
    then not be healed, while they can if nobody has looked. *)
Theorem column_refuted argsort py_hash :
  exists p, let s := snd (run argsort py_hash [] (p ++ [Access 0 Props; ExtractColumn 0 [0%Z]])) in
  let s' := snd (run argsort py_hash [] (p ++ [ExtractColumn 0 [0%Z]])) in
  exists o o', nth_error s 1 = Some o /\ nth_error s' 1 = Some o' /\ o_mesh o = o_mesh o'
  /\ fst (do_access py_hash Props o) <> recomputed py_hash Props (o_mesh o)
  /\ fst (do_transform argsort (RemoveDegenerated (1 / 2)) o) = Done (Err IndexError)
  /\ fst (do_transform argsort (RemoveDegenerated (1 / 2)) o') = Done (Ok tt).
Proof.
  exists [New triangle]. cbv zeta. eexists. eexists. split; [reflexivity|]. split; [reflexivity|]. split; [reflexivity|].
  assert (T : negb (Rltb 0 (1 / 2)) = false) by (rewrite (proj2 (Rltb_true 0 (1 / 2))) by lra; reflexivity).
  split; [|split].
  - intros E. discriminate E.
  - cbn [do_transform transform]. unfold do_remove_degenerated. rewrite T. reflexivity.
  - cbn [do_transform transform]. unfold do_remove_degenerated. rewrite T. reflexivity.
Qed.
Print Assumptions column_refuted.
