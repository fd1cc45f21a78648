(** Vocabulary of the properties of bodies. *)
From Coq Require Import Reals List Bool Arith String.
From Verif Require Import Model_Base Model_Geometry Model_Mesh Spec_Mesh Model_Tree Spec_Tree Spec_Clip Model_Body.
Import ListNotations.
Open Scope R_scope.

(** ** Meshes that need no healing *)

(** Any two vertices differ by more than 1e-8 on some coordinate. *)
Definition spread (vs : list vec) : Prop :=
  forall i j u v, nth_error vs i = Some u -> nth_error vs j = Some v -> near (/ 100000000) u v -> i = j.
Definition tri_area (a b c : vec) : R := norm (cross (vsub b a) (vsub c a)) / 2.
(** The area of the polygon is not negligible and, whatever the diagonal that cuts it in two triangles, between
    1e-5 times [A] and [A]. *)
Definition well_sized (A : R) (q : polygon) : Prop :=
  let '(a, b, c, d) := q in
  / 1000000000000 <= 2 * norm (area_vector a b c d)
  /\ A / 100000 <= tri_area a b c + tri_area a c d <= A
  /\ A / 100000 <= tri_area b c d + tri_area b d a <= A.
Definition tidy (m : mesh) : Prop :=
  valid m /\ all_used m /\ m_faces m <> [] /\ spread (m_vertices m)
  /\ (forall f, In f (m_faces m) -> fa f = fd f \/ NoDup [fa f; fb f; fc f; fd f])
  /\ exists A, forall k a b c d, face_is m k a b c d -> well_sized A (a, b, c, d).
(** All the meshes of a collection are so. *)
Definition tidy_tree (t : tree) : Prop := filled t /\ forall m, In m (leaves t) -> tidy m.
(** The same polygons in the same order, maybe starting from other corners. *)
Definition same_polygons (t t' : tree) : Prop :=
  exists qs qs', tree_polygons t qs /\ tree_polygons t' qs' /\ Forall2 same_polygon qs qs'.
(** Without symmetric meshes. *)
Inductive plain : tree -> Prop :=
| plain_leaf m : plain (Leaf m)
| plain_node l : (forall x, In x l -> plain x) -> plain (Node Plain l).

(** ** Joined bodies *)

(** The number of faces of the bodies before the k-th one. *)
Definition faces_of_previous (bodies : list fbody) (k : nat) : nat := list_sum (map fb_nb_faces (firstn k bodies)).
(** The name of a dof of a body in an assembly. *)
Definition name_in_assembly (b : fbody) (name : string) : string :=
  if has_dunder name then name else (fb_name b ++ "__" ++ name)%string.
Definition names_in_assembly (bodies : list fbody) : list string :=
  List.concat (map (fun b => map (fun d => name_in_assembly b (fst d)) (fb_dofs b)) bodies).
(** One dof for each dof of each body: equal to this dof on the faces of the body, zero on the others. *)
Definition assembled_dofs (bodies : list fbody) (dofs : list (string * list vec)) : Prop :=
  map fst dofs = names_in_assembly bodies
  /\ forall k b name rows, nth_error bodies k = Some b -> In (name, rows) (fb_dofs b) ->
     exists rows', In (name_in_assembly b name, rows') dofs
       /\ List.length rows' = list_sum (map fb_nb_faces bodies)
       /\ (forall i, (i < fb_nb_faces b)%nat -> nth_error rows' (faces_of_previous bodies k + i) = nth_error rows i)
       /\ (forall i, (i < list_sum (map fb_nb_faces bodies))%nat ->
            (i < faces_of_previous bodies k \/ faces_of_previous bodies k + fb_nb_faces b <= i)%nat -> nth_error rows' i = Some (V 0 0 0)).
(** The dofs have one row for each face. *)
Definition well_shaped (b : fbody) : Prop := forall name rows, In (name, rows) (fb_dofs b) -> List.length rows = fb_nb_faces b.
(** A square matrix with the dofs of the body as labels. *)
Definition square_for (b : fbody) (m : lmatrix) : Prop :=
  lm_labels m = map fst (fb_dofs b) /\ List.length (lm_rows m) = List.length (fb_dofs b)
  /\ forall r, In r (lm_rows m) -> List.length r = List.length (fb_dofs b).
(** Bodies with tidy meshes, and with dofs and matrices of the right size. *)
Definition joinable (b : fbody) : Prop :=
  symmetric (fb_mesh b) /\ tidy_tree (fb_mesh b) /\ well_shaped b
  /\ (forall l, fb_lid b = Some l -> symmetric l /\ all_valid l /\ (0 < t_nb_faces l)%nat)
  /\ (forall m, fb_inertia b = Some m -> square_for b m)
  /\ (forall m, fb_stiffness b = Some m -> square_for b m).
(** Two bodies that differ only by the way the meshes are nested, the order of the vertices and the first corner of the faces. *)
Definition same_body (b b' : fbody) : Prop :=
  fb_name b = fb_name b' /\ same_polygons (fb_mesh b) (fb_mesh b')
  /\ option_map leaves (fb_lid b) = option_map leaves (fb_lid b')
  /\ fb_dofs b = fb_dofs b' /\ fb_mass b = fb_mass b' /\ fb_com b = fb_com b' /\ fb_rc b = fb_rc b' /\ fb_gc b = fb_gc b'
  /\ fb_inertia b = fb_inertia b' /\ fb_stiffness b = fb_stiffness b'.
(** Bodies without symmetric mesh. *)
Definition plain_body (b : fbody) : Prop := plain (fb_mesh b) /\ forall l, fb_lid b = Some l -> plain l.

(** ** Rigid motions *)

(** The velocity at [c] of the rotation of direction [d] about [p]. *)
Definition rotation_velocity (p d c : vec) : vec := cross d (vsub c p).
(** The dof [name] of the body is the velocity field of this rotation at the centres of the faces. *)
Definition rotation_dof (b : fbody) (name : string) (p d : vec) : Prop :=
  exists rows cs, dget name (fb_dofs b) = Ok rows /\ fb_centers b = Ok cs /\ rows = map (rotation_velocity p d) cs.
(** The opposite of this velocity field. *)
Definition reversed_rotation_dof (b : fbody) (name : string) (p d : vec) : Prop :=
  exists rows cs, dget name (fb_dofs b) = Ok rows /\ fb_centers b = Ok cs /\ rows = map (fun c => vopp (rotation_velocity p d c)) cs.

(** ** Arrays *)

(** The symmetric meshes of the body, once translated, are still symmetric meshes that can be built again from their first
    parts (always the case of meshes without symmetry). *)
Definition movable (b : fbody) (v : vec) : Prop :=
  symmetric (t_translate (fb_mesh b) v) /\ forall l, fb_lid b = Some l -> symmetric (t_translate l v).
Definition move_polygon (v : vec) (q : polygon) : polygon := let '(a, b, c, d) := q in (vadd a v, vadd b v, vadd c v, vadd d v).

(** ** Inertia and stiffness *)

(** The coefficient of a labelled matrix for the [k]-th and [l]-th labels. *)
Definition coefficient (m : lmatrix) (k l : nat) : option (option R) :=
  match nth_error (lm_rows m) k with Some r => nth_error r l | None => None end.
(** The mass of the body: the attribute or, without it, that of the displaced water. *)
Definition mass_of (b : fbody) (rho vol : R) : R := match fb_mass b with Some m => m | None => rho * vol end.
