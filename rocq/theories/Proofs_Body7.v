(** Small bodies used in the examples. *)
From Coq Require Import Reals String Ascii List Bool Arith ZArith Lra Lia.
From Verif Require Import Model_Base Model_Geometry Model_Mesh Spec_Mesh Model_Quality Spec_Quality Model_Tree Spec_Tree
  Proofs_Geometry Proofs_Mesh Proofs_Mesh2 Proofs_Mesh3 Proofs_Quality Proofs_Tree Proofs_Tree2 Proofs_Symmetry
  Spec_Clip Proofs_Clip4 Proofs_Clip5 Proofs_Clip6 Proofs_Clip7 Model_Integrals Spec_Integrals Proofs_Integrals Proofs_Integrals2
  Model_Body Spec_Body Proofs_Body Proofs_Body2 Proofs_Body3 Proofs_Body4 Proofs_Body5 Proofs_Body6.
Import ListNotations.
Open Scope R_scope.

(** A horizontal square of side 1. *)
Definition panel (x z : R) : mesh := Mesh [V x 0 z; V (x + 1) 0 z; V (x + 1) 1 z; V x 1 z] [F 0 1 2 3].
Definition panel_polygon (x z : R) : polygon := (V x 0 z, V (x + 1) 0 z, V (x + 1) 1 z, V x 1 z).
Lemma panel_polygons x z : polygons_of (panel x z) [panel_polygon x z].
Proof. constructor; [|constructor]. cbn. auto. Qed.
Lemma panel_face x z k a b c d : face_is (panel x z) k a b c d -> (a, b, c, d) = panel_polygon x z.
Proof.
  intros (f & Hf & A & B & C & D). destruct k as [|[|k]]; cbn in Hf; try discriminate. injection Hf as <-. cbn in *. unfold panel_polygon. congruence.
Qed.
Ltac norm1 t := match goal with |- context [norm ?v] => replace (norm v) with t by (symmetry; apply norm_of; [lra|unfold dot, cross, area_vector; cbn; field]) end.
Lemma panel_tidy x z : tidy (panel x z).
Proof.
  split; [|split; [|split; [discriminate|split; [|split]]]].
  - intros f i [<-|[]] Hi. cbn in *. lia.
  - intros i Hi. cbn in Hi. exists (F 0 1 2 3). split; [now left|]. cbn. lia.
  - intros i j u v Hu Hv N. unfold near in N.
    destruct i as [|[|[|[|i]]]]; cbn in Hu; [..|destruct i; discriminate]; injection Hu as <-;
    (destruct j as [|[|[|[|j]]]]; cbn in Hv; [..|destruct j; discriminate]; injection Hv as <-); cbn in N; try reflexivity; exfalso;
    destruct N as (N1 & N2 & _); apply Rabs_le_between' in N1 || idtac; unfold Rabs in *; repeat destruct (Rcase_abs _); lra.
  - intros f [<-|[]]. right. repeat constructor; cbn; intros H; repeat destruct H as [H|H]; try discriminate; assumption.
  - exists 1. intros k a b c d H. apply panel_face in H. rewrite H. unfold well_sized, panel_polygon, tri_area.
    norm1 1. norm1 1. norm1 1. norm1 1. norm1 1. lra.
Qed.
Lemma panel_tree x z : tidy_tree (Leaf (panel x z)).
Proof. split; [constructor|]. intros m [<-|[]]. apply panel_tidy. Qed.
Lemma panel_surface x z : proper_surface (Leaf (panel x z)) [panel_polygon x z].
Proof.
  split; [constructor|]. split; [exists [[panel_polygon x z]]; split; [constructor; [apply panel_polygons|constructor]|reflexivity]|].
  constructor; [|constructor]. unfold proper_face, panel_polygon. split.
  - right. exists (V 0 0 1), 1, 1, 1, 1. split; [apply norm_of; [lra|cbn; unfold dot; cbn; ring]|].
    repeat split; try lra; unfold cross; apply vec_ext; cbn; ring.
  - norm1 1. lra.
Qed.
Lemma panel_center x z : p_center (face_of (panel_polygon x z)) = V (x + 1 / 2) (1 / 2) z.
Proof.
  unfold face_of, props_of, quad_of, panel_polygon, quad_props. cbn [qa qb qc qd]. norm1 2. rewrite Rabs_right by lra.
  rewrite (proj2 (Rltb_false 2 degenerate_tol)) by (unfold degenerate_tol; lra). cbn [p_center]. norm1 1. norm1 1. apply vec_ext; cbn; field.
Qed.
Definition panel_body (name : string) (x z : R) (dofs : list (string * list vec)) : fbody :=
  FB name (Leaf (panel x z)) None dofs None None None None None None.
Lemma panel_centers name x z dofs : fb_centers (panel_body name x z dofs) = Ok [V (x + 1 / 2) (1 / 2) z].
Proof. rewrite (surface_centers (panel_body name x z dofs) _ (panel_surface x z)). cbn [map]. now rewrite panel_center. Qed.
Lemma panel_joinable name x z dofs : (forall n r, In (n, r) dofs -> length r = 1%nat) -> joinable (panel_body name x z dofs).
Proof.
  intros W. split; [constructor|]. split; [apply panel_tree|]. split; [exact W|]. split; [discriminate|]. split; discriminate.
Qed.

Lemma infer_fails b c r p y :
  fb_centers b = Ok [c] -> dget "Roll" (fb_dofs b) = Ok [r] -> dget "Pitch" (fb_dofs b) = Ok [p] -> dget "Yaw" (fb_dofs b) = Ok [y] ->
  allclose1 (vz p + vx c) (- vy y + vx c) = false -> infer_from_dofs b = Err AssertionError.
Proof.
  intros Hc Hr Hp Hy A. unfold infer_from_dofs. rewrite Hc, Hr, Hp, Hy. unfold broadcast, get. cbn [bind List.length Nat.eqb combine map nth_error fst snd forallb].
  rewrite A. cbn [andb]. now rewrite !andb_false_r.
Qed.
