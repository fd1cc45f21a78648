(** Proofs about the integrals of the Rankine source: derivatives with respect to the face, images, points near the sides. *)
From Coq Require Import Reals.
From Coquelicot Require Import Coquelicot.
From Coq Require Import List Bool Arith Lra Lia.
From Verif Require Import Model_Base Model_Geometry Model_Mesh Spec_Mesh Proofs_Geometry Proofs_Mesh Proofs_Mesh2 Proofs_Mesh3 Proofs_Integrals Proofs_Clip7
  Model_Assembly Model_Rankine Model_Wave Proofs_Rankine Proofs_Green Spec_Rankine Proofs_Rankine2.
Import ListNotations.
Open Scope R_scope.

Lemma shifted_rankine b M q f v : rankine b M (shifted_quad v q) (shifted_props v f) = rankine b (vsub M v) q f.
Proof.
  assert (E : M = vadd (vsub M v) v) by (destruct M, v; unfold vadd, vsub; cbn; f_equal; ring). rewrite E at 1.
  pose proof (rankine_moved (fun x => vadd x v) (fun n => n) true (translation_isometry v) f (shifted_props v f)) as X.
  change (shifted_quad v q) with (image_quad (fun x => vadd x v) true q).
  rewrite X; try reflexivity; [unfold moved_value; now destruct (rankine b (vsub M v) q f)|repeat split].
Qed.
Lemma second_variable_value b M q f : fst (rankine b M q f) = fst (rankine true M q f) /\ snd (rankine false M q f) = vscale (-1) (snd (rankine true M q f)).
Proof. unfold rankine, one_point_rankine, exact_rankine, oriented. split; destruct (Rltb (7 * _) _); try reflexivity; now destruct b. Qed.

Lemma derive_opposite (f : R -> R) l : is_derive f 0 l -> is_derive (fun t => f (- t)) 0 (- l).
Proof.
  intros D. assert (X : ex_derive f (- 0)) by (rewrite Ropp_0; now exists l). assert (U : Derive f (- 0) = l) by (rewrite Ropp_0; now apply is_derive_unique).
  auto_derive; [exact X|]. replace (Derive (fun x : R => f x) (- 0)) with l by (symmetry; exact U). ring.
Qed.
Lemma rankine_second M q f u : 0 <= p_radius f -> regular_point M q f ->
  is_derive (fun t => fst (rankine false M (shifted_quad (vscale t u) q) (shifted_props (vscale t u) f))) 0 (dot (snd (rankine false M q f)) u).
Proof.
  intros P G. rewrite (proj2 (second_variable_value true M q f)).
  replace (dot (vscale (-1) (snd (rankine true M q f))) u) with (- dot (snd (rankine true M q f)) u) by (unfold dot, vscale; cbn; ring).
  apply (is_derive_ext (fun t => (fun s => fst (rankine true (vadd M (vscale s u)) q f)) (- t))).
  - intros t. rewrite shifted_rankine, (proj1 (second_variable_value false _ _ _)). f_equal. f_equal. destruct M, u. unfold vadd, vsub, vscale. cbn. f_equal; ring.
  - apply (derive_opposite (fun s => fst (rankine true (vadd M (vscale s u)) q f))). now apply rankine_gradient.
Qed.

(** ** Images *)
Lemma reflected_form b c M q f : reflected_rankine b c M q f = reflected_gradient b c (rankine true (image_point c M) q f).
Proof. unfold reflected_rankine, rankine, one_point_reflected, exact_reflected. now destruct (Rltb _ _). Qed.
Lemma reflected_first_gradient c M q f : 0 <= p_radius f -> regular_point (image_point c M) q f ->
  gradient_at (fun P => fst (reflected_rankine true c P q f)) M (snd (reflected_rankine true c M q f)).
Proof.
  intros P G u. rewrite reflected_form. unfold reflected_gradient. cbn [fst snd].
  pose proof (rankine_gradient (image_point c M) q f P G (V (vx u) (vy u) (fst c * vz u))) as D.
  apply (is_derive_ext (fun t => fst (rankine true (vadd (image_point c M) (vscale t (V (vx u) (vy u) (fst c * vz u)))) q f))).
  - intros t. rewrite reflected_form. unfold reflected_gradient. cbn [fst]. f_equal. f_equal. unfold image_point, vadd, vscale. cbn. f_equal; ring.
  - replace (dot (V (vx (snd (rankine true (image_point c M) q f))) (vy (snd (rankine true (image_point c M) q f))) (fst c * vz (snd (rankine true (image_point c M) q f)))) u)
      with (dot (snd (rankine true (image_point c M) q f)) (V (vx u) (vy u) (fst c * vz u))) by (unfold dot; cbn; ring). exact D.
Qed.
Lemma reflected_second_gradient c M q f u : 0 <= p_radius f -> regular_point (image_point c M) q f -> fst c = 1 \/ fst c = -1 ->
  is_derive (fun t => fst (reflected_rankine false c M (shifted_quad (vscale t u) q) (shifted_props (vscale t u) f))) 0 (dot (snd (reflected_rankine false c M q f)) u).
Proof.
  intros P G C. pose proof (rankine_second (image_point c M) q f u P G) as D. rewrite (proj2 (second_variable_value true _ _ _)) in D.
  apply (is_derive_ext (fun t => fst (rankine false (image_point c M) (shifted_quad (vscale t u) q) (shifted_props (vscale t u) f)))).
  - intros t. rewrite reflected_form. unfold reflected_gradient. cbn [fst]. now rewrite (proj1 (second_variable_value false _ _ _)).
  - rewrite reflected_form. unfold reflected_gradient. cbn [fst snd].
    match goal with |- is_derive _ _ ?l => match type of D with is_derive _ _ ?l' => replace l with l'; [exact D|] end end.
    destruct C as [-> | ->]; [rewrite (proj2 (Rltb_true _ _)) by lra|rewrite (proj2 (Rltb_false _ _)) by lra]; unfold dot, vscale; cbn [vx vy vz]; ring.
Qed.
Lemma one_point_reflected_gradient c M f : / 10000000 < norm (vsub (image_point c M) (p_center f)) ->
  gradient_at (fun P => fst (one_point_reflected true c P f)) M (snd (one_point_reflected true c M f)).
Proof.
  intros G u. unfold one_point_reflected, reflected_gradient. cbn [fst snd].
  pose proof (one_point_gradient (image_point c M) f G (V (vx u) (vy u) (fst c * vz u))) as D.
  apply (is_derive_ext (fun t => fst (one_point_rankine true (vadd (image_point c M) (vscale t (V (vx u) (vy u) (fst c * vz u)))) f))).
  - intros t. f_equal. f_equal. unfold image_point, vadd, vscale. cbn. f_equal; ring.
  - replace (dot (V (vx (snd (one_point_rankine true (image_point c M) f))) (vy (snd (one_point_rankine true (image_point c M) f))) (fst c * vz (snd (one_point_rankine true (image_point c M) f)))) u)
      with (dot (snd (one_point_rankine true (image_point c M) f)) (V (vx u) (vy u) (fst c * vz u))) by (unfold dot; cbn; ring). exact D.
Qed.
