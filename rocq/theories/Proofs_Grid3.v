From Coq Require Import Reals List Bool Arith ZArith Lia Lra Permutation.
From Verif Require Import Model_Base Model_Geometry Model_Mesh Model_Clip Spec_Mesh Spec_Tree Spec_Clip Model_Tree Model_Body Spec_Body
  Proofs_Geometry Proofs_Mesh Proofs_Mesh3 Proofs_Clip4 Proofs_Clip5 Proofs_Integrals Proofs_Tree Proofs_Tree2 Proofs_Body Proofs_Body2
  Model_Quality Spec_Quality Model_Normals Spec_Normals Proofs_Normals4 Model_Grid Spec_Grid Proofs_Grid Proofs_Grid2.
Import ListNotations.
Open Scope R_scope.

(** ** Cells *)
Lemma flat_map_in_ext {A B} (f g : A -> list B) l : (forall x, In x l -> f x = g x) -> flat_map f l = flat_map g l.
Proof. induction l as [|x l IH]; intros H; cbn; [reflexivity|]. rewrite H by now left. f_equal. apply IH. intros; apply H; now right. Qed.
Lemma cells_ext P P' nx ny : (forall i j, (i <= nx)%nat -> (j <= ny)%nat -> P i j = P' i j) -> cells P nx ny = cells P' nx ny.
Proof.
  intros H. unfold cells. apply flat_map_in_ext. intros i Hi. apply map_ext_in. intros j Hj. apply in_seq in Hi, Hj.
  unfold cell. rewrite !H by lia. reflexivity.
Qed.
Lemma cells_map g P nx ny : map (poly_map g) (cells P nx ny) = cells (fun i j => g (P i j)) nx ny.
Proof.
  unfold cells. generalize (seq 0 nx) as l. induction l as [|i l IH]; cbn; [reflexivity|]. rewrite map_app, map_map, IH. reflexivity.
Qed.
Lemma cells_in P nx ny q : In q (cells P nx ny) <-> exists i j, (i < nx)%nat /\ (j < ny)%nat /\ q = cell P i j.
Proof. apply (grid_in (cell P) ny nx q). Qed.
Lemma cells_length P nx ny : length (cells P nx ny) = (nx * ny)%nat.
Proof. apply (grid_length (cell P) ny nx 0). Qed.
Lemma cells_split P a b ny : cells P (a + b) ny = cells P a ny ++ cells (fun i j => P (a + i)%nat j) b ny.
Proof.
  unfold cells. rewrite seq_app, flat_map_app. f_equal. cbn [Nat.add].
  assert (G : forall s, flat_map (fun i => map (cell P i) (seq 0 ny)) (seq (a + s) b) = flat_map (fun i => map (cell (fun i j => P (a + i)%nat j) i) (seq 0 ny)) (seq s b)).
  { induction b as [|b IH]; intros s; cbn [seq flat_map]; [reflexivity|]. f_equal; [|rewrite <- IH; f_equal; f_equal; lia].
    apply map_ext. intros j. unfold cell. now rewrite <- !Nat.add_succ_r. }
  rewrite <- G. now rewrite Nat.add_0_r.
Qed.

Section Frame.
  Variables (c u v n : vec) (w h : R) (nw nh : nat).
  Hypothesis Fr : frame u v n.
  Hypothesis Nw : (0 < nw)%nat.
  Hypothesis Nh : (0 < nh)%nat.
  Hypothesis Hw : / 1000000 <= w / INR nw.
  Hypothesis Hh : / 1000000 <= h / INR nh.
  Let P := rectangle_node c u v w h nw nh.
  Let dw := w / INR nw.
  Let dh := h / INR nh.
  Lemma node_diff i j i' j' : vsub (P i' j') (P i j) = vadd (vscale ((INR i' - INR i) * dw) u) (vscale ((INR j' - INR j) * dh) v).
  Proof.
    assert (INR nw <> 0) by (apply not_0_INR; lia). assert (INR nh <> 0) by (apply not_0_INR; lia).
    unfold P, rectangle_node, dw, dh. apply vec_ext; cbn; field; auto.
  Qed.
  Lemma add_diff (x y z : vec) : vsub y x = z -> y = vadd x z.
  Proof. intros <-. vring'. Qed.
  Lemma cell_rect i j : rectq (dw * dh) (sqrt (dw * dw + dh * dh)) n (cell P i j).
  Proof.
    destruct Fr as (U & V' & O & X). exists (P i j), (vscale dw u), (vscale dh v). split; [|split; [|split]].
    - unfold cell. pose proof (node_diff i j i (S j)) as E1. pose proof (node_diff i j (S i) (S j)) as E2. pose proof (node_diff i j (S i) j) as E3.
      apply add_diff in E1, E2, E3. rewrite E1, E2, E3, !S_INR. f_equal; [f_equal; [f_equal|]|]; vring'.
    - rewrite dot_scale_l, dot_scale_r, O. ring.
    - rewrite <- X. vring'.
    - rewrite !dot_scale_l, !dot_scale_r, U, V', sqrt_sqrt; [ring|]. nra.
  Qed.
  Lemma diff_sq i j i' j' : dist (P i' j') (P i j) * dist (P i' j') (P i j) = ((INR i' - INR i) * dw) * ((INR i' - INR i) * dw) + ((INR j' - INR j) * dh) * ((INR j' - INR j) * dh).
  Proof.
    destruct Fr as (U & V' & O & X). unfold dist. rewrite norm_sq, node_diff, dot_add_l, !dot_add_r, !dot_scale_l, !dot_scale_r, U, V', (dot_sym v u), O. ring.
  Qed.
  Lemma nat_gap a b : a <> b -> 1 <= (INR a - INR b) * (INR a - INR b).
  Proof.
    intros N. assert (INR a + 1 <= INR b \/ INR b + 1 <= INR a) as [H|H].
    { destruct (Nat.lt_total a b) as [L|[L|L]]; [left|contradiction|right]; rewrite <- S_INR; apply le_INR; lia. }
    - nra.
    - nra.
  Qed.
  Lemma node_gap i j i' j' : (i, j) <> (i', j') -> / 1000000 <= dist (P i' j') (P i j).
  Proof.
    intros N. pose proof (diff_sq i j i' j') as E. pose proof (norm_pos (vsub (P i' j') (P i j))) as Pos. fold (dist (P i' j') (P i j)) in Pos.
    apply Rnot_lt_le. intros K. set (d := dist (P i' j') (P i j)) in *. assert (S : d * d < / 1000000 * / 1000000) by nra.
    destruct (Nat.eq_dec i' i) as [->|Ni].
    - assert (Nj : j' <> j) by (intros ->; now apply N). pose proof (nat_gap _ _ Nj). fold dh in Hh. set (g := INR j' - INR j) in *. 
      assert (/ 1000000 * / 1000000 <= dh * dh) by nra. assert (dh * dh <= g * g * (dh * dh)) by nra. nra.
    - pose proof (nat_gap _ _ Ni). fold dw in Hw. set (g := INR i' - INR i) in *. 
      assert (/ 1000000 * / 1000000 <= dw * dw) by nra. assert (dw * dw <= g * g * (dw * dw)) by nra.
      pose proof (Rle_0_sqr ((INR j' - INR j) * dh)) as Q0. unfold Rsqr in Q0. nra.
  Qed.
  Lemma cell_corner p i j : In p (polygon_corners (cell P i j)) -> exists a b, p = P a b.
  Proof. cbn. intros [<-|[<-|[<-|[<-|[]]]]]; eauto. Qed.
  Lemma nodes_apart i j i' j' : P i j = P i' j' \/ / 1000000 <= dist (P i j) (P i' j').
  Proof.
    destruct (Nat.eq_dec i i') as [->|]; [destruct (Nat.eq_dec j j') as [->|]; [now left|]|]; right; apply node_gap; congruence.
  Qed.
  Lemma cells_spaced : spaced (cells P nw nh).
  Proof.
    intros p p' q q' Hq Hq' Hp Hp'. apply cells_in in Hq, Hq'. destruct Hq as (i & j & _ & _ & ->), Hq' as (i' & j' & _ & _ & ->).
    apply cell_corner in Hp, Hp'. destruct Hp as (a & b & ->), Hp' as (a' & b' & ->). apply nodes_apart.
  Qed.
  Lemma cells_rect : Forall (rectq (dw * dh) (sqrt (dw * dw + dh * dh)) n) (cells P nw nh).
  Proof. apply Forall_forall. intros q Hq. apply cells_in in Hq. destruct Hq as (i & j & _ & _ & ->). apply cell_rect. Qed.
  Lemma node_inj i j i' j' : P i j = P i' j' -> i = i' /\ j = j'.
  Proof.
    intros E. destruct (Nat.eq_dec i i') as [->|N]; [destruct (Nat.eq_dec j j') as [->|N]; [now split|]|]; exfalso.
    - assert (K : / 1000000 <= dist (P i' j') (P i' j)) by (apply node_gap; congruence). rewrite E in K. unfold dist in K.
      replace (vsub (P i' j') (P i' j')) with v0 in K by vring'. rewrite (proj2 (norm_zero v0) eq_refl) in K. lra.
    - assert (K : / 1000000 <= dist (P i' j') (P i j)) by (apply node_gap; congruence). rewrite E in K. unfold dist in K.
      replace (vsub (P i' j') (P i' j')) with v0 in K by vring'. rewrite (proj2 (norm_zero v0) eq_refl) in K. lra.
  Qed.
  Lemma cells_area : / 1000000000000 <= dw * dh.
  Proof. fold dw in Hw. fold dh in Hh. nra. Qed.
  Lemma cells_nonempty : cells P nw nh <> [].
  Proof. intros E. pose proof (cells_length P nw nh) as L. rewrite E in L. cbn in L. nia. Qed.
  Lemma frame_unit : unit_vector n.
  Proof.
    destruct Fr as (U & V' & O & <-). apply unit_dot. transitivity (dot v v * dot u u - dot u v * dot u v); [vring'|]. rewrite U, V', O. ring.
  Qed.
  Lemma cells_tidy m : carried m (cells P nw nh) -> tidy m.
  Proof.
    apply (carried_tidy (dw * dh) (sqrt (dw * dw + dh * dh)) n); [exact frame_unit|exact cells_area|exact cells_rect|exact cells_spaced|exact cells_nonempty].
  Qed.
End Frame.
