(** Healing of tidy meshes. *)
From Coq Require Import Reals List Bool Arith ZArith Lra Lia.
From Verif Require Import Model_Base Model_Geometry Model_Mesh Spec_Mesh Model_Quality Spec_Quality Model_Tree Spec_Tree
  Proofs_Geometry Proofs_Mesh Proofs_Mesh2 Proofs_Mesh3 Proofs_Quality Proofs_Tree Proofs_Tree2 Proofs_Symmetry
  Spec_Clip Proofs_Clip4 Proofs_Clip5 Model_Integrals Spec_Integrals Proofs_Integrals Model_Body Spec_Body.
Import ListNotations.
Open Scope R_scope.

Lemma tri_area_pos a b c : 0 <= tri_area a b c.
Proof. unfold tri_area. pose proof (norm_pos (cross (vsub b a) (vsub c a))). lra. Qed.
Lemma tri_area_cycle a b c : tri_area b c a = tri_area a b c.
Proof.
  unfold tri_area. f_equal. apply norm_eq. destruct a as [a1 a2 a3], b as [b1 b2 b3], c as [c1 c2 c3]. unfold dot, cross. cbn. ring.
Qed.
Lemma tri_area_swap a b c : tri_area a c b = tri_area a b c.
Proof.
  unfold tri_area. f_equal. apply norm_eq. destruct a as [a1 a2 a3], b as [b1 b2 b3], c as [c1 c2 c3]. unfold dot, cross. cbn. ring.
Qed.
Lemma area_vector_cycle a b c d : area_vector b c d a = area_vector a b c d.
Proof. unfold area_vector. apply vec_ext; destruct a as [a1 a2 a3], b as [b1 b2 b3], c as [c1 c2 c3], d as [d1 d2 d3]; unfold cross; cbn; ring. Qed.
Lemma well_sized_roll A a b c d : well_sized A (a, b, c, d) -> well_sized A (b, c, d, a).
Proof.
  unfold well_sized. rewrite (area_vector_cycle a b c d). intros (H & H1 & H2). split; [exact H|]. split; [exact H2|].
  rewrite (tri_area_cycle a c d). rewrite <- (tri_area_cycle a b c), <- (tri_area_cycle b c a) in H1. lra.
Qed.
Lemma well_sized_same A q q' : same_polygon q q' -> well_sized A q -> well_sized A q'.
Proof.
  destruct q as [[[a b] c] d]. unfold same_polygon. intros [->|[->|[->| ->]]] H; [exact H|..]; repeat (apply well_sized_roll in H; try exact H).
Qed.
Lemma diagonals_area a b c d : cross (vsub c a) (vsub d b) = vscale 2 (area_vector a b c d).
Proof. unfold area_vector. apply vec_ext; destruct a as [a1 a2 a3], b as [b1 b2 b3], c as [c1 c2 c3], d as [d1 d2 d3]; unfold cross; cbn; field. Qed.
Lemma sized_area A q : well_sized A q -> A / 100000 <= p_area (face_of q) <= A.
Proof.
  destruct q as [[[a b] c] d]. unfold well_sized, face_of, props_of, quad_of, quad_props. cbn [qa qb qc qd].
  rewrite diagonals_area, norm_scale, (Rabs_right 2), Rabs_right by (try apply Rle_ge, Rmult_le_pos; try apply norm_pos; lra).
  intros (H & H1 & _). assert (E : Rltb (2 * norm (area_vector a b c d)) degenerate_tol = false) by (apply Rltb_false; unfold degenerate_tol; lra).
  rewrite E. cbn [p_area]. unfold tri_area in H1.
  replace (norm (cross (vsub d a) (vsub c a))) with (norm (cross (vsub c a) (vsub d a))); [lra|].
  apply norm_eq. destruct a as [a1 a2 a3], b as [b1 b2 b3], c as [c1 c2 c3], d as [d1 d2 d3]. unfold dot, cross. cbn. ring.
Qed.
Lemma Rsum_bound (l : list R) A : (forall x, In x l -> x <= A) -> Rsum l <= INR (length l) * A.
Proof.
  induction l as [|x l IH]; intros H; [cbn; lra|]. rewrite Rsum_cons. cbn [length]. rewrite S_INR.
  specialize (IH (fun y Hy => H y (or_intror Hy))). specialize (H x (or_introl eq_refl)). lra.
Qed.
Lemma mean_bound (l : list R) A : 0 <= A -> (forall x, In x l -> x <= A) -> l <> [] -> Rsum l / INR (length l) <= A.
Proof.
  intros HA H Hl. pose proof (Rsum_bound l A H). assert (0 < INR (length l)) by (apply lt_0_INR; destruct l; [contradiction|cbn; lia]).
  apply Rmult_le_reg_r with (INR (length l)); [assumption|]. unfold Rdiv. rewrite Rmult_assoc, Rinv_l; lra.
Qed.
Lemma filter_combine_all {A B} (t : A * B -> bool) : forall (l : list A) (r : list B), length l = length r ->
  (forall x, In x (combine l r) -> t x = true) -> map fst (filter t (combine l r)) = l.
Proof.
  induction l as [|a l IH]; intros [|b r] L H; try discriminate; [reflexivity|]. cbn [combine filter].
  rewrite (H (a, b)) by (now left). cbn [map fst]. f_equal. apply IH; [now injection L|]. intros x Hx. apply H. now right.
Qed.
Lemma filter_all {A} (t : A -> bool) l : (forall x, In x l -> t x = true) -> filter t l = l.
Proof. induction l as [|x l IH]; intros H; [reflexivity|]. cbn. rewrite (H x) by (now left). f_equal. apply IH. intros y Hy. apply H. now right. Qed.
Lemma all_used_seq m : all_used m -> used_vertices (nb_vertices m) (m_faces m) = seq 0 (nb_vertices m).
Proof.
  intros U. unfold used_vertices. apply filter_all. intros i Hi. apply in_seq in Hi. apply existsb_exists.
  destruct (U i) as (f & Hf & Hi'); [apply Hi|]. exists f. split; [exact Hf|]. unfold memb. apply existsb_exists. exists i. split; [exact Hi'|apply Nat.eqb_refl].
Qed.
Section Heal.
  Variable argsort : list R -> list nat.
  Hypothesis Hs : sorts argsort.
  Variable heal_normals : mesh -> result mesh.

  Lemma heal_tidy m : tidy m -> exists m', heal_leaf argsort heal_normals false m = Ok m' /\ tidy m' /\ nb_faces m' = nb_faces m
    /\ forall k a b c d, face_is m k a b c d -> exists a' b' c' d', face_is m' k a' b' c' d' /\ same_polygon (a, b, c, d) (a', b', c', d').
  Proof.
    intros (Vm & Um & Fm & Sm & Tm & A & Am). unfold heal_leaf, remove_unused.
    rewrite (all_used_seq m Um), seq_length, (Nat.ltb_irrefl (nb_vertices m)). cbn [bind].
    destruct (polygons_exist m Vm) as [qs Hq].
    assert (Sz : forall q, In q qs -> well_sized A q).
    { intros [[[a b] c] d] Hi. apply In_nth_error in Hi. destruct Hi as [k Hk]. apply (Am k). exact (polygons_face m qs k _ Hq Hk). }
    pose proof (leaf_props m qs Hq) as Hp. pose proof (polygons_length m qs Hq) as Lq.
    assert (Nq : qs <> []) by (intros ->; cbn in Lq; destruct (m_faces m) eqn:E; [contradiction|unfold nb_faces in Lq; rewrite E in Lq; discriminate]).
    assert (HA : 0 <= A).
    { destruct qs as [|q qs']; [contradiction|]. pose proof (sized_area A q (Sz q (or_introl eq_refl))). lra. }
    unfold remove_degenerated. assert (E : Rltb 0 (/ 100000) = true) by (apply Rltb_true; lra). rewrite E, Hp. cbn [negb bind].
    rewrite filter_combine_all.
    2:{ rewrite map_length. symmetry. exact Lq. }
    2:{ intros [f x] Hx. apply in_combine_r in Hx. apply in_map_iff in Hx. destruct Hx as (q & <- & Hi). apply negb_true_iff, Rltb_false. cbn [snd].
        pose proof (sized_area A q (Sz q Hi)).
        assert (Rsum (map p_area (map face_of qs)) / INR (length (map face_of qs)) <= A).
        { rewrite map_map, map_length, <- (map_length (fun q => p_area (face_of q))). apply mean_bound; [exact HA| |].
          - intros y Hy. apply in_map_iff in Hy. destruct Hy as (q' & <- & Hq'). pose proof (sized_area A q' (Sz q' Hq')). lra.
          - destruct qs; [contradiction|discriminate]. }
        lra. }
    cbn [bind]. replace (Mesh (m_vertices m) (m_faces m)) with m by now destruct m.
    assert (Nv : m_vertices m <> []).
    { destruct (m_faces m) as [|f fs] eqn:Ef; [contradiction|]. intros E0.
      assert (H : (fa f < length (m_vertices m))%nat) by (apply (Vm f); [rewrite Ef; now left|now left]). rewrite E0 in H. cbn in H. lia. }
    destruct (merge_duplicates_ok argsort Hs (/ 100000000) m ltac:(lra) Vm Nv) as (m1 & ids & -> & V1 & N1 & [M1 M2 M3 M4] & Fs).
    cbn [bind fst].
    assert (M3' : forall i v, nth_error (m_vertices m) i = Some v -> exists k, nth_error ids i = Some k /\ nth_error (m_vertices m1) k = Some v).
    { intros i v Hi. destruct (M3 i v Hi) as (k & v' & Hk & Hv & C). exists k. split; [exact Hk|]. rewrite Hv. f_equal.
      destruct (M2 k v' Hv) as (j & Hj & _). assert (i = j) by (exact (Sm i j v v' Hi Hj C)). subst j. congruence. }
    assert (Inj : forall i j k, nth_error ids i = Some k -> nth_error ids j = Some k -> i = j).
    { intros i j k Hi Hj. assert (Li : (i < length ids)%nat) by (apply nth_error_Some; congruence).
      assert (Lj : (j < length ids)%nat) by (apply nth_error_Some; congruence). rewrite M1 in Li, Lj.
      apply nth_error_Some in Li. apply nth_error_Some in Lj.
      destruct (nth_error (m_vertices m) i) as [u|] eqn:Eu; [|contradiction]. destruct (nth_error (m_vertices m) j) as [v|] eqn:Ev; [|contradiction].
      destruct (M3' i u Eu) as (k1 & K1 & U1). destruct (M3' j v Ev) as (k2 & K2 & U2).
      apply (Sm i j u v Eu Ev). assert (u = v) by congruence. subst v. unfold near. rewrite !Rminus_diag_eq, Rabs_R0 by reflexivity. lra. }
    exists (heal_triangles m1). split; [reflexivity|].
    assert (Face : forall k a b c d, face_is m k a b c d -> face_is m1 k a b c d).
    { intros k a b c d (f & Ef & Ha & Hb & Hc & Hd). destruct (Fs k f Ef) as (ka & kb & kc & kd & Ia & Ib & Ic & Id & Ef').
      exists (F ka kb kc kd). cbn [fa fb fc fd]. split; [exact Ef'|].
      destruct (M3' _ _ Ha) as (? & ? & ?). destruct (M3' _ _ Hb) as (? & ? & ?). destruct (M3' _ _ Hc) as (? & ? & ?). destruct (M3' _ _ Hd) as (? & ? & ?).
      split; [congruence|]. split; [congruence|]. split; congruence. }
    assert (Poly : forall k a b c d, face_is m k a b c d -> exists a' b' c' d', face_is (heal_triangles m1) k a' b' c' d' /\ same_polygon (a, b, c, d) (a', b', c', d')).
    { intros k a b c d H. pose proof (Face k a b c d H) as H1. destruct H1 as (f & Ef & _).
      destruct (rotation_area m1 (heal_triangles m1) k f (heal_face f) a b c d (heal_rotation f) eq_refl Ef) as (a' & b' & c' & d' & F' & _ & R').
      - cbn. now apply map_nth_error.
      - now apply Face.
      - exists a', b', c', d'. split; [exact F'|exact R']. }
    assert (Nf : nb_faces (heal_triangles m1) = nb_faces m) by (unfold nb_faces in *; cbn; now rewrite map_length).
    split; [|split; [exact Nf|exact Poly]].
    split; [now apply heal_valid|]. split.
    { intros k Hk. cbn [heal_triangles m_vertices] in Hk. apply nth_error_Some in Hk. destruct (nth_error (m_vertices m1) k) as [v|] eqn:Ev; [|contradiction].
      destruct (M2 k v Ev) as (i & Hi & Ki). destruct (Um i) as (f & Hf & Hi'); [apply nth_error_Some; congruence|].
      apply In_nth_error in Hf. destruct Hf as [j Hj]. destruct (Fs j f Hj) as (ka & kb & kc & kd & Ia & Ib & Ic & Id & Ef').
      exists (heal_face (F ka kb kc kd)). split; [cbn; apply in_map; now apply nth_error_In in Ef'|].
      assert (In k [ka; kb; kc; kd]) by (cbn in Hi'; destruct Hi' as [<-|[<-|[<-|[<-|[]]]]]; cbn; rewrite Ki in *; [left|right; left|do 2 right; left|do 3 right; left]; congruence).
      destruct (heal_rotation (F ka kb kc kd)) as [->|[->|[->| ->]]]; cbn in *; tauto. }
    split.
    { cbn. intros E0. apply map_eq_nil in E0. unfold nb_faces in N1. rewrite E0 in N1. cbn in N1. destruct (m_faces m); [contradiction|discriminate]. }
    split.
    { cbn [heal_triangles m_vertices]. intros i j u v Hi Hj C. destruct (M2 i u Hi) as (i0 & Ei & Ii). destruct (M2 j v Hj) as (j0 & Ej & Ij).
      assert (i0 = j0) by (exact (Sm _ _ _ _ Ei Ej C)). subst j0. congruence. }
    split.
    { cbn. intros g Hg. apply in_map_iff in Hg. destruct Hg as (f1 & <- & Hf1). apply In_nth_error in Hf1. destruct Hf1 as [k Hk].
      destruct (nth_error (m_faces m) k) as [f|] eqn:Ef.
      2:{ apply nth_error_None in Ef. assert (k < length (m_faces m1))%nat by (apply nth_error_Some; congruence). unfold nb_faces in N1. lia. }
      destruct (Fs k f Ef) as (ka & kb & kc & kd & Ia & Ib & Ic & Id & Ef'). rewrite Hk in Ef'. injection Ef' as ->.
      destruct (Tm f (nth_error_In _ _ Ef)) as [T|T].
      - left. assert (ka = kd) by congruence. subst kd. rewrite heal_idempotent; [reflexivity|]. unfold is_tri. cbn. apply Nat.eqb_refl.
      - right. assert (N : NoDup [ka; kb; kc; kd]).
        { pose proof (NoDup_nth_error [fa f; fb f; fc f; fd f]) as [_ _]. 
          repeat match goal with H : NoDup (_ :: _) |- _ => apply NoDup_cons_iff in H; destruct H end. cbn [In] in *.
          repeat constructor; cbn [In]; intros Hin; repeat destruct Hin as [Hin|Hin]; subst; try contradiction;
            match goal with H1 : nth_error ids ?x = Some ?k, H2 : nth_error ids ?y = Some ?k |- _ => pose proof (Inj x y k H1 H2); tauto end. }
        clear - N. repeat match goal with H : NoDup (_ :: _) |- _ => apply NoDup_cons_iff in H; destruct H end. cbn [In] in *.
        destruct (heal_rotation (F ka kb kc kd)) as [->|[->|[->| ->]]]; cbn [fa fb fc fd];
          repeat constructor; cbn [In]; intuition congruence. }
    exists A. intros k a b c d H.
    assert (Lk : (k < nb_faces m)%nat) by (rewrite <- Nf; destruct H as (f & Ef & _); apply nth_error_Some; congruence).
    destruct (nth_error qs k) as [[[[a0 b0] c0] d0]|] eqn:Ek; [|apply nth_error_None in Ek; lia].
    pose proof (polygons_face m qs k _ Hq Ek) as F0. destruct (Poly k a0 b0 c0 d0 F0) as (a' & b' & c' & d' & F' & S').
    assert (E' : (a', b', c', d') = (a, b, c, d)).
    { destruct F' as (f & Ef & ? & ? & ? & ?), H as (f' & Ef' & ? & ? & ? & ?). rewrite Ef in Ef'. injection Ef' as <-. congruence. }
    rewrite <- E'. apply (well_sized_same A (a0, b0, c0, d0)); [exact S'|]. now apply (Am k).
  Qed.
End Heal.
