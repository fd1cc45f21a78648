(** Examples for the orientation of the faces. *)
From Coq Require Import Reals List Bool Arith Permutation Lra Lia.
From Verif Require Import Model_Base Model_Geometry Model_Mesh Model_Tree Model_Integrals Spec_Mesh Spec_Tree Spec_Clip Spec_Integrals
  Proofs_Geometry Proofs_Mesh Proofs_Mesh2 Proofs_Clip4 Proofs_Clip5 Proofs_Integrals Proofs_Integrals3
  Model_Normals Spec_Normals Proofs_Normals Proofs_Normals2 Proofs_Normals3 Proofs_Normals4.
Import ListNotations.
Open Scope nat_scope.

(** ** Tests for concrete meshes *)

Fixpoint nodupb (l : list nat) : bool := match l with [] => true | x :: l' => negb (memb x l') && nodupb l' end.
Definition wfb (f : face) : bool := Nat.eqb (fa f) (fd f) && nodupb [fa f; fb f; fc f] || nodupb [fa f; fb f; fc f; fd f].
Definition hasb (f : face) (v : nat) : bool := memb v (face_ids f).
Definition sideb (f : face) (a b : nat) : bool := dir f a b || dir f b a.
Definition numbered (fs : list face) := combine (seq 0 (length fs)) fs.
Definition pairb (f g : face) : bool :=
  forallb (fun a => forallb (fun b => Nat.eqb a b || negb (hasb g a && hasb g b)
    || sideb f a b && sideb g a b && forallb (fun c => negb (hasb g c) || Nat.eqb c a || Nat.eqb c b) (face_ids f)) (face_ids f)) (face_ids f).
Definition tripleb (f g h : face) : bool :=
  forallb (fun a => forallb (fun b => Nat.eqb a b || negb (hasb g a && hasb g b) || negb (hasb h a && hasb h b)) (face_ids f)) (face_ids f).
Definition conformalb (fs : list face) : bool :=
  forallb wfb fs
  && forallb (fun x => forallb (fun y => Nat.eqb (fst x) (fst y) || pairb (snd x) (snd y)) (numbered fs)) (numbered fs)
  && forallb (fun x => forallb (fun y => forallb (fun z => Nat.eqb (fst x) (fst y) || Nat.eqb (fst x) (fst z) || Nat.eqb (fst y) (fst z)
       || tripleb (snd x) (snd y) (snd z)) (numbered fs)) (numbered fs)) (numbered fs).
Definition consistentb (fs : list face) : bool :=
  forallb (fun x => forallb (fun y => Nat.eqb (fst x) (fst y) || forallb (fun e => negb (dir (snd y) (fst e) (snd e))) (sides (snd x))) (numbered fs)) (numbered fs).
Definition boundaryb (fs : list face) : bool :=
  forallb (fun x => forallb (fun e => existsb (fun y => negb (Nat.eqb (fst y) (fst x)) && sideb (snd y) (fst e) (snd e)) (numbered fs)) (sides (snd x))) (numbered fs).

Lemma numbered_In fs i f : In (i, f) (numbered fs) <-> nth_error fs i = Some f.
Proof.
  unfold numbered. assert (G : forall s, In (i, f) (combine (seq s (length fs)) fs) <-> s <= i /\ nth_error fs (i - s) = Some f).
  { induction fs as [|g fs IH]; intros s; cbn.
    - split; [intros []|]. intros [_ H]. destruct (i - s); discriminate.
    - rewrite IH. split.
      + intros [H|[L H]]; [injection H as -> ->; split; [lia|]; now rewrite Nat.sub_diag|]. split; [lia|].
        replace (i - s) with (S (i - S s)) by lia. exact H.
      + intros [L H]. destruct (Nat.eq_dec i s) as [->|N]; [left; rewrite Nat.sub_diag in H; cbn in H; congruence|].
        right. split; [lia|]. replace (i - s) with (S (i - S s)) in H by lia. exact H. }
  rewrite G. rewrite Nat.sub_0_r. intuition lia.
Qed.
Lemma hasb_has f v : hasb f v = true <-> has f v.
Proof. apply memb_In. Qed.
Lemma nodupb_ok l : nodupb l = true -> NoDup l.
Proof.
  induction l as [|x l IH]; cbn; intros H; constructor; apply andb_prop in H; destruct H as [H1 H2]; [|now apply IH].
  intros I. apply memb_In in I. rewrite I in H1. discriminate.
Qed.
Lemma sideb_ok f a b : sideb f a b = true -> is_side f a b.
Proof. unfold sideb. intros H. apply orb_prop in H. destruct H as [H|H]; apply dir_In in H; [now left|now right]. Qed.
Lemma forallb_In {A} (t : A -> bool) l x : forallb t l = true -> In x l -> t x = true.
Proof. intros H. now apply forallb_forall. Qed.
Lemma conformal_test fs : conformalb fs = true -> conformal fs.
Proof.
  unfold conformalb. intros H. apply andb_prop in H. destruct H as [H H3]. apply andb_prop in H. destruct H as [H1 H2].
  split; [|split].
  - intros f Hf. apply (forallb_In _ _ _ H1) in Hf. unfold wfb in Hf. apply orb_prop in Hf. destruct Hf as [Hf|Hf].
    + apply andb_prop in Hf. destruct Hf as [E N]. left. split; [now apply Nat.eqb_eq|now apply nodupb_ok].
    + right. now apply nodupb_ok.
  - intros i j f g a b Ef Eg N Nab Fa Fb Ga Gb. apply numbered_In in Ef. apply numbered_In in Eg.
    pose proof (forallb_In _ _ _ (forallb_In _ _ _ H2 Ef) Eg) as P. cbn [fst snd] in P.
    apply orb_prop in P. destruct P as [P|P]; [apply Nat.eqb_eq in P; contradiction|].
    pose proof (forallb_In _ _ _ (forallb_In _ _ _ P Fa) Fb) as P'. cbn beta in P'.
    apply hasb_has in Ga. apply hasb_has in Gb. rewrite Ga, Gb in P'. cbn [andb negb] in P'. rewrite orb_false_r in P'.
    apply orb_prop in P'. destruct P' as [P'|P']; [apply Nat.eqb_eq in P'; contradiction|].
    apply andb_prop in P'. destruct P' as [P' U]. apply andb_prop in P'. destruct P' as [S1 S2].
    split; [now apply sideb_ok|]. split; [now apply sideb_ok|]. intros c Fc Gc. pose proof (forallb_In _ _ _ U Fc) as Uc. cbn beta in Uc.
    apply hasb_has in Gc. rewrite Gc in Uc. cbn [negb orb] in Uc. apply orb_prop in Uc. destruct Uc as [Uc|Uc]; apply Nat.eqb_eq in Uc; auto.
  - intros i j k f g h a b Ef Eg Eh Nab Fa Fb Ga Gb Ka Kb. apply numbered_In in Ef. apply numbered_In in Eg. apply numbered_In in Eh.
    pose proof (forallb_In _ _ _ (forallb_In _ _ _ (forallb_In _ _ _ H3 Ef) Eg) Eh) as P. cbn [fst snd] in P.
    apply orb_prop in P. destruct P as [P|P].
    + apply orb_prop in P. destruct P as [P|P]; [apply orb_prop in P; destruct P as [P|P]|]; apply Nat.eqb_eq in P; auto.
    + exfalso. pose proof (forallb_In _ _ _ (forallb_In _ _ _ P Fa) Fb) as P'. cbn beta in P'.
      apply hasb_has in Ga. apply hasb_has in Gb. apply hasb_has in Ka. apply hasb_has in Kb. rewrite Ga, Gb, Ka, Kb in P'. cbn [andb negb] in P'.
      rewrite !orb_false_r in P'. apply Nat.eqb_eq in P'. contradiction.
Qed.
Lemma consistent_test fs : consistentb fs = true -> consistent fs.
Proof.
  unfold consistentb. intros H i j f g a b Ef Eg N Fa Ga. apply numbered_In in Ef. apply numbered_In in Eg.
  pose proof (forallb_In _ _ _ (forallb_In _ _ _ H Ef) Eg) as P. cbn [fst snd] in P.
  apply orb_prop in P. destruct P as [P|P]; [apply Nat.eqb_eq in P; contradiction|].
  pose proof (forallb_In _ _ _ P Fa) as P'. cbn [fst snd] in P'. apply dir_In in Ga. rewrite Ga in P'. discriminate.
Qed.
Lemma boundary_test fs : boundaryb fs = true -> without_boundary fs.
Proof.
  unfold boundaryb. intros H i f a b Ef Fa. apply numbered_In in Ef.
  pose proof (forallb_In _ _ _ (forallb_In _ _ _ H Ef) Fa) as P. cbn [fst snd] in P. apply existsb_exists in P.
  destruct P as ([j g] & Hg & P). cbn [fst snd] in P. apply andb_prop in P. destruct P as [P S]. exists j, g.
  split; [|split; [now apply numbered_In|now apply sideb_ok]]. apply negb_true_iff, Nat.eqb_neq in P. exact P.
Qed.

Open Scope R_scope.
(** A tetrahedron, and another one turned inside out. *)
Definition two_tetra : mesh := Mesh
  [V 0 0 0; V 2 0 0; V 0 2 0; V 0 0 2; V 10 0 0; V 11 0 0; V 10 1 0; V 10 0 1]
  [F 0 2 1 0; F 0 1 3 0; F 0 3 2 0; F 1 2 3 1; F 4 5 6 4; F 4 7 5 4; F 4 6 7 4; F 5 7 6 5].
Definition outer_faces : list polygon :=
  [(V 0 0 0, V 0 2 0, V 2 0 0, V 0 0 0); (V 0 0 0, V 2 0 0, V 0 0 2, V 0 0 0); (V 0 0 0, V 0 0 2, V 0 2 0, V 0 0 0); (V 2 0 0, V 0 2 0, V 0 0 2, V 2 0 0)].
Definition inner_faces : list polygon :=
  [(V 10 0 0, V 11 0 0, V 10 1 0, V 10 0 0); (V 10 0 0, V 10 0 1, V 11 0 0, V 10 0 0); (V 10 0 0, V 10 1 0, V 10 0 1, V 10 0 0); (V 11 0 0, V 10 0 1, V 10 1 0, V 11 0 0)].
Lemma two_tetra_polygons : polygons_of two_tetra (outer_faces ++ inner_faces).
Proof. repeat constructor. Qed.
Lemma two_tetra_proper : Forall proper_face (outer_faces ++ inner_faces).
Proof.
  unfold outer_faces, inner_faces. cbn [app]. repeat (apply Forall_cons || apply Forall_nil); first [apply (tri_proper _ _ _ 4); [lra|unfold dot, cross, vsub; cbn; ring]|apply (tri_proper _ _ _ 1); [lra|unfold dot, cross, vsub; cbn; ring]|idtac].
  - apply (tri_proper _ _ _ (sqrt 48)); [|rewrite sqrt_sqrt by lra; unfold dot, cross, vsub; cbn; ring].
    apply Rle_trans with (sqrt 1); [rewrite sqrt_1; lra|apply sqrt_le_1_alt; lra].
  - apply (tri_proper _ _ _ (sqrt 3)); [|rewrite sqrt_sqrt by lra; unfold dot, cross, vsub; cbn; ring].
    apply Rle_trans with (sqrt 1); [rewrite sqrt_1; lra|apply sqrt_le_1_alt; lra].
Qed.
Lemma two_tetra_conformal : conformal (m_faces two_tetra) /\ consistent (m_faces two_tetra) /\ without_boundary (m_faces two_tetra).
Proof. split; [apply conformal_test|split; [apply consistent_test|apply boundary_test]]; vm_compute; reflexivity. Qed.
Lemma inner_watertight : watertight inner_faces.
Proof.
  apply (matched_watertight (Mesh [V 10 0 0; V 11 0 0; V 10 1 0; V 10 0 1] [F 0 1 2 0; F 0 3 1 0; F 0 2 3 0; F 1 3 2 1])); [repeat constructor|reflexivity].
Qed.
Lemma two_tetra_healed set_order : (forall l, Permutation l (set_order l)) -> heal_normals set_order two_tetra = Ok two_tetra.
Proof.
  intros Hs. destruct two_tetra_conformal as (C & O & B). pose proof two_tetra_polygons as P.
  destruct (flooded set_order Hs two_tetra (polygons_valid _ _ P)) as (fs' & _ & H & _ & _ & K).
  - discriminate.
  - exact C.
  - exists (m_faces two_tetra). split; [|exact O]. repeat constructor.
  - rewrite (K O) in H. rewrite (H B). unfold outwards. cbn [highest two_tetra m_vertices bind].
    change (Mesh (m_vertices two_tetra) (m_faces two_tetra)) with two_tetra.
    match goal with |- context [bind (faces_props ?x) _] => change x with two_tetra end.
    rewrite (leaf_props _ _ P). cbn [bind]. rewrite (flux_value two_tetra _ _ P two_tetra_proper).
    + rewrite (proj2 (Rltb_false _ 0)); [reflexivity|]. unfold outer_faces, inner_faces, Rsum, signed_volume, triple, dot, cross. cbn. lra.
    + apply (closed_watertight two_tetra C O B _ P).
Qed.
(** A tetrahedron with one face reversed. *)
Definition wrong_tetra : mesh := Mesh (m_vertices tetra) [F 0 1 2 0; F 0 1 3 0; F 0 3 2 0; F 1 2 3 1].
Lemma wrong_tetra_ok : conformal (m_faces wrong_tetra) /\ orientable (m_faces wrong_tetra) /\ ~ consistent (m_faces wrong_tetra)
  /\ without_boundary (m_faces wrong_tetra).
Proof.
  split; [apply conformal_test; vm_compute; reflexivity|]. split; [|split].
  - exists (m_faces tetra). split; [|apply consistent_test; vm_compute; reflexivity]. cbn. constructor; [now right|]. repeat constructor.
  - intros C. apply (C 0%nat 1%nat (F 0 1 2 0) (F 0 1 3 0) 0%nat 1%nat eq_refl eq_refl); [discriminate|now left|now left].
  - apply boundary_test. vm_compute. reflexivity.
Qed.
Lemma wrong_tetra_polygons : exists qs, polygons_of wrong_tetra qs /\ Forall proper_face qs.
Proof.
  destruct tetra_surface as (_ & _ & G). unfold tetra_faces in G.
  repeat match goal with H : Forall _ (_ :: _) |- _ => apply Forall_cons_iff in H; destruct H end.
  exists [(V 0 0 0, V 1 0 0, V 0 1 0, V 0 0 0); (V 0 0 0, V 1 0 0, V 0 0 1, V 0 0 0); (V 0 0 0, V 0 0 1, V 0 1 0, V 0 0 0); (V 1 0 0, V 0 1 0, V 0 0 1, V 1 0 0)]. split; [repeat constructor|]. repeat (apply Forall_cons || apply Forall_nil); try assumption.
  match goal with H : proper_face (V 0 0 0, V 0 1 0, V 1 0 0, V 0 0 0) |- _ => exact (proj1 (flip_proper _ H)) end.
Qed.
