From Coq Require Import Reals List Bool Arith ZArith Lia Lra Permutation Relation_Operators Operators_Properties.
From Verif Require Import Model_Base Model_Geometry Model_Mesh Spec_Mesh Spec_Clip Proofs_Geometry Proofs_Mesh Proofs_Mesh2 Model_Quality Spec_Quality Proofs_Quality Proofs_Components
  Model_Lid Spec_Lid.
Import ListNotations.
Open Scope nat_scope.

(** ** Sub-meshes, with the numbers of their vertices *)
Definition uses (m : mesh) (ids : list nat) (x : nat) : Prop := exists i f, In i ids /\ nth_error (m_faces m) i = Some f /\ In x (face_ids f).
Definition sub (m : mesh) (ids : list nat) (m' : mesh) : Prop :=
  valid m' /\ all_used m' /\ exists phi,
  Forall2 (fun i f' => exists f, nth_error (m_faces m) i = Some f /\ f' = face_map phi f) ids (m_faces m')
  /\ (forall x y, uses m ids x -> uses m ids y -> phi x = phi y -> x = y)
  /\ (forall x, uses m ids x -> exists v, nth_error (m_vertices m) x = Some v /\ nth_error (m_vertices m') (phi x) = Some v).

Lemma f2_in_left {A B} (R : A -> B -> Prop) l l' a : Forall2 R l l' -> In a l -> exists b, In b l' /\ R a b.
Proof. induction 1 as [|x y l l' H F IH]; intros Hi; [destruct Hi|]. destruct Hi as [<-|Hi]; [exists y; split; [now left|exact H]|]. destruct (IH Hi) as (b & Hb & Hr). exists b. split; [now right|exact Hr]. Qed.
Lemma f2_in_right {A B} (R : A -> B -> Prop) l l' b : Forall2 R l l' -> In b l' -> exists a, In a l /\ R a b.
Proof. induction 1 as [|x y l l' H F IH]; intros Hi; [destruct Hi|]. destruct Hi as [<-|Hi]; [exists x; split; [now left|exact H]|]. destruct (IH Hi) as (a & Ha & Hr). exists a. split; [now right|exact Hr]. Qed.
Lemma f2_at {A B} (R : A -> B -> Prop) l l' k a : Forall2 R l l' -> nth_error l k = Some a -> exists b, nth_error l' k = Some b /\ R a b.
Proof. intros F. revert k. induction F as [|x y l l' H F IH]; intros k Hk; [destruct k; discriminate|]. destruct k as [|k]; cbn in *; [injection Hk as <-; eauto|now apply IH]. Qed.
Lemma f2_at' {A B} (R : A -> B -> Prop) l l' k b : Forall2 R l l' -> nth_error l' k = Some b -> exists a, nth_error l k = Some a /\ R a b.
Proof. intros F. revert k. induction F as [|x y l l' H F IH]; intros k Hk; [destruct k; discriminate|]. destruct k as [|k]; cbn in *; [injection Hk as <-; eauto|now apply IH]. Qed.

Lemma face_ids_map phi f : face_ids (face_map phi f) = map phi (face_ids f). Proof. now destruct f. Qed.

Lemma extract_sub m ids : valid m -> (forall i, In i ids -> i < nb_faces m) -> exists m', extract m ids = Ok m' /\ sub m ids m'.
Proof.
  intros Vm L. unfold extract.
  destruct (extract_faces_spec m (map Z.of_nat ids) Vm) as (m' & u & E & Vm' & Um' & _).
  { intros z Hz. apply in_map_iff in Hz. destruct Hz as (i & <- & Hi). exists i. split; [now apply L|now left]. }
  rewrite E. cbn [bind fst]. exists m'. split; [reflexivity|]. split; [exact Vm'|]. split; [exact Um'|].
  unfold extract_faces in E.
  destruct (mapM (geti (m_faces m)) (map Z.of_nat ids)) as [fs|] eqn:Ef; [|discriminate]. cbn [bind] in E.
  assert (Hfs : Forall2 (fun i f => nth_error (m_faces m) i = Some f) ids fs).
  { clear E Vm' Um'. revert fs Ef L. induction ids as [|i ids IH]; intros fs Ef L.
    - cbn in Ef. apply Ok_inj' in Ef. subst. constructor.
    - cbn [map mapM] in Ef. destruct (geti (m_faces m) (Z.of_nat i)) as [f|] eqn:Eg; [|discriminate]. cbn [bind] in Ef.
      destruct (mapM (geti (m_faces m)) (map Z.of_nat ids)) as [fs'|] eqn:Em; [|discriminate]. cbn [bind] in Ef. apply Ok_inj' in Ef. subst fs.
      constructor; [|apply IH; [reflexivity|intros j Hj; apply L; now right]].
      specialize (L i (or_introl eq_refl)). destruct (nth_error (m_faces m) i) as [f'|] eqn:En; [|apply nth_error_None in En; unfold nb_faces in L; lia].
      rewrite (geti_ok (m_faces m) (Z.of_nat i) i f') in Eg; [|split; [exact L|now left]|exact En]. apply Ok_inj' in Eg. now subst. }
  set (used := used_vertices (nb_vertices m) fs) in *.
  destruct (mapM (get (m_vertices m)) used) as [vs|] eqn:Ev; [|discriminate]. cbn [bind] in E.
  destruct (build_mesh vs (map (face_map (new_id used)) fs)) as [m2|] eqn:Eb; [|discriminate]. cbn [bind] in E. apply Ok_inj' in E. injection E as -> _.
  apply build_mesh_ok in Eb. destruct Eb as [-> _].
  assert (U : forall x, uses m ids x -> In x used).
  { intros x (i & f & Hi & Hf & Hx). apply used_vertices_In. split; [apply (Vm f); [now apply nth_error_In in Hf|exact Hx]|].
    destruct (f2_in_left _ _ _ _ Hfs Hi) as (f' & Hf' & E'). exists f. split; [congruence|exact Hx]. }
  exists (new_id used). split; [|split].
  - cbn [m_faces]. generalize (new_id used). intros phi. clear - Hfs. induction Hfs as [|i f ids fs H F IH]; cbn [map]; [constructor|]. constructor; [eauto|exact IH].
  - intros x y Hx Hy. apply new_id_inj; now apply U.
  - intros x Hx. apply U in Hx. pose proof (new_id_In used x Hx) as N. apply mapM_ok in Ev. destruct Ev as [_ Hv].
    destruct (Hv _ _ N) as (v & G & Nv). apply get_ok in G. exists v. now split.
Qed.

Lemma sub_len m ids m' : sub m ids m' -> length ids = nb_faces m'.
Proof. intros (_ & _ & phi & F & _). clear - F. unfold nb_faces. induction F; cbn; congruence. Qed.
Lemma uses_in m ids i f x : In i ids -> nth_error (m_faces m) i = Some f -> In x (face_ids f) -> uses m ids x. Proof. intros; exists i, f; auto. Qed.
Lemma sub_share m ids m' k k' i i' : sub m ids m' -> nth_error ids k = Some i -> nth_error ids k' = Some i' ->
  share_vertex (m_faces m') k k' <-> share_vertex (m_faces m) i i'.
Proof.
  intros (_ & _ & phi & F & I & G) Hk Hk'.
  destruct (f2_at _ _ _ _ _ F Hk) as (g & Hg & f & Hf & ->). destruct (f2_at _ _ _ _ _ F Hk') as (g' & Hg' & f' & Hf' & ->).
  assert (Hi := nth_error_In _ _ Hk). assert (Hi' := nth_error_In _ _ Hk'). split.
  - intros (a & b & v & Ha & Hb & Va & Vb). rewrite Hg in Ha. injection Ha as <-. rewrite Hg' in Hb. injection Hb as <-.
    change (In v (face_ids (face_map phi f))) in Va. change (In v (face_ids (face_map phi f'))) in Vb. rewrite face_ids_map in Va, Vb.
    apply in_map_iff in Va. apply in_map_iff in Vb. destruct Va as (x & <- & Hx), Vb as (y & E & Hy).
    exists f, f', x. split; [exact Hf|]. split; [exact Hf'|]. split; [exact Hx|].
    assert (y = x) as <- by (apply I; [exact (uses_in m ids i' f' y Hi' Hf' Hy)|exact (uses_in m ids i f x Hi Hf Hx)|exact E]). exact Hy.
  - intros (a & b & v & Ha & Hb & Va & Vb). rewrite Hf in Ha. injection Ha as <-. rewrite Hf' in Hb. injection Hb as <-.
    exists (face_map phi f), (face_map phi f'), (phi v). split; [exact Hg|]. split; [exact Hg'|].
    split; [change (In (phi v) (face_ids (face_map phi f)))|change (In (phi v) (face_ids (face_map phi f')))]; rewrite face_ids_map; now apply in_map.
Qed.
(** The corners. *)
Lemma sub_corner m ids m' l l' v : sub m ids m' -> picks ids l l' -> corner_of m' l v <-> corner_of m l' v.
Proof.
  intros (_ & _ & phi & F & I & G) P. split.
  - intros (k & g & x & Hk & Hg & Hx & Hv). destruct (f2_in_left _ _ _ _ P Hk) as (i & Hi & Ei).
    destruct (f2_at _ _ _ _ _ F Ei) as (g' & Hg' & f & Hf & ->). rewrite Hg in Hg'. injection Hg' as ->.
    change (In x (face_ids (face_map phi f))) in Hx. rewrite face_ids_map in Hx. apply in_map_iff in Hx. destruct Hx as (y & <- & Hy).
    destruct (G y) as (w & Hw & Hw'); [eapply uses_in; eauto; now apply nth_error_In in Ei|]. exists i, f, y. rewrite Hv in Hw'. injection Hw' as ->. auto.
  - intros (i & f & y & Hi & Hf & Hy & Hv). destruct (f2_in_right _ _ _ _ P Hi) as (k & Hk & Ei).
    destruct (f2_at _ _ _ _ _ F Ei) as (g & Hg & f0 & Hf0 & ->). rewrite Hf in Hf0. injection Hf0 as <-.
    destruct (G y) as (w & Hw & Hw'); [eapply uses_in; eauto; now apply nth_error_In in Ei|].
    exists k, (face_map phi f), (phi y). split; [exact Hk|]. split; [exact Hg|]. split; [change (In (phi y) (face_ids (face_map phi f))); rewrite face_ids_map; now apply in_map|].
    rewrite Hv in Hw. now injection Hw as ->.
Qed.
Lemma sub_wet m ids m' k i : sub m ids m' -> nth_error ids k = Some i -> wet m' k <-> wet m i.
Proof.
  intros S Hk.
  assert (E : forall mm n, wet mm n <-> exists v, corner_of mm [n] v /\ (Rabs (vz v) <= / 100000000)%R).
  { intros mm n. split.
    - intros (f & x & v & A & B & C & D). exists v. split; [|exact D]. exists n, f, x. repeat split; auto. now left.
    - intros (v & (n' & f & x & [<-|[]] & A & B & C) & D). exists f, x, v. auto. }
  rewrite !E. assert (P : picks ids [k] [i]) by (constructor; [exact Hk|constructor]).
  split; intros (v & C & D); exists v; (split; [|exact D]); now apply (sub_corner m ids m' [k] [i] v S P).
Qed.
Lemma sub_all_corners m ids m' v : sub m ids m' -> In v (m_vertices m') <-> corner_of m ids v.
Proof.
  intros (Vm & Um & phi & F & I & G). split.
  - intros Hv. apply In_nth_error in Hv. destruct Hv as [n Hn].
    destruct (Um n) as (g & Hg & Hx); [apply nth_error_Some; congruence|].
    destruct (f2_in_right _ _ _ _ F Hg) as (i & Hi & f & Hf & ->).
    change (In n (face_ids (face_map phi f))) in Hx. rewrite face_ids_map in Hx. apply in_map_iff in Hx. destruct Hx as (y & <- & Hy).
    destruct (G y) as (w & Hw & Hw'); [eapply uses_in; eauto|]. exists i, f, y. rewrite Hn in Hw'. injection Hw' as ->. auto.
  - intros (i & f & y & Hi & Hf & Hy & Hv). destruct (G y) as (w & Hw & Hw'); [eapply uses_in; eauto|]. rewrite Hv in Hw. injection Hw as ->. now apply nth_error_In in Hw'.
Qed.
Lemma picks_uses m ids m' phi l l' x : Forall2 (fun i f' => exists f, nth_error (m_faces m) i = Some f /\ f' = face_map phi f) ids (m_faces m') ->
  picks ids l l' -> uses m l' x -> uses m ids x /\ uses m' l (phi x).
Proof.
  intros F P (i & f & Hi & Hf & Hx). destruct (f2_in_right _ _ _ _ P Hi) as (k & Hk & Ei). split; [exists i, f; split; [now apply nth_error_In in Ei|auto]|].
  destruct (f2_at _ _ _ _ _ F Ei) as (g & Hg & f0 & Hf0 & ->). rewrite Hf in Hf0. injection Hf0 as <-.
  exists k, (face_map phi f). split; [exact Hk|]. split; [exact Hg|]. rewrite face_ids_map. now apply in_map.
Qed.
Lemma sub_trans m ids m' l l' m'' : sub m ids m' -> sub m' l m'' -> picks ids l l' -> sub m l' m''.
Proof.
  intros (V1 & U1 & phi & F & I & G) (V2 & U2 & psi & F2 & I2 & G2) P. split; [exact V2|]. split; [exact U2|]. exists (fun x => psi (phi x)).
  split; [|split].
  - clear - F F2 P. revert l' P. generalize dependent (m_faces m''). intros fs F2. induction F2 as [|k g l fs (f' & Hf' & ->) F2 IH]; intros l' P; inversion P as [|? i ? l2 Ei P']; subst; constructor; [|now apply IH].
    destruct (f2_at _ _ _ _ _ F Ei) as (g & Hg & f & Hf & ->). rewrite Hf' in Hg. injection Hg as ->. exists f. split; [exact Hf|]. now destruct f.
  - intros x y Hx Hy E. destruct (picks_uses m ids m' phi l l' x F P Hx), (picks_uses m ids m' phi l l' y F P Hy). apply I; auto.
  - intros x Hx. destruct (picks_uses m ids m' phi l l' x F P Hx) as [A B]. destruct (G x A) as (v & Hv & Hv'). destruct (G2 _ B) as (w & Hw & Hw'). exists v. split; [exact Hv|]. congruence.
Qed.
Lemma picks_exists {A} (ids : list A) l : (forall k, In k l -> k < length ids) -> exists l', picks ids l l'.
Proof.
  induction l as [|k l IH]; intros H; [exists []; constructor|]. destruct IH as [l' P]; [intros j Hj; apply H; now right|].
  destruct (nth_error ids k) as [x|] eqn:E; [exists (x :: l'); now constructor|]. apply nth_error_None in E. specialize (H k (or_introl eq_refl)). lia.
Qed.
