(** Proofs about meshes. *)
From Coq Require Import Reals List Bool ZArith Lra Lia Permutation.
From Verif Require Import Model_Base Model_Geometry Model_Mesh Spec_Mesh Proofs_Geometry.
Import ListNotations.
Open Scope R_scope.

Lemma Ok_inj' {A} (a b : A) : Ok a = Ok b -> a = b. Proof. intros H; now injection H. Qed.

(** ** Arrays *)
Lemma get_ok {A} (l : list A) i x : get l i = Ok x <-> nth_error l i = Some x.
Proof. unfold get. destruct (nth_error l i); split; intros H; try discriminate; now injection H as ->. Qed.
Lemma get_lt {A} (l : list A) i : (i < length l)%nat -> exists x, get l i = Ok x.
Proof. intros H. apply nth_error_Some in H. destruct (nth_error l i) as [x|] eqn:E; [|easy]. exists x. now apply get_ok. Qed.
Lemma mapM_ok {A B} (f : A -> result B) l r :
  mapM f l = Ok r <-> length r = length l /\ forall k x, nth_error l k = Some x -> exists y, f x = Ok y /\ nth_error r k = Some y.
Proof.
  revert r. induction l as [|a l IH]; intros r; cbn [mapM].
  - split.
    + intros H. apply Ok_inj' in H. subst r. split; [reflexivity|]. intros [|k] x; discriminate.
    + intros [H _]. destruct r; [reflexivity|discriminate].
  - split.
    + intros H. destruct (f a) as [b|e] eqn:E; cbn in H; [|discriminate].
      destruct (mapM f l) as [bs|e] eqn:E'; cbn in H; [|discriminate]. apply Ok_inj' in H. subst r.
      destruct (proj1 (IH bs) eq_refl) as [L N]. split; [cbn; lia|]. intros [|k] x; cbn.
      * intros H; injection H as <-. now exists b.
      * apply N.
    + intros [L N]. destruct r as [|b bs]; [discriminate|]. destruct (N 0%nat a eq_refl) as (y & Hy & Hn).
      injection Hn as <-. rewrite Hy. cbn. assert (E : mapM f l = Ok bs).
      { apply IH. split; [cbn in L; lia|]. intros k x Hx. apply (N (S k) x Hx). }
      now rewrite E.
Qed.
Lemma mapM_total {A B} (f : A -> result B) l : (forall x, In x l -> exists y, f x = Ok y) -> exists r, mapM f l = Ok r.
Proof.
  induction l as [|a l IH]; intros H; [now exists []|]. cbn. destruct (H a) as [b ->]; [now left|].
  destruct IH as [bs ->]; [intros x Hx; apply H; now right|]. now exists (b :: bs).
Qed.
Lemma mapM_map {A B} (f : A -> result B) (g : A -> B) l : (forall x, In x l -> f x = Ok (g x)) -> mapM f l = Ok (map g l).
Proof.
  induction l as [|a l IH]; intros H; [reflexivity|]. cbn. rewrite (H a) by now left. cbn.
  rewrite IH by (intros; apply H; now right). reflexivity.
Qed.
Lemma mapM_ext {A B} (f g : A -> result B) l : (forall x, In x l -> f x = g x) -> mapM f l = mapM g l.
Proof.
  induction l as [|a l IH]; intros H; [reflexivity|]. cbn. rewrite (H a) by now left.
  rewrite IH; [reflexivity|]. intros; apply H; now right.
Qed.
Lemma mapM_map_in {A B C} (f : B -> result C) (g : A -> B) l : mapM f (map g l) = mapM (fun a => f (g a)) l.
Proof. induction l as [|a l IH]; [reflexivity|]. cbn. now rewrite IH. Qed.
Lemma mapM_length {A B} (f : A -> result B) l r : mapM f l = Ok r -> length r = length l.
Proof. intros H. now apply mapM_ok in H. Qed.
Lemma mapM_app {A B} (f : A -> result B) l l' : mapM f (l ++ l') = bind (mapM f l) (fun r => bind (mapM f l') (fun r' => Ok (r ++ r'))).
Proof.
  induction l as [|a l IH]; cbn.
  - destruct (mapM f l'); reflexivity.
  - rewrite IH. destruct (f a); cbn; [|reflexivity]. destruct (mapM f l); cbn; [|reflexivity].
    destruct (mapM f l'); reflexivity.
Qed.
Lemma mapM_err {A B} (f : A -> result B) l x e : In x l -> f x = Err e -> (forall y e', In y l -> f y = Err e' -> e' = e) ->
  mapM f l = Err e.
Proof.
  induction l as [|a l IH]; [easy|]. intros H E U. cbn. destruct (f a) as [b|e'] eqn:Ea.
  - cbn. rewrite IH; [reflexivity| |exact E|intros y e' Hy; apply U; now right].
    destruct H as [->|H]; [congruence|exact H].
  - cbn. f_equal. apply (U a); [now left|exact Ea].
Qed.
Lemma py_index_spec n z i : py_index n z = Some i <-> index_of n z i.
Proof.
  unfold py_index, index_of. destruct (Z.leb_spec 0 z).
  - destruct (Z.ltb_spec z (Z.of_nat n)).
    + split.
      * intros E; injection E as <-. split; [lia|]. left. lia.
      * intros [L [E|E]]; [f_equal; lia|lia].
    + split; [discriminate|]. intros [L [E|E]]; lia.
  - destruct (Z.leb_spec 0 (z + Z.of_nat n)).
    + split.
      * intros E; injection E as <-. split; [lia|]. right. lia.
      * intros [L [E|E]]; [lia|f_equal; lia].
    + split; [discriminate|]. intros [L [E|E]]; lia.
Qed.
Lemma geti_ok {A} (l : list A) z i x : index_of (length l) z i -> nth_error l i = Some x -> geti l z = Ok x.
Proof. intros I N. unfold geti. apply py_index_spec in I. rewrite I. now apply get_ok. Qed.
Lemma geti_total {A} (l : list A) z : (exists i, index_of (length l) z i) -> exists x, geti l z = Ok x.
Proof.
  intros [i I]. unfold geti. pose proof I as [L _]. apply py_index_spec in I. rewrite I. now apply get_lt.
Qed.
Lemma geti_err {A} (l : list A) z : (forall i, ~ index_of (length l) z i) -> geti l z = Err IndexError.
Proof.
  intros N. unfold geti. destruct (py_index (length l) z) as [i|] eqn:E; [|reflexivity].
  exfalso. apply (N i). now apply py_index_spec.
Qed.
Lemma geti_error_kind {A} (l : list A) z e : geti l z = Err e -> e = IndexError.
Proof.
  unfold geti, get. destruct (py_index (length l) z) as [i|]; [|now injection 1].
  destruct (nth_error l i); [discriminate|now injection 1].
Qed.
Lemma memb_In x l : memb x l = true <-> In x l.
Proof.
  unfold memb. rewrite existsb_exists. split.
  - intros [y [H E]]. apply Nat.eqb_eq in E. now subst.
  - intros H. exists x. split; [exact H|apply Nat.eqb_refl].
Qed.

(** ** Valid meshes *)
Lemma face_points_ok vs f q : face_points vs f = Ok q <->
  nth_error vs (fa f) = Some (qa q) /\ nth_error vs (fb f) = Some (qb q)
  /\ nth_error vs (fc f) = Some (qc q) /\ nth_error vs (fd f) = Some (qd q).
Proof.
  unfold face_points, get. destruct (nth_error vs (fa f)) as [a|]; cbn.
  2:{ split; [discriminate|intros (H & _); discriminate]. }
  destruct (nth_error vs (fb f)) as [b|]; cbn.
  2:{ split; [discriminate|intros (_ & H & _); discriminate]. }
  destruct (nth_error vs (fc f)) as [c|]; cbn.
  2:{ split; [discriminate|intros (_ & _ & H & _); discriminate]. }
  destruct (nth_error vs (fd f)) as [d|]; cbn.
  2:{ split; [discriminate|intros (_ & _ & _ & H); discriminate]. }
  split.
  - intros H. apply Ok_inj' in H. subst q. cbn. auto.
  - intros (Ha & Hb & Hc & Hd). injection Ha as ->. injection Hb as ->. injection Hc as ->. injection Hd as ->. now destruct q.
Qed.
Lemma face_is_points m k a b c d : face_is m k a b c d <->
  exists f, nth_error (m_faces m) k = Some f /\ face_points (m_vertices m) f = Ok (Q a b c d).
Proof.
  split; intros (f & Hf & H); exists f; (split; [exact Hf|]).
  - now apply face_points_ok.
  - apply face_points_ok in H. exact H.
Qed.
Lemma valid_points m f : valid m -> In f (m_faces m) -> exists q, face_points (m_vertices m) f = Ok q.
Proof.
  intros Vm Hf. unfold valid in Vm.
  destruct (get_lt (m_vertices m) (fa f)) as [a Ha]; [apply (Vm f); [exact Hf|cbn; auto]|].
  destruct (get_lt (m_vertices m) (fb f)) as [b Hb]; [apply (Vm f); [exact Hf|cbn; auto]|].
  destruct (get_lt (m_vertices m) (fc f)) as [c Hc]; [apply (Vm f); [exact Hf|cbn; auto]|].
  destruct (get_lt (m_vertices m) (fd f)) as [d Hd]; [apply (Vm f); [exact Hf|cbn; auto 6]|].
  exists (Q a b c d). apply face_points_ok. cbn. now rewrite <- !get_ok.
Qed.
Lemma points_valid m : (forall f, In f (m_faces m) -> exists q, face_points (m_vertices m) f = Ok q) -> valid m.
Proof.
  intros H f i Hf Hi. destruct (H f Hf) as [q Hq]. apply face_points_ok in Hq. destruct Hq as (Ha & Hb & Hc & Hd).
  apply nth_error_Some. cbn in Hi. destruct Hi as [<-|[<-|[<-|[<-|[]]]]]; congruence.
Qed.
Lemma valid_faces_props m : valid m -> exists ps, faces_props m = Ok ps.
Proof.
  intros Vm. apply mapM_total. intros f Hf. unfold face_props. destruct (valid_points m f Vm Hf) as [q ->]. now eexists.
Qed.
Lemma build_mesh_ok vs fs m : build_mesh vs fs = Ok m <-> m = Mesh vs fs /\ valid m.
Proof.
  unfold build_mesh. destruct (forallb _ fs) eqn:E.
  - split.
    + intros H. apply Ok_inj' in H. subst m. split; [reflexivity|]. intros f i Hf Hi. rewrite forallb_forall in E.
      specialize (E f Hf). rewrite forallb_forall in E. apply Nat.ltb_lt, E, Hi.
    + intros [-> _]. reflexivity.
  - split; [discriminate|]. intros [-> H]. exfalso. rewrite <- not_true_iff_false in E. apply E.
    apply forallb_forall. intros f Hf. apply forallb_forall. intros i Hi. apply Nat.ltb_lt. now apply (H f).
Qed.
Lemma new_mesh_iff vs fs m : new_mesh vs fs = Ok m <->
  (forall r, In r vs -> length r = 3%nat)
  /\ (forall r, In r fs -> length r = 4%nat /\ forall z, In z r -> (0 <= z < Z.of_nat (length vs))%Z)
  /\ m = Mesh (map row_vec vs) (map row_face fs).
Proof.
  assert (AL : forall A n (rows : list (list A)), all_length n rows = true <-> forall r, In r rows -> length r = n).
  { intros A n rows. unfold all_length. rewrite forallb_forall. split; intros H r Hr; apply Nat.eqb_eq; auto. }
  assert (SL : forall A n (rows : list (list A)), all_length n rows = true -> same_lengths rows = true).
  { intros A n rows H. destruct rows as [|r rows]; [reflexivity|]. unfold same_lengths. rewrite AL in H.
    apply AL. intros r' Hr'. rewrite (H r') by exact Hr'. symmetry. apply H. now left. }
  unfold new_mesh. split.
  - destruct (same_lengths vs); cbn [negb]; [|discriminate].
    destruct (all_length 3 vs) eqn:A3; cbn [negb]; [|discriminate].
    destruct (same_lengths fs); cbn [negb]; [|discriminate].
    destruct (forallb (forallb (fun z => (0 <=? z)%Z)) fs) eqn:P; cbn [negb]; [|discriminate].
    destruct (all_length 4 fs) eqn:A4; cbn [negb]; [|discriminate].
    destruct (forallb (forallb (fun z => (z + 1 <=? Z.of_nat (length vs))%Z)) fs) eqn:B; cbn [negb]; [|discriminate].
    intros H. apply Ok_inj' in H. split; [now apply AL|]. split; [|now symmetry].
    intros r Hr. split; [now apply (proj1 (AL _ _ _) A4)|]. intros z Hz.
    rewrite forallb_forall in P, B. specialize (P r Hr). specialize (B r Hr). rewrite forallb_forall in P, B.
    specialize (P z Hz). specialize (B z Hz). lia.
  - intros (H3 & H4 & ->). apply AL in H3. rewrite (SL _ _ _ H3), H3. cbn [negb].
    assert (A4 : all_length 4 fs = true) by (apply AL; intros r Hr; now apply H4).
    rewrite (SL _ _ _ A4), A4. cbn [negb].
    replace (forallb (forallb (fun z => (0 <=? z)%Z)) fs) with true.
    + replace (forallb (forallb (fun z => (z + 1 <=? Z.of_nat (length vs))%Z)) fs) with true; [reflexivity|].
      symmetry. apply forallb_forall. intros r Hr. apply forallb_forall. intros z Hz. destruct (H4 r Hr) as [_ H].
      specialize (H z Hz). lia.
    + symmetry. apply forallb_forall. intros r Hr. apply forallb_forall. intros z Hz. destruct (H4 r Hr) as [_ H].
      specialize (H z Hz). lia.
Qed.
Lemma new_mesh_valid vs fs m : new_mesh vs fs = Ok m -> valid m.
Proof.
  intros H. apply new_mesh_iff in H. destruct H as (_ & H4 & ->). intros f i Hf Hi. cbn in *.
  apply in_map_iff in Hf. destruct Hf as [r [<- Hr]]. destruct (H4 r Hr) as [L Hz]. rewrite map_length.
  destruct r as [|z0 [|z1 [|z2 [|z3 [|]]]]]; try discriminate. cbn in Hi.
  destruct Hi as [<-|[<-|[<-|[<-|[]]]]].
  - specialize (Hz z0). cbn in Hz. lia.
  - specialize (Hz z1). cbn in Hz. lia.
  - specialize (Hz z2). cbn in Hz. lia.
  - specialize (Hz z3). cbn in Hz. lia.
Qed.

(** ** Renumbering *)
Lemma position_Some x l k : position x l = Some k -> nth_error l k = Some x /\ (forall j, (j < k)%nat -> nth_error l j <> Some x).
Proof.
  revert k. induction l as [|y l IH]; [discriminate|]. intros k. cbn. destruct (Nat.eqb_spec x y) as [->|N].
  - intros H; injection H as <-. split; [reflexivity|]. intros j Hj; lia.
  - destruct (position x l) as [k'|]; [|discriminate]. cbn. intros H; injection H as <-.
    destruct (IH k' eq_refl) as [H1 H2]. split; [exact H1|]. intros [|j] Hj; cbn; [congruence|]. apply H2. lia.
Qed.
Lemma position_In x l : In x l -> exists k, position x l = Some k /\ (k < length l)%nat.
Proof.
  induction l as [|y l IH]; [easy|]. cbn. destruct (Nat.eqb_spec x y) as [->|N]; [exists 0%nat; cbn; split; [reflexivity|lia]|].
  intros [->|H]; [congruence|]. destruct (IH H) as (k & -> & L). exists (S k). cbn. split; [reflexivity|lia].
Qed.
Lemma new_id_In used i : In i used -> nth_error used (new_id used i) = Some i.
Proof. intros H. destruct (position_In i used H) as (k & E & _). unfold new_id. rewrite E. now apply position_Some in E. Qed.
Lemma new_id_lt used i : In i used -> (new_id used i < length used)%nat.
Proof. intros H. apply nth_error_Some. now rewrite new_id_In. Qed.
Lemma new_id_inj used i j : In i used -> In j used -> new_id used i = new_id used j -> i = j.
Proof. intros Hi Hj E. apply new_id_In in Hi, Hj. rewrite E in Hi. congruence. Qed.
Lemma new_id_nth used k i : NoDup used -> nth_error used k = Some i -> new_id used i = k.
Proof.
  intros N H. assert (Hi : In i used) by (eapply nth_error_In; eauto).
  pose proof (new_id_In used i Hi) as E. rewrite NoDup_nth_error in N. apply N; [now apply new_id_lt|congruence].
Qed.
Lemma used_vertices_In nv fs i : In i (used_vertices nv fs) <-> (i < nv)%nat /\ exists f, In f fs /\ In i (face_ids f).
Proof.
  unfold used_vertices. rewrite filter_In, in_seq, existsb_exists. split.
  - intros [L [f [H1 H2]]]. split; [lia|]. exists f. split; [exact H1|now apply memb_In].
  - intros [L [f [H1 H2]]]. split; [lia|]. exists f. split; [exact H1|now apply memb_In].
Qed.
Lemma used_vertices_NoDup nv fs : NoDup (used_vertices nv fs).
Proof. apply NoDup_filter, seq_NoDup. Qed.

(** ** Extraction *)
Section Renumber.
  Variable vs : list vec.
  Variable fs : list face.
  Hypothesis Hv : forall f i, In f fs -> In i (face_ids f) -> (i < length vs)%nat.
  Let used := used_vertices (length vs) fs.
  Lemma renumber_get : exists vs', mapM (get vs) used = Ok vs' /\ length vs' = length used
    /\ forall k i, nth_error used k = Some i -> nth_error vs' k = nth_error vs i.
  Proof.
    destruct (mapM_total (get vs) used) as [vs' E].
    { intros i Hi. apply used_vertices_In in Hi. apply get_lt. tauto. }
    exists vs'. split; [exact E|]. apply mapM_ok in E. destruct E as [L N]. split; [exact L|].
    intros k i H. destruct (N k i H) as (y & Hy & ->). apply get_ok in Hy. now symmetry.
  Qed.
  Lemma used_of_face f i : In f fs -> In i (face_ids f) -> In i used.
  Proof. intros Hf Hi. apply used_vertices_In. split; [now apply (Hv f)|]. now exists f. Qed.
  Lemma renumber_points vs' : (forall k i, nth_error used k = Some i -> nth_error vs' k = nth_error vs i) ->
    forall f, In f fs -> face_points vs' (face_map (new_id used) f) = face_points vs f.
  Proof.
    intros N f Hf. assert (E : forall i, In i (face_ids f) -> get vs' (new_id used i) = get vs i).
    { intros i Hi. unfold get. rewrite (N _ i); [reflexivity|]. apply new_id_In. now apply (used_of_face f). }
    unfold face_points. cbn [fa fb fc fd face_map].
    rewrite !E by (cbn; auto 6). reflexivity.
  Qed.
  Lemma renumber_tri f : In f fs -> is_tri (face_map (new_id used) f) = is_tri f.
  Proof.
    intros Hf. unfold is_tri. cbn. destruct (Nat.eqb_spec (fa f) (fd f)) as [->|N]; [apply Nat.eqb_refl|].
    apply Nat.eqb_neq. intros E. apply N. eapply new_id_inj; [| |exact E]; apply (used_of_face f); cbn; auto 6.
  Qed.
  Lemma renumber_props vs' : (forall k i, nth_error used k = Some i -> nth_error vs' k = nth_error vs i) ->
    forall f, In f fs -> face_props vs' (face_map (new_id used) f) = face_props vs f.
  Proof.
    intros N f Hf. unfold face_props. rewrite (renumber_points vs' N f Hf). destruct (face_points vs f); cbn [bind]; [|reflexivity].
    now rewrite renumber_tri.
  Qed.
  Lemma renumber_valid vs' : length vs' = length used -> valid (Mesh vs' (map (face_map (new_id used)) fs)).
  Proof.
    intros L f i Hf Hi. cbn in *. apply in_map_iff in Hf. destruct Hf as [g [<- Hg]]. rewrite L. cbn in Hi.
    destruct Hi as [<-|[<-|[<-|[<-|[]]]]]; apply new_id_lt, (used_of_face g); cbn; auto 6.
  Qed.
  Lemma renumber_used vs' : length vs' = length used -> all_used (Mesh vs' (map (face_map (new_id used)) fs)).
  Proof.
    intros L k Hk. cbn [m_vertices] in Hk. rewrite L in Hk.
    destruct (nth_error used k) as [i|] eqn:E; [|apply nth_error_None in E; lia].
    assert (Hi : In i used) by (eapply nth_error_In; eauto). apply used_vertices_In in Hi as [_ (f & Hf & Hi)].
    exists (face_map (new_id used) f). split; [cbn; apply in_map; exact Hf|].
    rewrite <- (new_id_nth used k i (used_vertices_NoDup _ _) E). cbn in *.
    destruct Hi as [<-|[<-|[<-|[<-|[]]]]]; auto 6.
  Qed.
End Renumber.

Lemma extract_faces_spec m ids : valid m -> (forall z, In z ids -> exists i, index_of (nb_faces m) z i) ->
  exists m' used, extract_faces m ids = Ok (m', used)
    /\ valid m' /\ all_used m' /\ nb_faces m' = length ids
    /\ (forall k z i a b c d, nth_error ids k = Some z -> index_of (nb_faces m) z i ->
          face_is m i a b c d -> face_is m' k a b c d)
    /\ (forall k z i ps ps' x, nth_error ids k = Some z -> index_of (nb_faces m) z i ->
          faces_props m = Ok ps -> faces_props m' = Ok ps' -> nth_error ps i = Some x -> nth_error ps' k = Some x)
    /\ length used = nb_vertices m'
    /\ (forall k i, nth_error used k = Some i -> nth_error (m_vertices m') k = nth_error (m_vertices m) i).
Proof.
  intros Vm Hids. unfold extract_faces.
  destruct (mapM_total (geti (m_faces m)) ids) as [fs E]. { intros z Hz. apply geti_total. now apply Hids. }
  rewrite E. cbn [bind]. apply mapM_ok in E. destruct E as [Lf Nf].
  assert (Hfs : forall f, In f fs -> In f (m_faces m)).
  { intros f Hf. apply In_nth_error in Hf. destruct Hf as [k Hk].
    destruct (nth_error ids k) as [z|] eqn:Ez.
    - destruct (Nf k z Ez) as (y & Hy & Hy'). rewrite Hk in Hy'. injection Hy' as <-.
      unfold geti in Hy. destruct (py_index (length (m_faces m)) z) as [i|]; [|discriminate].
      apply get_ok in Hy. eapply nth_error_In; eauto.
    - apply nth_error_None in Ez. assert (nth_error fs k <> None) by congruence. apply nth_error_Some in H. lia. }
  assert (Hv : forall f i, In f fs -> In i (face_ids f) -> (i < length (m_vertices m))%nat).
  { intros f i Hf Hi. apply (Vm f); [now apply Hfs|exact Hi]. }
  destruct (renumber_get (m_vertices m) fs) as (vs' & E & Lv & Nv). unfold nb_vertices. rewrite E. cbn [bind].
  set (used := used_vertices (length (m_vertices m)) fs) in *.
  assert (B : build_mesh vs' (map (face_map (new_id used)) fs) = Ok (Mesh vs' (map (face_map (new_id used)) fs))).
  { apply build_mesh_ok. split; [reflexivity|]. now apply renumber_valid. }
  rewrite B. cbn [bind]. exists (Mesh vs' (map (face_map (new_id used)) fs)), used. split; [reflexivity|].
  split; [now apply renumber_valid|]. split; [now apply renumber_used|].
  split; [unfold nb_faces; cbn; rewrite map_length; exact Lf|].
  assert (Hk : forall k z i f, nth_error ids k = Some z -> index_of (nb_faces m) z i -> nth_error (m_faces m) i = Some f ->
     nth_error fs k = Some f).
  { intros k z i f Hz Hi Hf. destruct (Nf k z Hz) as (y & Hy & ->). rewrite (geti_ok _ _ i f Hi Hf) in Hy. apply Ok_inj' in Hy. now subst. }
  split; [|split; [|split]].
  - intros k z i a b c d Hz Hi H. apply face_is_points in H. destruct H as (f & Hf & Hp).
    pose proof (Hk k z i f Hz Hi Hf) as Hf'. apply face_is_points. exists (face_map (new_id used) f). cbn.
    split; [now apply map_nth_error|]. unfold used. rewrite renumber_points; [exact Hp|exact Hv|exact Nv|].
    eapply nth_error_In; eauto.
  - intros k z i ps ps' x Hz Hi Hps Hps' Hx. apply mapM_ok in Hps, Hps'. destruct Hps as [L1 N1], Hps' as [L2 N2].
    destruct (nth_error (m_faces m) i) as [f|] eqn:Hf.
    2:{ apply nth_error_None in Hf. assert (nth_error ps i <> None) by congruence. apply nth_error_Some in H. lia. }
    pose proof (Hk k z i f Hz Hi Hf) as Hf'. destruct (N1 i f Hf) as (y & Hy & Hy'). rewrite Hx in Hy'. injection Hy' as <-.
    destruct (N2 k (face_map (new_id used) f)) as (y & H2 & H3); [cbn; now apply map_nth_error|].
    cbn [m_vertices] in H2. unfold used in H2. rewrite renumber_props in H2; [|exact Hv|exact Nv|eapply nth_error_In; eauto].
    rewrite Hy in H2. apply Ok_inj' in H2. now subst y.
  - now symmetry.
  - exact Nv.
Qed.
Lemma extract_faces_out_of_range m ids z : In z ids -> (forall i, ~ index_of (nb_faces m) z i) ->
  extract_faces m ids = Err IndexError.
Proof.
  intros Hz N. unfold extract_faces. rewrite (mapM_err _ ids z IndexError Hz); [reflexivity|now apply geti_err|].
  intros y e _ E. now apply geti_error_kind in E.
Qed.
