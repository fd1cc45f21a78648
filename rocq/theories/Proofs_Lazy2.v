(** Proofs about the lazily computed properties of meshes: programs. *)
From Coq Require Import Reals List Bool ZArith Arith Lra Lia.
From Verif Require Import Model_Base Model_Geometry Model_Mesh Model_Quality Model_Tree Model_Clip Model_Quadrature
  Spec_Mesh Proofs_Geometry Proofs_Mesh Model_Lazy Spec_Lazy Proofs_Lazy.
Import ListNotations.
Open Scope nat_scope.

Section Programs.
  Variable argsort : list R -> list nat.
  Variable py_hash : list quad -> Z.
  Notation fresh := (fresh py_hash).
  Notation det := (det py_hash).
  Notation step := (step argsort py_hash).
  Notation run := (run argsort py_hash).

  Definition good (o : obj) : Prop := fresh (o_mesh o) (o_method o) (o_cache o).
  Definition sim (o1 o2 : obj) : Prop :=
    o_mesh o1 = o_mesh o2 /\ o_method o1 = o_method o2
    /\ c_quadrature (o_cache o1) = c_quadrature (o_cache o2) /\ good o1 /\ good o2.
  Ltac sims := refine (conj _ (conj _ (conj _ (conj _ _)))).
  Lemma det_sim {A} (x : act A) o1 o2 : det x -> sim o1 o2 -> fst (x o1) = fst (x o2) /\ sim (snd (x o1)) (snd (x o2)).
  Proof.
    intros H (E1 & E2 & E3 & G1 & G2). destruct o1 as [m c1 q], o2 as [m2 c2 q2]. unfold good in *. cbn in *. subst m2 q2.
    destruct (H m q (c_quadrature c2)) as (r & m' & q' & d' & K).
    destruct (K c1 G1 E3) as (c1' & X1 & F1 & D1). destruct (K c2 G2 eq_refl) as (c2' & X2 & F2 & D2).
    rewrite X1, X2. cbn. split; [reflexivity|]. sims; cbn; try congruence; assumption.
  Qed.
  Lemma sim_refl o : good o -> sim o o. Proof. intros G. sims; auto. Qed.

  Lemma access_spec a o : good o -> fst (do_access py_hash a o) = recomputed py_hash a (o_mesh o)
    /\ o_mesh (snd (do_access py_hash a o)) = o_mesh o
    /\ (forall o2, sim o o2 -> sim (snd (do_access py_hash a o)) o2).
  Proof.
    intros G. destruct o as [m c q]. unfold good in G. cbn [o_mesh o_cache o_method] in *.
    assert (T : forall A (x : act A) v, reads py_hash x v -> exists c', x (Obj m c q) = (v m, Obj m c' q)
      /\ forall o2, sim (Obj m c q) o2 -> sim (Obj m c' q) o2).
    { intros A x v R. destruct (R m q c G) as (c' & E & F & D). exists c'. split; [exact E|].
      intros o2 (E1 & E2 & E3 & G1 & G2). sims; cbn in *; try congruence; assumption. }
    destruct a; cbn [do_access recomputed].
    - destruct (T _ _ _ (reads_ids py_hash)) as (c' & E & S). rewrite E. auto.
    - destruct (T _ _ _ (reads_props py_hash)) as (c' & E & S). rewrite E. auto.
    - destruct (T _ _ _ (reads_nodes py_hash)) as (c' & E & S). rewrite E. auto.
    - destruct (T _ _ _ (reads_diameter py_hash)) as (c' & E & S). rewrite E. auto.
    - destruct (T _ _ _ (reads_hash py_hash)) as (c' & E & S). rewrite E. auto.
  Qed.
  Lemma sim_good_left o1 o2 : sim o1 o2 -> good o1. Proof. intros (_ & _ & _ & G & _). exact G. Qed.
  Lemma sim_good_right o1 o2 : sim o1 o2 -> good o2. Proof. intros (_ & _ & _ & _ & G). exact G. Qed.
  Lemma access_good a o : good o -> good (snd (do_access py_hash a o)).
  Proof. intros G. apply sim_good_left with (o2 := o). apply (access_spec a o G). apply sim_refl. exact G. Qed.
  Lemma do_transform_sim t o1 o2 : sim o1 o2 ->
    fst (do_transform argsort t o1) = fst (do_transform argsort t o2)
    /\ sim (snd (do_transform argsort t o1)) (snd (do_transform argsort t o2)).
  Proof.
    intros S. assert (T := det_sim _ o1 o2 (det_transform argsort py_hash t) S).
    destruct t; cbn [do_transform];
      try solve [destruct (transform argsort _ o1) as [r1 o1'], (transform argsort _ o2) as [r2 o2']; cbn in *; destruct T as [-> T]; auto].
    - assert (T' := det_sim _ o1 o2 (det_compute_quadrature py_hash method) S).
      destruct (compute_quadrature method o1) as [r1 o1'], (compute_quadrature method o2) as [r2 o2']. cbn in *. destruct T' as [-> T']. auto.
    - assert (T' := det_sim _ o1 o2 (det_read_quadrature py_hash) S).
      destruct (read_quadrature o1) as [r1 o1'], (read_quadrature o2) as [r2 o2']. cbn in *. destruct T' as [-> T']. auto.
  Qed.

  (** ** Extraction *)
  Lemma new_obj_good m l : (forall r, l = Some r -> exists x, r = Rows x /\ faces_props m = Ok x) -> good (new_obj m l).
  Proof. intros H. repeat split; cbn; try discriminate. exact H. Qed.
  Definition outcome (r1 r2 : result obj) : Prop :=
    match r1, r2 with Ok o1, Ok o2 => sim o1 o2 | Err e1, Err e2 => e1 = e2 | _, _ => False end.
  Lemma extract_good o ids : good o -> forall m' u, extract_faces (o_mesh o) ids = Ok (m', u) ->
    exists l, cached_rows o ids = Ok l /\ good (new_obj m' l).
  Proof.
    intros G m' u X. unfold cached_rows. destruct (c_props (o_cache o)) as [r|] eqn:C.
    - destruct G as (_ & G & _). destruct (G r C) as (l & -> & P).
      destruct (extract_props _ _ _ _ _ P X) as (ps' & E & P'). cbn [rows_at]. rewrite E. cbn [bind].
      eexists. split; [reflexivity|]. apply new_obj_good. intros r H. injection H as <-. eauto.
    - exists None. split; [reflexivity|]. apply new_obj_good. discriminate.
  Qed.
  Lemma extract_sim o1 o2 ids : sim o1 o2 -> outcome (obj_extract o1 ids) (obj_extract o2 ids).
  Proof.
    intros (E1 & _ & _ & G1 & G2). unfold obj_extract.
    destruct (extract_faces (o_mesh o1) ids) as [[m' u]|e] eqn:X.
    - destruct (extract_good o1 ids G1 _ _ X) as (l1 & C1 & H1). rewrite E1 in X. rewrite X.
      destruct (extract_good o2 ids G2 _ _ X) as (l2 & C2 & H2). cbn [bind fst]. rewrite C1, C2. cbn [bind].
      sims; try reflexivity; assumption.
    - rewrite E1 in X. rewrite X. reflexivity.
  Qed.
  Lemma extract_one_good o i : good o -> forall m', extract_one_face (o_mesh o) i = Ok m' ->
    exists l, cached_rows o [i] = Ok l /\ good (new_obj m' l).
  Proof.
    intros G m' X. unfold cached_rows. destruct (c_props (o_cache o)) as [r|] eqn:C.
    - destruct G as (_ & G & _). destruct (G r C) as (l & -> & P).
      destruct (extract_one_props _ _ _ _ P X) as (x & E & P'). cbn [rows_at mapM]. rewrite E. cbn [bind].
      eexists. split; [reflexivity|]. apply new_obj_good. intros r H. injection H as <-. eauto.
    - exists None. split; [reflexivity|]. apply new_obj_good. discriminate.
  Qed.
  Lemma extract_one_sim o1 o2 i : sim o1 o2 -> outcome (obj_extract_one o1 i) (obj_extract_one o2 i).
  Proof.
    intros (E1 & _ & _ & G1 & G2). unfold obj_extract_one.
    destruct (extract_one_face (o_mesh o1) i) as [m'|e] eqn:X.
    - destruct (extract_one_good o1 i G1 _ X) as (l1 & C1 & H1). rewrite E1 in X. rewrite X.
      destruct (extract_one_good o2 i G2 _ X) as (l2 & C2 & H2). cbn [bind fst]. rewrite C1, C2. cbn [bind].
      sims; try reflexivity; assumption.
    - rewrite E1 in X. rewrite X. reflexivity.
  Qed.

  (** ** Statements *)
  Lemma f2_nth {A B} (R : A -> B -> Prop) l l' k : Forall2 R l l' ->
    match nth_error l k, nth_error l' k with Some a, Some b => R a b | None, None => True | _, _ => False end.
  Proof. intros H. revert k. induction H; intros [|k]; cbn; auto. apply IHForall2. Qed.
  Lemma f2_set {A B} (R : A -> B -> Prop) l l' k a b : Forall2 R l l' -> R a b -> k < length l ->
    Forall2 R (set_nth k a l) (set_nth k b l').
  Proof.
    intros H Hab. revert k. induction H; intros k L; [cbn in L; lia|]. destruct k as [|k]; unfold set_nth; cbn; [constructor; auto|].
    constructor; auto. apply IHForall2. cbn in L. lia.
  Qed.
  Lemma on_object_sim s1 s2 k f : Forall2 sim s1 s2 ->
    (forall o1 o2, sim o1 o2 -> fst (f o1) = fst (f o2) /\ sim (snd (f o1)) (snd (f o2))) ->
    fst (on_object s1 k f) = fst (on_object s2 k f) /\ Forall2 sim (snd (on_object s1 k f)) (snd (on_object s2 k f)).
  Proof.
    intros H Hf. unfold on_object. assert (N := f2_nth _ _ _ k H).
    destruct (nth_error s1 k) as [o1|] eqn:N1, (nth_error s2 k) as [o2|] eqn:N2; try contradiction; [|auto].
    specialize (Hf o1 o2 N). destruct (f o1) as [v1 o1'], (f o2) as [v2 o2']. cbn in *. destruct Hf as [-> Hf].
    split; [reflexivity|]. apply f2_set; auto. apply nth_error_Some. congruence.
  Qed.
  Lemma create_sim s1 s2 k f : Forall2 sim s1 s2 -> (forall o1 o2, sim o1 o2 -> outcome (f o1) (f o2)) ->
    fst (create s1 k f) = fst (create s2 k f) /\ Forall2 sim (snd (create s1 k f)) (snd (create s2 k f)).
  Proof.
    intros H Hf. unfold create. assert (N := f2_nth _ _ _ k H).
    destruct (nth_error s1 k) as [o1|] eqn:N1, (nth_error s2 k) as [o2|] eqn:N2; try contradiction; [|auto].
    specialize (Hf o1 o2 N). unfold outcome in Hf. destruct (f o1) as [o1'|e1], (f o2) as [o2'|e2]; try contradiction; cbn.
    - split; [reflexivity|]. apply Forall2_app; auto.
    - subst. auto.
  Qed.
  Lemma access_sim a o1 o2 : sim o1 o2 -> fst (do_access py_hash a o1) = fst (do_access py_hash a o2)
    /\ sim (snd (do_access py_hash a o1)) (snd (do_access py_hash a o2)).
  Proof.
    intros S. assert (G1 := sim_good_left _ _ S). assert (G2 := sim_good_right _ _ S).
    destruct (access_spec a o1 G1) as (V1 & M1 & S1). destruct (access_spec a o2 G2) as (V2 & M2 & S2).
    rewrite V1, V2, (proj1 S). split; [reflexivity|]. apply S1 in S.
    assert (S2' : sim (snd (do_access py_hash a o2)) o2) by (apply S2, sim_refl, G2).
    destruct S as (A1 & A2 & A3 & A4 & A5). destruct S2' as (B1 & B2 & B3 & B4 & B5). sims; try congruence; assumption.
  Qed.
  Lemma step_sim s1 s2 c : regular c = true -> Forall2 sim s1 s2 ->
    fst (step s1 c) = fst (step s2 c) /\ Forall2 sim (snd (step s1 c)) (snd (step s2 c)).
  Proof.
    intros R H. destruct c; try discriminate; cbn [Model_Lazy.step].
    - split; [reflexivity|]. cbn. apply Forall2_app; auto. constructor; [|constructor]. apply sim_refl, new_obj_good. discriminate.
    - apply on_object_sim; auto. intros; apply access_sim; auto.
    - apply on_object_sim; auto. intros; apply do_transform_sim; auto.
    - apply create_sim; auto.
    - apply create_sim; auto. intros; apply extract_sim; auto.
    - apply create_sim; auto. intros; apply extract_one_sim; auto.
  Qed.
  Lemma run_sim p : Forall (fun c => regular c = true) p -> forall s1 s2, Forall2 sim s1 s2 ->
    fst (run s1 p) = fst (run s2 p) /\ Forall2 sim (snd (run s1 p)) (snd (run s2 p)).
  Proof.
    induction 1 as [|c p R _ IH]; intros s1 s2 H; [cbn; auto|]. cbn [Model_Lazy.run].
    destruct (step_sim s1 s2 c R H) as [V S]. destruct (step s1 c) as [v1 s1'], (step s2 c) as [v2 s2']. cbn in V, S. subst v2.
    destruct (IH s1' s2' S) as [V' S']. destruct (run s1' p), (run s2' p). cbn in *. subst. auto.
  Qed.
  Lemma access_left s1 s2 k a : Forall2 sim s1 s2 -> Forall2 sim (snd (step s1 (Access k a))) s2.
  Proof.
    intros H. cbn [Model_Lazy.step]. unfold on_object. assert (N := f2_nth _ _ _ k H).
    destruct (nth_error s1 k) as [o1|] eqn:N1, (nth_error s2 k) as [o2|] eqn:N2; try contradiction; [|auto].
    destruct (access_spec a o1 (sim_good_left _ _ N)) as (_ & _ & S). specialize (S o2 N).
    destruct (do_access py_hash a o1) as [v1 o1']. cbn in *.
    assert (E : s2 = set_nth k o2 s2).
    { unfold set_nth. clear - N2. revert s2 N2. induction k as [|k IH]; intros [|x s2] N2; try discriminate; cbn in *.
      - congruence.
      - f_equal. apply IH. exact N2. }
    rewrite E. apply f2_set; auto. apply nth_error_Some. congruence.
  Qed.
  (** Removing the statements that look at properties. *)
  Lemma run_without_accesses p : Forall (fun c => regular c = true) p -> forall s1 s2, Forall2 sim s1 s2 ->
    other_outputs p (fst (run s1 p)) = fst (run s2 (filter (fun c => negb (is_access c)) p))
    /\ Forall2 sim (snd (run s1 p)) (snd (run s2 (filter (fun c => negb (is_access c)) p))).
  Proof.
    induction 1 as [|c p R _ IH]; intros s1 s2 H; [cbn; auto|].
    destruct (is_access c) eqn:Ac.
    - destruct c; try discriminate. cbn [Model_Lazy.run filter is_access negb]. assert (S := access_left s1 s2 k a H).
      destruct (step s1 (Access k a)) as [v s1'] eqn:E. cbn [snd] in S. destruct (IH s1' s2 S) as [V' S'].
      destruct (run s1' p) as [vs s1'']. cbn in *. auto.
    - cbn [filter]. rewrite Ac. cbn [negb Model_Lazy.run]. destruct (step_sim s1 s2 c R H) as [V S].
      destruct (step s1 c) as [v1 s1'], (step s2 c) as [v2 s2']. cbn in V, S. subst v2.
      destruct (IH s1' s2' S) as [V' S']. destruct (run s1' p) as [vs s1''], (run s2' (filter _ p)) as [vs2 s2'']. cbn in *.
      unfold other_outputs in *. cbn [combine filter fst]. rewrite Ac. cbn [negb map snd]. rewrite V'. auto.
  Qed.
  Lemma run_good p : Forall (fun c => regular c = true) p -> Forall good (snd (run [] p)).
  Proof.
    intros R. destruct (run_sim p R [] [] (Forall2_nil _)) as [_ S].
    revert S. generalize (snd (run [] p)) at 1 3. intros l. generalize (snd (run [] p)).
    intros l' S. induction S; constructor; auto. eapply sim_good_left; eauto.
  Qed.
  Lemma same_meshes l l' : Forall2 sim l l' -> map o_mesh l = map o_mesh l'.
  Proof. induction 1 as [|o1 o2 l l' H _ IH]; [reflexivity|]. cbn. rewrite IH, (proj1 H). reflexivity. Qed.
  Lemma quadrature_read o : good o ->
    let (v, o') := do_transform argsort Quadrature o in
    v = ShowQuadrature (quadrature_of (o_mesh o') (o_method o'))
    /\ (o_mesh o' = o_mesh o \/ o_mesh o' = heal_triangles (o_mesh o)) /\ o_method o' = o_method o.
  Proof.
    intros G. destruct o as [m c q]. cbn [do_transform]. unfold read_quadrature. cbn [o_cache o_method o_mesh].
    destruct (c_quadrature c) as [x|] eqn:C.
    - cbn [o_mesh o_method]. destruct G as (_ & _ & _ & _ & G & _). cbn in G. rewrite (G x C). auto.
    - destruct (compute_quadrature_spec py_hash q m q c) as (c' & q' & E & _ & M). rewrite E. cbn [o_mesh o_method].
      assert (q' = q) by (destruct (quadrature_of (heal_triangles m) q); tauto). subst. auto.
  Qed.
End Programs.
