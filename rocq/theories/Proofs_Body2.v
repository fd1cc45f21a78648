(** Joining bodies. *)
From Coq Require Import Reals String Ascii List Bool Arith ZArith Lra Lia.
From Verif Require Import Model_Base Model_Geometry Model_Mesh Spec_Mesh Model_Quality Spec_Quality Model_Tree Spec_Tree
  Proofs_Geometry Proofs_Mesh Proofs_Mesh2 Proofs_Mesh3 Proofs_Quality Proofs_Tree Proofs_Tree2 Proofs_Symmetry
  Spec_Clip Proofs_Clip4 Proofs_Clip5 Proofs_Clip6 Model_Integrals Spec_Integrals Proofs_Integrals Model_Body Spec_Body Proofs_Body.
Import ListNotations.
Open Scope R_scope.

(** ** Same polygons *)
Lemma same_polygon_refl q : same_polygon q q.
Proof. destruct q as [[[a b] c] d]. now left. Qed.
Lemma same_polygon_sym q q' : same_polygon q q' -> same_polygon q' q.
Proof.
  destruct q as [[[a b] c] d], q' as [[[a' b'] c'] d']. unfold same_polygon.
  intros [E|[E|[E|E]]]; injection E as -> -> -> ->; auto.
Qed.
Lemma same_polygon_trans q q' q'' : same_polygon q q' -> same_polygon q' q'' -> same_polygon q q''.
Proof.
  destruct q as [[[a b] c] d], q' as [[[a' b'] c'] d'], q'' as [[[a2 b2] c2] d2]. unfold same_polygon.
  intros [E|[E|[E|E]]]; injection E as -> -> -> ->; intros [E|[E|[E|E]]]; injection E as -> -> -> ->; auto.
Qed.
Lemma Forall2_trans {A B C} (P : A -> B -> Prop) (Q : B -> C -> Prop) (R : A -> C -> Prop) :
  (forall a b c, P a b -> Q b c -> R a c) -> forall l l' l'', Forall2 P l l' -> Forall2 Q l' l'' -> Forall2 R l l''.
Proof.
  intros H l l' l'' F. revert l''. induction F as [|a b l l' Pab F IH]; intros l'' F'; inversion F'; subst; constructor; eauto.
Qed.
Lemma Forall2_flip' {A B} (P : A -> B -> Prop) (Q : B -> A -> Prop) : (forall a b, P a b -> Q b a) -> forall l l', Forall2 P l l' -> Forall2 Q l' l.
Proof. intros H l l' F. induction F; constructor; auto. Qed.
Lemma same_polygons_list_trans l l' l'' : Forall2 same_polygon l l' -> Forall2 same_polygon l' l'' -> Forall2 same_polygon l l''.
Proof. apply Forall2_trans. apply same_polygon_trans. Qed.

(** ** Healing of collections *)
Definition healed (m m' : mesh) : Prop :=
  tidy m' /\ nb_faces m' = nb_faces m
  /\ forall k a b c d, face_is m k a b c d -> exists a' b' c' d', face_is m' k a' b' c' d' /\ same_polygon (a, b, c, d) (a', b', c', d').
Lemma healed_polygons m m' qs : healed m m' -> polygons_of m qs -> exists qs', polygons_of m' qs' /\ Forall2 same_polygon qs qs'.
Proof.
  intros (T & N & H) P. destruct (polygons_exist m' (proj1 T)) as [qs' P']. exists qs'. split; [exact P'|].
  apply Forall2_nth. split.
  - rewrite (polygons_length _ _ P), (polygons_length _ _ P'). auto.
  - intros k q q' Hq Hq'. destruct q as [[[a b] c] d]. pose proof (polygons_face m qs k _ P Hq) as Fq.
    destruct (H k a b c d Fq) as (a' & b' & c' & d' & F' & S'). pose proof (face_polygons m' qs' k _ _ _ _ P' F'). congruence.
Qed.
Lemma healed_trees t t' qs : Forall2 healed (leaves t) (leaves t') -> tree_polygons t qs ->
  exists qs', tree_polygons t' qs' /\ Forall2 same_polygon qs qs'.
Proof.
  intros F (qss & Fq & ->). unfold tree_polygons. revert qss Fq. induction F as [|m m' l l' Hm F IH]; intros qss Fq; inversion Fq; subst.
  - exists []. split; [|constructor]. now exists [].
  - destruct (IH _ H3) as (qs' & (qss' & Fq' & ->) & S'). destruct (healed_polygons _ _ _ Hm H1) as (q & Pq & Sq).
    exists (q ++ concat qss'). split; [exists (q :: qss'); split; [now constructor|reflexivity]|]. cbn. now apply Forall2_app.
Qed.
Lemma healed_faces l l' : Forall2 healed l l' -> total_faces l' = total_faces l.
Proof. induction 1 as [|m m' l l' (T & N & H) F IH]; [reflexivity|]. rewrite !total_faces_cons. lia. Qed.
Section Heal.
  Variable argsort : list R -> list nat.
  Hypothesis Hs : sorts argsort.
  Variable heal_normals : mesh -> result mesh.

  Lemma heal_parts_tidy t : tidy_tree t -> exists t', heal_parts argsort heal_normals t = Ok t' /\ tidy_tree t'
    /\ Forall2 healed (leaves t) (leaves t') /\ (plain t -> plain t').
  Proof.
    induction t as [m|k l IH] using tree_induction; intros [F T].
    - destruct (heal_tidy argsort Hs heal_normals m) as (m' & E & T' & N & H); [apply T; now left|].
      exists (Leaf m'). cbn [heal_parts]. rewrite E. split; [reflexivity|]. split.
      + split; [constructor|]. intros x [<-|[]]. exact T'.
      + split; [constructor; [split; auto|constructor]|constructor].
    - apply filled_inv in F. destruct F as [Nl Fl]. cbn [heal_parts]. rewrite sequence_map.
      assert (G : forall l0, (forall x, In x l0 -> In x l) -> exists l', mapM (heal_parts argsort heal_normals) l0 = Ok l'
        /\ length l' = length l0 /\ (forall x, In x l' -> tidy_tree x) /\ Forall2 healed (concat (map leaves l0)) (concat (map leaves l'))
        /\ ((forall x, In x l0 -> plain x) -> forall x, In x l' -> plain x)).
      { induction l0 as [|x l0 IHl]; intros Hl0.
        - exists []. split; [reflexivity|]. split; [reflexivity|]. split; [intros x []|]. split; [constructor|intros _ x []].
        - destruct IHl as (l' & E & L & Tl & Hl & Pl); [intros y Hy; apply Hl0; now right|].
          destruct (IH x (Hl0 x (or_introl eq_refl))) as (x' & Ex & Tx & Hx & Px).
          { split; [apply Fl, Hl0; now left|]. intros m Hm. apply T. cbn. apply in_concat. exists (leaves x). split; [apply in_map, Hl0; now left|exact Hm]. }
          exists (x' :: l'). cbn [mapM]. rewrite Ex. cbn [bind]. rewrite E. cbn [bind]. split; [reflexivity|]. split; [cbn; now rewrite L|].
          split; [intros y [<-|Hy]; auto|]. split; [cbn; now apply Forall2_app|].
          intros P y [<-|Hy]; [apply Px, P; now left|]. apply Pl; [intros z Hz; apply P; now right|exact Hy]. }
      destruct (G l (fun x H => H)) as (l' & E & L & Tl & Hl & Pl). rewrite E. cbn [bind]. exists (Node k l'). split; [reflexivity|].
      split.
      + split.
        * constructor; [intros ->; destruct l; [contradiction|discriminate]|]. intros x Hx. now apply Tl.
        * intros m Hm. cbn in Hm. apply in_concat in Hm. destruct Hm as (ms & Hms & Hm). apply in_map_iff in Hms. destruct Hms as (x & <- & Hx).
          now apply (proj2 (Tl x Hx)).
      + split; [exact Hl|]. intros P. inversion P; subst. constructor. now apply Pl.
  Qed.
End Heal.

(** ** Lids *)
Definition lid_down (m : mesh) : mesh :=
  match faces_props m with
  | Ok ps => if forallb (fun p => allclose1 (vz (p_normal p)) 1) ps then flip_normals m else m
  | Err _ => m
  end.
Lemma flip_normal q : p_normal (face_of (poly_flip q)) = vopp (p_normal (face_of q)).
Proof.
  destruct q as [[[a b] c] d]. unfold face_of, poly_flip, quad_of, props_of, quad_props. cbn [qa qb qc qd].
  assert (E : cross (vsub b d) (vsub a c) = vopp (cross (vsub c a) (vsub d b))).
  { destruct a as [a1 a2 a3], b as [b1 b2 b3], c as [c1 c2 c3], d as [d1 d2 d3]. apply vec_ext; unfold cross; cbn; ring. }
  rewrite E, norm_opp. destruct (Rltb _ _); cbn [p_normal]; [apply vec_ext; cbn; ring|]. apply vec_ext; cbn; ring.
Qed.
Lemma lid_down_valid m : valid m -> valid (lid_down m).
Proof.
  intros Vm. unfold lid_down. destruct (faces_props m) as [ps|e]; [|exact Vm]. destruct (forallb _ ps); [|exact Vm]. now apply flip_valid.
Qed.
Lemma lid_down_faces m : nb_faces (lid_down m) = nb_faces m.
Proof. unfold lid_down. destruct (faces_props m) as [ps|e]; [|reflexivity]. destruct (forallb _ ps); [|reflexivity]. unfold nb_faces. cbn. apply map_length. Qed.
Lemma lid_down_twice m : valid m -> lid_down (lid_down m) = lid_down m.
Proof.
  intros Vm. destruct (polygons_exist m Vm) as [qs P]. unfold lid_down at 2 3. rewrite (leaf_props m qs P).
  destruct (forallb _ (map face_of qs)) eqn:E.
  - unfold lid_down. rewrite (leaf_props _ _ (leaf_polygons_flip m qs P)).
    destruct qs as [|q qs].
    + cbn. pose proof (polygons_length _ _ P) as L. cbn in L. destruct m as [vs [|f fs]]; [reflexivity|discriminate].
    + cbn [map forallb]. rewrite flip_normal. cbn [map forallb] in E. apply andb_true_iff in E. destruct E as [E _].
      assert (F : allclose1 (vz (vopp (p_normal (face_of q)))) 1 = false).
      { unfold allclose1 in *. apply Rleb_true in E. rewrite Rabs_R1 in *. destruct (Rleb _ _) eqn:G; [|reflexivity]. apply Rleb_true in G.
        cbn [vz vopp vscale] in G. revert E G. unfold Rabs. repeat destruct (Rcase_abs _); lra. }
      rewrite F. reflexivity.
  - unfold lid_down. rewrite (leaf_props m qs P), E. reflexivity.
Qed.
Lemma going_down_leaves t : all_valid t -> exists t', going_down t = Ok t' /\ leaves t' = map lid_down (leaves t)
  /\ (plain t -> plain t').
Proof.
  induction t as [m|k l IH] using tree_induction; intros Vt.
  - cbn [going_down]. assert (Vm : valid m) by (apply Vt; now left). destruct (valid_faces_props m Vm) as [ps E]. rewrite E. cbn [bind].
    destruct (forallb _ ps) eqn:B.
    + exists (Leaf (flip_normals m)). split; [reflexivity|]. split; [cbn; unfold lid_down; now rewrite E, B|constructor].
    + exists (Leaf m). split; [reflexivity|]. split; [cbn; unfold lid_down; now rewrite E, B|auto].
  - cbn [going_down]. rewrite sequence_map.
    assert (G : forall l0, (forall x, In x l0 -> In x l) -> exists l', mapM going_down l0 = Ok l'
        /\ concat (map leaves l') = map lid_down (concat (map leaves l0))
        /\ ((forall x, In x l0 -> plain x) -> forall x, In x l' -> plain x)).
    { induction l0 as [|x l0 IHl]; intros Hl0.
      - exists []. split; [reflexivity|]. split; [reflexivity|intros _ x []].
      - destruct IHl as (l' & E & L & Pl); [intros y Hy; apply Hl0; now right|].
        destruct (IH x (Hl0 x (or_introl eq_refl))) as (x' & Ex & Lx & Px).
        { intros m Hm. apply Vt. cbn. apply in_concat. exists (leaves x). split; [apply in_map, Hl0; now left|exact Hm]. }
        exists (x' :: l'). cbn [mapM]. rewrite Ex. cbn [bind]. rewrite E. cbn [bind]. split; [reflexivity|].
        split; [cbn [map concat]; now rewrite map_app, Lx, L|].
        intros P y [<-|Hy]; [apply Px, P; now left|]. apply Pl; [intros z Hz; apply P; now right|exact Hy]. }
    destruct (G l (fun x H => H)) as (l' & E & L & Pl). rewrite E. cbn [bind]. exists (Node k l'). split; [reflexivity|].
    split; [exact L|]. intros P. inversion P; subst. constructor. now apply Pl.
Qed.

(** ** Names and dofs *)
Lemma has_dunder_app s t : has_dunder t = true -> has_dunder (s ++ t) = true.
Proof.
  intros H. induction s as [|c s IH]; [exact H|]. cbn [append]. cbn [has_dunder]. destruct (s ++ t)%string as [|c' s'] eqn:E.
  - cbn in IH. discriminate.
  - rewrite IH. apply orb_true_r.
Qed.
Lemma has_dunder_prefix t : has_dunder ("__" ++ t) = true.
Proof. cbn. reflexivity. Qed.
Lemma assembly_dunder b n : has_dunder (name_in_assembly b n) = true.
Proof. unfold name_in_assembly. destruct (has_dunder n) eqn:E; [exact E|]. apply has_dunder_app, has_dunder_prefix. Qed.

Fixpoint flat_dofs (total off : nat) (bodies : list fbody) : list (string * list vec) :=
  match bodies with
  | [] => []
  | b :: rest => map (fun d => (name_in_assembly b (fst d), padded_dof off total (snd d))) (fb_dofs b)
                 ++ flat_dofs total (off + fb_nb_faces b) rest
  end.
Lemma flat_names total : forall bodies off, map fst (flat_dofs total off bodies) = names_in_assembly bodies.
Proof.
  induction bodies as [|b bodies IH]; intros off; [reflexivity|]. cbn [flat_dofs]. rewrite map_app, map_map, IH. reflexivity.
Qed.
Lemma dset_fresh {A} k (v : A) d : ~ In k (map fst d) -> dset k v d = d ++ [(k, v)].
Proof.
  induction d as [|[k' v'] d IH]; intros H; [reflexivity|]. cbn in *. destruct (String.eqb_spec k k') as [->|N]; [tauto|]. now rewrite IH by tauto.
Qed.
Lemma dset_names {A} k (v : A) d : In k (map fst d) -> map fst (dset k v d) = map fst d.
Proof.
  induction d as [|[k' v'] d IH]; intros H; [destruct H|]. cbn in *. destruct (String.eqb_spec k k') as [->|N]; [reflexivity|]. cbn. rewrite IH; [reflexivity|].
  destruct H as [->|H]; [contradiction|exact H].
Qed.
Lemma fold_dset {A B} (g : A -> string * B) : forall l acc, NoDup (map fst acc ++ map (fun d => fst (g d)) l) ->
  fold_left (fun acc d => dset (fst (g d)) (snd (g d)) acc) l acc = acc ++ map g l.
Proof.
  induction l as [|d l IH]; intros acc N; cbn [fold_left map]; [now rewrite app_nil_r|].
  rewrite dset_fresh.
  - rewrite IH.
    + rewrite <- app_assoc. cbn. now rewrite <- surjective_pairing.
    + rewrite map_app, <- app_assoc. exact N.
  - cbn in N. apply NoDup_remove_2 in N. intros H. apply N. apply in_or_app. now left.
Qed.
Lemma NoDup_app_left {A} (l l' : list A) : NoDup (l ++ l') -> NoDup l.
Proof.
  induction l as [|x l IH]; intros H; [constructor|]. cbn in H. apply NoDup_cons_iff in H. destruct H as [H H']. constructor; [|now apply IH].
  intros Hx. apply H. apply in_or_app. now left.
Qed.
Lemma combine_flat total : forall bodies off acc, NoDup (map fst acc ++ names_in_assembly bodies) ->
  combine_from total off bodies acc = acc ++ flat_dofs total off bodies.
Proof.
  induction bodies as [|b bodies IH]; intros off acc N; cbn [combine_from flat_dofs]; [now rewrite app_nil_r|].
  set (g := fun d : string * list vec => (name_in_assembly b (fst d), padded_dof off total (snd d))).
  change (fold_left _ (fb_dofs b) acc) with (fold_left (fun acc d => dset (fst (g d)) (snd (g d)) acc) (fb_dofs b) acc).
  unfold names_in_assembly in N. cbn [map concat] in N. rewrite app_assoc in N.
  rewrite fold_dset.
  - rewrite IH; [now rewrite <- app_assoc|]. rewrite map_app, map_map. exact N.
  - exact (NoDup_app_left _ _ N).
Qed.
Lemma padded_length off total rows : (off + length rows <= total)%nat -> length (padded_dof off total rows) = total.
Proof. intros H. unfold padded_dof. rewrite !app_length, !repeat_length. lia. Qed.
Lemma padded_inside off total rows i : (i < length rows)%nat -> nth_error (padded_dof off total rows) (off + i) = nth_error rows i.
Proof.
  intros H. unfold padded_dof. rewrite nth_error_app2 by (rewrite repeat_length; lia). rewrite repeat_length.
  replace (off + i - off)%nat with i by lia. now rewrite nth_error_app1.
Qed.
Lemma nth_error_repeat' {A} (x : A) n i : (i < n)%nat -> nth_error (repeat x n) i = Some x.
Proof. revert i. induction n as [|n IH]; intros [|i] H; cbn; try lia; [reflexivity|]. apply IH. lia. Qed.
Lemma padded_outside off total rows i : (off + length rows <= total)%nat -> (i < total)%nat -> (i < off \/ off + length rows <= i)%nat ->
  nth_error (padded_dof off total rows) i = Some (V 0 0 0).
Proof.
  intros H Hi Ho. unfold padded_dof. destruct Ho as [Ho|Ho].
  - rewrite nth_error_app1 by (rewrite repeat_length; lia). now apply nth_error_repeat'.
  - rewrite nth_error_app2 by (rewrite repeat_length; lia). rewrite nth_error_app2 by (rewrite repeat_length; lia). rewrite repeat_length.
    apply nth_error_repeat'. lia.
Qed.
Lemma flat_in total : forall bodies off k b name rows, nth_error bodies k = Some b -> In (name, rows) (fb_dofs b) ->
  In (name_in_assembly b name, padded_dof (off + faces_of_previous bodies k) total rows) (flat_dofs total off bodies).
Proof.
  induction bodies as [|b0 bodies IH]; intros off [|k] b name rows Hk Hd; try discriminate; cbn [flat_dofs]; apply in_or_app.
  - injection Hk as ->. left. unfold faces_of_previous. cbn [firstn map list_sum fold_right]. rewrite Nat.add_0_r.
    apply (in_map (fun d => (name_in_assembly b (fst d), padded_dof off total (snd d))) _ (name, rows) Hd).
  - right. unfold faces_of_previous. cbn [firstn map list_sum fold_right]. rewrite Nat.add_assoc. apply (IH _ k b name rows Hk Hd).
Qed.
Lemma previous_le bodies k b : nth_error bodies k = Some b -> (faces_of_previous bodies k + fb_nb_faces b <= list_sum (map fb_nb_faces bodies))%nat.
Proof.
  unfold faces_of_previous. revert k. induction bodies as [|b0 bodies IH]; intros [|k] H; try discriminate; cbn [firstn map].
  - injection H as ->. cbn. lia.
  - specialize (IH k H). cbn [list_sum fold_right] in *. unfold list_sum in *. lia.
Qed.
Lemma flat_assembled bodies : (forall b, In b bodies -> well_shaped b) ->
  assembled_dofs bodies (flat_dofs (list_sum (map fb_nb_faces bodies)) 0 bodies).
Proof.
  intros W. split; [apply flat_names|]. intros k b name rows Hk Hd. pose proof (W b (nth_error_In _ _ Hk) name rows Hd) as L.
  pose proof (previous_le bodies k b Hk) as Le. exists (padded_dof (faces_of_previous bodies k) (list_sum (map fb_nb_faces bodies)) rows).
  split; [apply (flat_in _ bodies 0 k b name rows Hk Hd)|]. split; [apply padded_length; lia|]. split.
  - intros i Hi. apply padded_inside. lia.
  - intros i Hi Ho. apply padded_outside; lia.
Qed.

(** ** Joins *)
(** What is asked of the bodies: meshes that need no healing and that copies do not change, dofs with the right shape, lids
    with faces, matrices labelled with the dofs. *)
Definition joined_lid (bodies : list fbody) : option (list mesh) :=
  match somes (map fb_lid bodies) with [] => None | lids => Some (map lid_down (concat (map leaves lids))) end.
Definition joined_com (bodies : list fbody) : option vec :=
  match all_set fb_mass bodies, all_set fb_com bodies with
  | Some ms, Some cs => Some (vscale (/ Rsum ms) (vsum (map (fun mc => vscale (fst mc) (snd mc)) (combine ms cs))))
  | _, _ => None
  end.
Definition joined_matrix (f : fbody -> option lmatrix) (bodies : list fbody) : option lmatrix :=
  option_map (fun ms => LM (names_in_assembly bodies) (block_diag (map lm_rows ms))) (all_set f bodies).
Lemma names_length bodies : length (names_in_assembly bodies) = list_sum (map (fun b => length (fb_dofs b)) bodies).
Proof.
  unfold names_in_assembly. induction bodies as [|b bodies IH]; [reflexivity|]. cbn [map concat list_sum fold_right]. rewrite app_length, map_length.
  unfold list_sum in IH. now rewrite IH.
Qed.
Lemma block_diag_shape (ms : list (list (list (option R)))) ns : Forall2 (fun m n => length m = n /\ forall r, In r m -> length r = n) ms ns ->
  length (block_diag ms) = list_sum ns /\ forall r, In r (block_diag ms) -> length r = list_sum ns.
Proof.
  induction 1 as [|m n ms ns [L Lr] F [IH IHr]]; [split; [reflexivity|intros r []]|]. cbn [block_diag].
  assert (T : length (map (fun r => r ++ repeat (Some 0) (length (block_diag ms))) m ++ map (fun r => repeat (Some 0) (length m) ++ r) (block_diag ms)) = list_sum (n :: ns)).
  { rewrite app_length, !map_length, IH, L. reflexivity. }
  split; [exact T|]. intros r Hr. apply in_app_or in Hr. destruct Hr as [Hr|Hr]; apply in_map_iff in Hr; destruct Hr as (r0 & <- & Hr0); rewrite app_length, repeat_length.
  - rewrite (Lr _ Hr0), IH. reflexivity.
  - rewrite (IHr _ Hr0), L. reflexivity.
Qed.
Lemma all_set_shape (f : fbody -> option lmatrix) : forall bodies ms, (forall b m, In b bodies -> f b = Some m -> square_for b m) -> all_set f bodies = Some ms ->
  Forall2 (fun m n => length m = n /\ forall r, In r m -> length r = n) (map lm_rows ms) (map (fun b => length (fb_dofs b)) bodies).
Proof.
  induction bodies as [|b bodies IH]; intros ms H E; cbn in E.
  - injection E as <-. constructor.
  - destruct (f b) as [m|] eqn:Em; [|discriminate]. destruct (all_set f bodies) as [ms'|] eqn:E'; [|discriminate]. injection E as <-. cbn. constructor.
    + destruct (H b m (or_introl eq_refl) Em) as (_ & L & Lr). auto.
    + apply IH; [|reflexivity]. intros b' m' Hb. apply H. now right.
Qed.
Lemma somes_in {A} (l : list (option A)) x : In x (somes l) <-> In (Some x) l.
Proof. induction l as [|[y|] l IH]; cbn; [tauto| |]; rewrite IH; intuition congruence. Qed.
Lemma dset_in {A} k (v : A) d x : In x (dset k v d) -> x = (k, v) \/ In x d.
Proof.
  induction d as [|[k' v'] d IH]; cbn; [intros [<-|[]]; auto|]. destruct (String.eqb k k'); cbn; intros [<-|H]; auto. destruct (IH H); auto.
Qed.
Lemma combine_in total : forall bodies off acc x, In x (combine_from total off bodies acc) -> In x acc \/ In x (flat_dofs total off bodies).
Proof.
  induction bodies as [|b bodies IH]; intros off acc x H; [now left|]. cbn [combine_from] in H. apply IH in H. cbn [flat_dofs]. rewrite in_app_iff.
  destruct H as [H|H]; [|auto].
  assert (G : forall l acc, In x (fold_left (fun acc d => dset (joined_name (fb_name b) (fst d)) (padded_dof off total (snd d)) acc) l acc) ->
     In x acc \/ In x (map (fun d => (name_in_assembly b (fst d), padded_dof off total (snd d))) l)).
  { clear. induction l as [|d l IH]; intros acc H; [now left|]. cbn [fold_left] in H. apply IH in H. cbn [map]. destruct H as [H|H]; [|right; now right].
    apply dset_in in H. destruct H as [->|H]; [right; left; reflexivity|now left]. }
  apply G in H. tauto.
Qed.

Section Join.
  Variable argsort : list R -> list nat.
  Hypothesis Hs : sorts argsort.
  Variable heal_normals : mesh -> result mesh.

  Lemma join_built bodies name : bodies <> [] -> (forall b, In b bodies -> joinable (set_matrices b None None)) ->
    (forall ms, all_set fb_mass bodies = Some ms -> Rsum ms <> 0) ->
    exists t lid, join_bodies argsort heal_normals bodies name
      = (let b := FB (match name with Some n => n | None => String.concat "+" (map fb_name bodies) end) t lid
              (combine_from (list_sum (map fb_nb_faces bodies)) 0 bodies []) (option_map Rsum (all_set fb_mass bodies)) (joined_com bodies) None None None None in
         let matrix f := option_bind (all_set f bodies) (fun ms => add_dofs_labels_to_matrix b (block_diag (map lm_rows ms))) in
         bind (matrix fb_inertia) (fun i => bind (matrix fb_stiffness) (fun s => Ok (set_matrices b i s))))
      /\ Forall2 healed (concat (map (fun b => leaves (fb_mesh b)) bodies)) (leaves t) /\ tidy_tree t
      /\ ((forall b, In b bodies -> plain (fb_mesh b)) -> plain t)
      /\ option_map leaves lid = joined_lid bodies
      /\ ((forall b l, In b bodies -> fb_lid b = Some l -> plain l) -> forall l, lid = Some l -> plain l).
  Proof.
    intros Nb J0 M.
    assert (J : forall b, In b bodies -> symmetric (fb_mesh b) /\ tidy_tree (fb_mesh b) /\ well_shaped b
      /\ (forall l, fb_lid b = Some l -> symmetric l /\ all_valid l /\ (0 < t_nb_faces l)%nat) /\ True).
    { intros b Hb. destruct (J0 b Hb) as (J1 & J2 & J3 & J4 & _). auto. }
    clear J0.
    assert (C : mapM (fun b => copy (fb_mesh b)) bodies = Ok (map fb_mesh bodies)).
    { clear - J. induction bodies as [|b bodies IH]; [reflexivity|]. cbn [mapM map]. destruct (J b (or_introl eq_refl)) as (S & _).
      rewrite (copy_ok _ S). cbn [bind]. rewrite IH; [reflexivity|]. intros b' H. apply J. now right. }
    unfold join_bodies. rewrite C. cbn [bind].
    set (lids := somes (map fb_lid bodies)).
    assert (Lc : mapM copy lids = Ok lids /\ forall l, In l lids -> all_valid l /\ (0 < t_nb_faces l)%nat).
    { assert (H : forall l, In l lids -> symmetric l /\ all_valid l /\ (0 < t_nb_faces l)%nat).
      { intros l Hl. unfold lids in Hl. apply somes_in in Hl. apply in_map_iff in Hl. destruct Hl as (b & E & Hb). now apply (J b Hb). }
      split; [|intros l Hl; apply (H l Hl)]. clear - H. induction lids as [|l ls IH]; [reflexivity|]. cbn [mapM].
      destruct (H l (or_introl eq_refl)) as (S & _). rewrite (copy_ok _ S). cbn [bind]. rewrite IH; [reflexivity|]. intros x Hx. apply H. now right. }
    destruct Lc as [Lc Lv].
    assert (Ll : (match lids with [] => Ok None | a :: l0 => bind (mapM copy (a :: l0)) (fun l => Ok (Some (Node Plain l))) end)
                 = Ok (match lids with [] => None | _ => Some (Node Plain lids) end)).
    { clearbody lids. destruct lids; [reflexivity|]. rewrite Lc. reflexivity. }
    rewrite Ll. cbn [bind]. clear Ll.
    assert (Ck : exists us, mapM fb_check bodies = Ok us).
    { apply mapM_total. intros b Hb. exists tt. unfold fb_check. destruct (forallb _ (fb_dofs b)) eqn:E; [reflexivity|]. exfalso.
      apply Bool.not_true_iff_false in E. apply E. apply forallb_forall. intros [n rows] Hr. apply Nat.eqb_eq.
      destruct (J b Hb) as (_ & _ & W & _). exact (W n rows Hr). }
    destruct Ck as [us Ck]. unfold combine_dofs. rewrite Ck. cbn [bind]. clear us Ck.
    set (total := list_sum (map fb_nb_faces bodies)). set (dofs := combine_from total 0 bodies []).
    assert (Ec : (match all_set fb_mass bodies, all_set fb_com bodies with
          | Some ms, Some cs => if Reqb (Rsum ms) 0 then Err ZeroDivisionError
            else Ok (Some (vscale (/ Rsum ms) (vsum (map (fun mc => vscale (fst mc) (snd mc)) (combine ms cs)))))
          | _, _ => Ok None end) = Ok (joined_com bodies)).
    { unfold joined_com. destruct (all_set fb_mass bodies) as [ms|] eqn:Em; [|reflexivity]. destruct (all_set fb_com bodies) as [cs|]; [|reflexivity].
      assert (E : Reqb (Rsum ms) 0 = false) by (destruct (Reqb (Rsum ms) 0) eqn:Er; [apply Reqb_true in Er; exfalso; exact (M ms eq_refl Er)|reflexivity]). now rewrite E. }
    rewrite Ec. cbn [bind]. clear Ec.
    (* the new mesh *)
    assert (Tn : tidy_tree (Node Plain (map fb_mesh bodies))).
    { split.
      - constructor; [destruct bodies; [contradiction|discriminate]|]. intros x Hx. apply in_map_iff in Hx. destruct Hx as (b & <- & Hb). apply (J b Hb).
      - intros m Hm. cbn in Hm. apply in_concat in Hm. destruct Hm as (ms & Hms & Hm). rewrite map_map in Hms. apply in_map_iff in Hms. destruct Hms as (b & <- & Hb).
        destruct (J b Hb) as (_ & [_ T] & _). now apply T. }
    destruct (heal_parts_tidy argsort Hs heal_normals _ Tn) as (t & Et & Tt & Ht & Pt).
    assert (Nm : exists m, In m (leaves (Node Plain (map fb_mesh bodies))) /\ (0 < nb_faces m)%nat /\ (0 < nb_vertices m)%nat).
    { destruct bodies as [|b bodies']; [contradiction|]. assert (Fb : filled (fb_mesh b)) by apply (J b (or_introl eq_refl)).
      assert (exists m, In m (leaves (fb_mesh b))) as [m Hm].
      { clear - Fb. induction (fb_mesh b) as [m|k l IH] using tree_induction; [exists m; now left|]. apply filled_inv in Fb. destruct Fb as [Nl Fl].
        destruct l as [|x l]; [contradiction|]. destruct (IH x (or_introl eq_refl) (Fl x (or_introl eq_refl))) as [m Hm]. exists m. cbn. apply in_or_app. now left. }
      exists m. assert (Hin : In m (leaves (Node Plain (map fb_mesh (b :: bodies'))))) by (cbn; apply in_or_app; now left). split; [exact Hin|].
      destruct (proj2 Tn m Hin) as (Vm & _ & Fm & _). unfold nb_faces, nb_vertices. destruct (m_faces m) as [|f fs] eqn:Ef; [contradiction|]. split; [cbn; lia|].
      pose proof (Vm f (fa f)) as H. rewrite Ef in H. specialize (H (or_introl eq_refl) (or_introl eq_refl)). lia. }
    destruct Nm as (m0 & Hm0 & F0 & V0).
    assert (Pos : Nat.ltb 0 (t_nb_vertices (Node Plain (map fb_mesh bodies))) && Nat.ltb 0 (t_nb_faces (Node Plain (map fb_mesh bodies))) = true).
    { rewrite nb_vertices_leaves, nb_faces_leaves. apply andb_true_iff. split; apply Nat.ltb_lt.
      - clear - Hm0 V0. unfold total_vertices. induction (leaves (Node Plain (map fb_mesh bodies))) as [|m ms IH]; [destruct Hm0|].
        cbn. destruct Hm0 as [->|H]; [lia|]. specialize (IH H). unfold list_sum in IH. lia.
      - clear - Hm0 F0. unfold total_faces. induction (leaves (Node Plain (map fb_mesh bodies))) as [|m ms IH]; [destruct Hm0|].
        cbn. destruct Hm0 as [->|H]; [lia|]. specialize (IH H). unfold list_sum in IH. lia. }
    assert (Nf : t_nb_faces t = total).
    { rewrite nb_faces_leaves, (healed_faces _ _ Ht), <- nb_faces_leaves. unfold total, fb_nb_faces. cbn [t_nb_faces]. now rewrite map_map. }
    (* the new lid *)
    assert (El : exists lid, (match match lids with [] => None | _ => Some (Node Plain lids) end with
       | None => Ok None
       | Some l => if Nat.eqb (t_nb_faces l) 0 then Ok None else bind (copy l) (fun c => bind (going_down c) (fun c' => Ok (Some c')))
       end) = Ok lid /\ option_map leaves lid = joined_lid bodies /\ ((forall l, In l lids -> plain l) -> forall l, lid = Some l -> plain l)).
    { unfold joined_lid. fold lids. destruct lids as [|l ls] eqn:E; [exists None; split; [reflexivity|split; [reflexivity|discriminate]]|].
      rewrite <- E in *. assert (N0 : Nat.eqb (t_nb_faces (Node Plain lids)) 0 = false).
      { apply Nat.eqb_neq. rewrite E. cbn [t_nb_faces map list_sum fold_right]. destruct (Lv l) as [_ ?]; [rewrite E; now left|]. lia. }
      rewrite N0. rewrite copy_ok.
      2:{ constructor. intros x Hx. unfold lids in Hx. apply somes_in in Hx. apply in_map_iff in Hx. destruct Hx as (b & E' & Hb).
          destruct (J b Hb) as (_ & _ & _ & Hl & _). now apply Hl. }
      cbn [bind]. destruct (going_down_leaves (Node Plain lids)) as (t' & Eg & Lg & Pg).
      { intros m Hm. cbn in Hm. apply in_concat in Hm. destruct Hm as (ms & Hms & Hm). apply in_map_iff in Hms. destruct Hms as (x & <- & Hx). now apply (Lv x Hx). }
      rewrite Eg. cbn [bind]. exists (Some t'). split; [reflexivity|]. split; [cbn [option_map]; rewrite Lg; rewrite E; reflexivity|].
      intros P l' [= <-]. apply Pg. constructor. exact P. }
    destruct El as (lid & El & Ll & Lp). unfold new_body. rewrite El. cbn [bind]. rewrite Pos.
    change (t_heal argsort heal_normals (Node Plain (map fb_mesh bodies))) with (heal_parts argsort heal_normals (Node Plain (map fb_mesh bodies))).
    rewrite Et. cbn [bind]. unfold fb_check at 1, fb_nb_faces at 1. cbn [fb_dofs fb_mesh].
    assert (W : forall b, In b bodies -> well_shaped b) by (intros b Hb; apply (J b Hb)).
    assert (Sh : forallb (fun d => Nat.eqb (length (snd d)) (t_nb_faces t)) dofs = true).
    { apply forallb_forall. intros [n rows] Hr. apply Nat.eqb_eq. rewrite Nf. cbn [snd].
      assert (G : forall bs off, (forall b, In b bs -> well_shaped b) -> (off + list_sum (map fb_nb_faces bs) <= total)%nat ->
                  In (n, rows) (flat_dofs total off bs) -> length rows = total).
      { clear. induction bs as [|b bs IH]; intros off W L H; [destruct H|]. cbn [flat_dofs] in H. cbn [map] in L. change (list_sum (fb_nb_faces b :: map fb_nb_faces bs)) with (fb_nb_faces b + list_sum (map fb_nb_faces bs))%nat in L.
        apply in_app_or in H. destruct H as [H|H].
        - apply in_map_iff in H. destruct H as ([n' r'] & E & Hd). injection E as <- <-. cbn. apply padded_length.
          rewrite (W b (or_introl eq_refl) n' r' Hd). lia.
        - apply (IH (off + fb_nb_faces b)%nat); [intros b' Hb'; apply W; now right|lia|exact H]. }
      apply combine_in in Hr. destruct Hr as [[]|Hr]. apply (G bodies 0%nat W); [unfold total; lia|exact Hr]. }
    rewrite Sh. cbn [bind].
    exists t, lid. split; [reflexivity|]. split; [cbn in Ht; rewrite map_map in Ht; exact Ht|]. split; [exact Tt|].
    split; [intros P; apply Pt; constructor; intros x Hx; apply in_map_iff in Hx; destruct Hx as (b & <- & Hb); now apply P|].
    split; [exact Ll|]. intros P. apply Lp. intros l Hl. unfold lids in Hl. apply somes_in in Hl. apply in_map_iff in Hl. destruct Hl as (b & E & Hb). now apply (P b).
  Qed.
  Lemma join_ok bodies name : bodies <> [] -> (forall b, In b bodies -> joinable b) -> NoDup (names_in_assembly bodies) ->
    (forall ms, all_set fb_mass bodies = Some ms -> Rsum ms <> 0) ->
    exists t lid, join_bodies argsort heal_normals bodies name
      = Ok (FB (match name with Some n => n | None => String.concat "+" (map fb_name bodies) end) t lid
              (flat_dofs (list_sum (map fb_nb_faces bodies)) 0 bodies) (option_map Rsum (all_set fb_mass bodies)) (joined_com bodies) None None
              (joined_matrix fb_inertia bodies) (joined_matrix fb_stiffness bodies))
      /\ Forall2 healed (concat (map (fun b => leaves (fb_mesh b)) bodies)) (leaves t) /\ tidy_tree t
      /\ ((forall b, In b bodies -> plain (fb_mesh b)) -> plain t)
      /\ option_map leaves lid = joined_lid bodies
      /\ ((forall b l, In b bodies -> fb_lid b = Some l -> plain l) -> forall l, lid = Some l -> plain l).
  Proof.
    intros Nb J Nd M. assert (J0 : forall b, In b bodies -> joinable (set_matrices b None None)).
    { intros b Hb. destruct (J b Hb) as (J1 & J2 & J3 & J4 & _). split; [exact J1|]. split; [exact J2|]. split; [exact J3|]. split; [exact J4|]. split; discriminate. }
    destruct (join_built bodies name Nb J0 M) as (t & lid & E & Ht & Tt & Pt & Ll & Lp). exists t, lid.
    split; [|auto]. rewrite E. cbv zeta. clear E. rewrite combine_flat by (cbn; exact Nd). cbn [app].
    set (total := list_sum (map fb_nb_faces bodies)). set (dofs := flat_dofs total 0 bodies).
    assert (Mx : forall f, (forall b m, In b bodies -> f b = Some m -> square_for b m) ->
      option_bind (all_set f bodies) (fun ms => add_dofs_labels_to_matrix
        (FB (match name with Some n => n | None => String.concat "+" (map fb_name bodies) end) t lid dofs (option_map Rsum (all_set fb_mass bodies)) (joined_com bodies) None None None None)
        (block_diag (map lm_rows ms))) = Ok (joined_matrix f bodies)).
    { intros f Sq. unfold joined_matrix. destruct (all_set f bodies) as [ms|] eqn:Ef; [|reflexivity]. cbn [option_bind option_map].
      unfold add_dofs_labels_to_matrix. cbn [fb_dofs]. unfold dofs. rewrite flat_names, names_length.
      destruct (block_diag_shape _ _ (all_set_shape f bodies ms Sq Ef)) as [B1 B2]. rewrite B1, Nat.eqb_refl.
      assert (F : forallb (fun r => Nat.eqb (length r) (list_sum (map (fun b => length (fb_dofs b)) bodies))) (block_diag (map lm_rows ms)) = true).
      { apply forallb_forall. intros r Hr. apply Nat.eqb_eq. now apply B2. }
      rewrite F. reflexivity. }
    rewrite (Mx fb_inertia) by (intros b m Hb; apply (J b Hb)). cbn [bind].
    rewrite (Mx fb_stiffness) by (intros b m Hb; apply (J b Hb)). cbn [bind].
    reflexivity.
  Qed.
End Join.
