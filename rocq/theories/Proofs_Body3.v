(** Associativity of the join of bodies. *)
From Coq Require Import Reals String Ascii List Bool Arith ZArith Lra Lia.
From Verif Require Import Model_Base Model_Geometry Model_Mesh Spec_Mesh Model_Quality Spec_Quality Model_Tree Spec_Tree
  Proofs_Geometry Proofs_Mesh Proofs_Mesh2 Proofs_Mesh3 Proofs_Quality Proofs_Tree Proofs_Tree2 Proofs_Symmetry
  Spec_Clip Proofs_Clip4 Proofs_Clip5 Proofs_Clip6 Model_Integrals Spec_Integrals Proofs_Integrals Model_Body Spec_Body Proofs_Body Proofs_Body2.
Import ListNotations.
Open Scope R_scope.

Lemma append_assoc (s t u : string) : ((s ++ t) ++ u)%string = (s ++ t ++ u)%string.
Proof. induction s as [|c s IH]; [reflexivity|]. cbn. now rewrite IH. Qed.
Lemma append_empty (s : string) : (s ++ "")%string = s.
Proof. induction s as [|c s IH]; [reflexivity|]. cbn. now rewrite IH. Qed.
Lemma concat_cons sep s l : l <> [] -> String.concat sep (s :: l) = (s ++ sep ++ String.concat sep l)%string.
Proof. destruct l; [contradiction|reflexivity]. Qed.
Lemma concat_app sep l l' : l <> [] -> l' <> [] -> String.concat sep (l ++ l') = (String.concat sep l ++ sep ++ String.concat sep l')%string.
Proof.
  intros N N'. induction l as [|s l IH]; [contradiction|]. destruct l as [|s' l].
  - cbn [app]. rewrite concat_cons by exact N'. reflexivity.
  - cbn [app]. rewrite (concat_cons sep s (s' :: l)) by discriminate. rewrite (concat_cons sep s (s' :: l ++ l')) by discriminate.
    rewrite !append_assoc. f_equal. f_equal. rewrite <- IH by discriminate. reflexivity.
Qed.
Lemma concat_nested sep pre mid post : mid <> [] ->
  String.concat sep (pre ++ [String.concat sep mid] ++ post) = String.concat sep (pre ++ mid ++ post).
Proof.
  intros N. assert (E : String.concat sep ([String.concat sep mid] ++ post) = String.concat sep (mid ++ post)).
  { destruct post as [|p post]; [now rewrite !app_nil_r|]. rewrite !(concat_app sep) by (auto; discriminate). reflexivity. }
  destruct pre as [|p pre]; [exact E|]. rewrite (concat_app sep (p :: pre)) by discriminate. rewrite E.
  rewrite (concat_app sep (p :: pre)); [reflexivity|discriminate|]. destruct mid; [contradiction|discriminate].
Qed.

(** ** Dofs *)
Lemma padded_padded off off0 n total rows : (off0 + length rows <= n)%nat -> (off + n <= total)%nat ->
  padded_dof off total (padded_dof off0 n rows) = padded_dof (off + off0) total rows.
Proof.
  intros H1 H2. unfold padded_dof. rewrite !app_length, !repeat_length. rewrite repeat_app, <- !app_assoc. do 2 f_equal. f_equal.
  rewrite <- repeat_app. f_equal. lia.
Qed.
Lemma flat_nested total n x : forall bodies off off0, (forall b, In b bodies -> well_shaped b) -> (off0 + list_sum (map fb_nb_faces bodies) <= n)%nat ->
  (off + n <= total)%nat ->
  map (fun d => (name_in_assembly x (fst d), padded_dof off total (snd d))) (flat_dofs n off0 bodies) = flat_dofs total (off + off0) bodies.
Proof.
  induction bodies as [|b bodies IH]; intros off off0 W H1 H2; [reflexivity|].
  cbn [flat_dofs]. cbn [map] in H1. change (list_sum (fb_nb_faces b :: map fb_nb_faces bodies)) with (fb_nb_faces b + list_sum (map fb_nb_faces bodies))%nat in H1.
  rewrite map_app, IH; [|intros b' Hb; apply W; now right|lia|lia]. rewrite Nat.add_assoc. f_equal.
  rewrite map_map. apply map_ext_in. intros [nm rows] Hr. cbn [fst snd]. f_equal.
  - unfold name_in_assembly at 1. now rewrite assembly_dunder.
  - apply padded_padded; [|lia]. rewrite (W b (or_introl eq_refl) nm rows Hr). lia.
Qed.
Lemma flat_app total : forall l l' off, flat_dofs total off (l ++ l') = flat_dofs total off l ++ flat_dofs total (off + list_sum (map fb_nb_faces l)) l'.
Proof.
  induction l as [|b l IH]; intros l' off; [now rewrite Nat.add_0_r|]. cbn [app flat_dofs]. rewrite IH, <- app_assoc. do 3 f_equal.
  cbn [map]. change (list_sum (fb_nb_faces b :: map fb_nb_faces l)) with (fb_nb_faces b + list_sum (map fb_nb_faces l))%nat. lia.
Qed.
Lemma names_app l l' : names_in_assembly (l ++ l') = names_in_assembly l ++ names_in_assembly l'.
Proof. unfold names_in_assembly. now rewrite map_app, List.concat_app. Qed.

(** ** Block diagonal matrices *)
Definition dsum (m1 m2 : list (list (option R))) : list (list (option R)) :=
  map (fun r => r ++ repeat (Some 0) (length m2)) m1 ++ map (fun r => repeat (Some 0) (length m1) ++ r) m2.
Lemma dsum_length m1 m2 : length (dsum m1 m2) = (length m1 + length m2)%nat.
Proof. unfold dsum. now rewrite app_length, !map_length. Qed.
Lemma dsum_assoc m1 m2 m3 : dsum m1 (dsum m2 m3) = dsum (dsum m1 m2) m3.
Proof.
  unfold dsum at 1 3. rewrite !dsum_length. unfold dsum. rewrite !map_app, !map_map, <- app_assoc. f_equal; [|f_equal].
  - apply map_ext. intros r. now rewrite <- app_assoc, <- repeat_app.
  - apply map_ext. intros r. now rewrite app_assoc.
  - apply map_ext. intros r. now rewrite app_assoc, <- repeat_app.
Qed.
Lemma dsum_nil_r m : dsum m [] = m.
Proof. unfold dsum. cbn [map length repeat]. rewrite app_nil_r. rewrite <- (map_id m) at 2. apply map_ext. intros r. apply app_nil_r. Qed.
Lemma dsum_nil_l m : dsum [] m = m.
Proof. unfold dsum. cbn. apply map_id. Qed.
Lemma block_dsum ms : block_diag ms = fold_right dsum [] ms.
Proof. induction ms as [|m ms IH]; [reflexivity|]. cbn [block_diag fold_right]. rewrite IH. reflexivity. Qed.
Lemma block_app l l' : block_diag (l ++ l') = dsum (block_diag l) (block_diag l').
Proof.
  rewrite !block_dsum. induction l as [|m l IH]; [symmetry; apply dsum_nil_l|]. cbn [app fold_right]. rewrite IH. apply dsum_assoc.
Qed.
Lemma block_one m : block_diag [m] = m.
Proof. rewrite block_dsum. apply dsum_nil_r. Qed.

(** ** Attributes that all the bodies have *)
Lemma all_set_app {A B} (f : A -> option B) l l' : all_set f (l ++ l') =
  match all_set f l, all_set f l' with Some x, Some y => Some (x ++ y) | _, _ => None end.
Proof.
  induction l as [|a l IH]; cbn [app all_set]; [now destruct (all_set f l')|]. rewrite IH. destruct (f a); [|reflexivity].
  destruct (all_set f l); [|reflexivity]. now destruct (all_set f l').
Qed.
Lemma all_set_length {A B} (f : A -> option B) l : forall l', all_set f l = Some l' -> length l' = length l.
Proof.
  induction l as [|a l IH]; intros l' E; cbn in E; [now injection E as <-|]. destruct (f a); [|discriminate]. destruct (all_set f l); [|discriminate].
  injection E as <-. cbn. now rewrite (IH _ eq_refl).
Qed.
Definition weighted (ms : list R) (cs : list vec) : vec := vsum (map (fun mc => vscale (fst mc) (snd mc)) (combine ms cs)).
Lemma combine_app' {A B} : forall (l1 l2 : list A) (r1 r2 : list B), length l1 = length r1 ->
  combine (l1 ++ l2) (r1 ++ r2) = combine l1 r1 ++ combine l2 r2.
Proof. induction l1 as [|a l1 IH]; intros l2 [|b r1] r2 L; try discriminate; [reflexivity|]. cbn. f_equal. apply IH. now injection L. Qed.
Lemma weighted_app m1 m2 c1 c2 : length m1 = length c1 -> weighted (m1 ++ m2) (c1 ++ c2) = vadd (weighted m1 c1) (weighted m2 c2).
Proof. intros L. unfold weighted. rewrite combine_app' by exact L. rewrite map_app. apply vsum_app. Qed.
Lemma weighted_one m c : weighted [m] [c] = vscale m c.
Proof. unfold weighted. cbn. apply vec_ext; cbn; ring. Qed.
Lemma somes_app {A} (l l' : list (option A)) : somes (l ++ l') = somes l ++ somes l'.
Proof. induction l as [|[x|] l IH]; cbn; [reflexivity| |]; now rewrite IH. Qed.

Lemma healed_trans m m' m'' : healed m m' -> healed m' m'' -> healed m m''.
Proof.
  intros (T & N & H) (T' & N' & H'). split; [exact T'|]. split; [congruence|]. intros k a b c d Hf.
  destruct (H k a b c d Hf) as (a1 & b1 & c1 & d1 & F1 & S1). destruct (H' k _ _ _ _ F1) as (a2 & b2 & c2 & d2 & F2 & S2).
  exists a2, b2, c2, d2. split; [exact F2|]. exact (same_polygon_trans _ _ _ S1 S2).
Qed.
Lemma tidy_healed m : tidy m -> healed m m.
Proof. intros T. split; [exact T|]. split; [reflexivity|]. intros k a b c d H. exists a, b, c, d. split; [exact H|apply same_polygon_refl]. Qed.
Lemma plain_symmetric t : plain t -> symmetric t.
Proof. induction t as [m|k l IH] using tree_induction; intros P; [constructor|]. inversion P; subst. constructor. intros x Hx. apply IH; auto. Qed.
Lemma lid_total l : total_faces (map lid_down l) = total_faces l.
Proof. induction l as [|m l IH]; [reflexivity|]. cbn [map]. rewrite !total_faces_cons, lid_down_faces, IH. reflexivity. Qed.

Section Assoc.
  Variable argsort : list R -> list nat.
  Hypothesis Hs : sorts argsort.
  Variable heal_normals : mesh -> result mesh.
  Notation join := (join_bodies argsort heal_normals).

  Lemma flat_well_shaped bodies n r : (forall b, In b bodies -> well_shaped b) ->
    In (n, r) (flat_dofs (list_sum (map fb_nb_faces bodies)) 0 bodies) -> length r = list_sum (map fb_nb_faces bodies).
  Proof.
    intros W. set (total := list_sum _). assert (G : forall bs off, (forall b, In b bs -> well_shaped b) -> (off + list_sum (map fb_nb_faces bs) <= total)%nat ->
                  In (n, r) (flat_dofs total off bs) -> length r = total).
    { clear. induction bs as [|b bs IH]; intros off W L H; [destruct H|]. cbn [flat_dofs] in H. cbn [map] in L. change (list_sum (fb_nb_faces b :: map fb_nb_faces bs)) with (fb_nb_faces b + list_sum (map fb_nb_faces bs))%nat in L.
      apply in_app_or in H. destruct H as [H|H].
      - apply in_map_iff in H. destruct H as ([n' r'] & E & Hd). injection E as <- <-. cbn. apply padded_length.
        rewrite (W b (or_introl eq_refl) n' r' Hd). lia.
      - apply (IH (off + fb_nb_faces b)%nat); [intros b' Hb'; apply W; now right|lia|exact H]. }
    intros H. apply (G bodies 0%nat W); [unfold total; lia|exact H].
  Qed.
  Lemma leaves_total bodies : list_sum (map fb_nb_faces bodies) = total_faces (concat (map (fun b => leaves (fb_mesh b)) bodies)).
  Proof.
    induction bodies as [|b bodies IH]; [reflexivity|]. cbn [map concat]. rewrite total_faces_app, <- IH. unfold fb_nb_faces at 1.
    rewrite <- nb_faces_leaves. reflexivity.
  Qed.
  Lemma joined_matrix_square f bodies m b : (forall b m, In b bodies -> f b = Some m -> square_for b m) -> joined_matrix f bodies = Some m ->
    fb_dofs b = flat_dofs (list_sum (map fb_nb_faces bodies)) 0 bodies -> square_for b m.
  Proof.
    intros Sq E Ed. unfold joined_matrix in E. destruct (all_set f bodies) as [ms|] eqn:Ef; [|discriminate]. injection E as <-.
    destruct (block_diag_shape _ _ (all_set_shape f bodies ms Sq Ef)) as [B1 B2].
    assert (L : length (fb_dofs b) = list_sum (map (fun b => length (fb_dofs b)) bodies)).
    { rewrite Ed, <- (map_length fst), flat_names. apply names_length. }
    unfold square_for. cbn [lm_labels lm_rows]. rewrite L, B1. split; [now rewrite Ed, flat_names|]. split; [reflexivity|exact B2].
  Qed.

  (** A join that contains a join. *)
  Lemma join_flatten pre mid post : mid <> [] ->
    (forall b, In b (pre ++ mid ++ post) -> joinable b /\ plain_body b) -> NoDup (names_in_assembly (pre ++ mid ++ post)) ->
    (forall ms, all_set fb_mass mid = Some ms -> Rsum ms <> 0) ->
    (forall ms, all_set fb_mass (pre ++ mid ++ post) = Some ms -> Rsum ms <> 0) ->
    exists x y z, join mid None = Ok x /\ join (pre ++ [x] ++ post) None = Ok y /\ join (pre ++ mid ++ post) None = Ok z /\ same_body y z.
  Proof.
    intros Nm J Nd Mm Mt.
    assert (Jm : forall b, In b mid -> joinable b /\ plain_body b) by (intros b Hb; apply J; rewrite !in_app_iff; auto).
    rewrite !names_app in Nd.
    assert (Ndm : NoDup (names_in_assembly mid)).
    { clear - Nd. induction (names_in_assembly pre) as [|s l IH]; [cbn [app] in Nd; exact (NoDup_app_left _ _ Nd)|]. cbn [app] in Nd. apply NoDup_cons_iff in Nd. tauto. }
    destruct (join_ok argsort Hs heal_normals mid None Nm (fun b Hb => proj1 (Jm b Hb)) Ndm Mm) as (tx & lx & Ex & Hx & Tx & Px & Lx & Plx).
    set (x := FB _ tx lx _ _ _ _ _ _ _) in Ex.
    assert (Wm : forall b, In b mid -> well_shaped b) by (intros b Hb; apply (Jm b Hb)).
    assert (Fx : fb_nb_faces x = list_sum (map fb_nb_faces mid)).
    { unfold fb_nb_faces at 1. cbn [x fb_mesh]. rewrite nb_faces_leaves, (healed_faces _ _ Hx). symmetry. apply leaves_total. }
    assert (Nx : names_in_assembly [x] = names_in_assembly mid).
    { unfold names_in_assembly at 1. cbn [map concat]. rewrite app_nil_r. cbn [x fb_dofs]. rewrite <- (flat_names (list_sum (map fb_nb_faces mid)) mid 0).
      apply map_ext_in. intros d Hd. unfold name_in_assembly.
      assert (In (fst d) (names_in_assembly mid)) by (rewrite <- (flat_names (list_sum (map fb_nb_faces mid)) mid 0); now apply in_map).
      unfold names_in_assembly in H. apply in_concat in H. destruct H as (l & Hl & Hin). apply in_map_iff in Hl. destruct Hl as (b & <- & _).
      apply in_map_iff in Hin. destruct Hin as (d' & E & _). rewrite <- E, assembly_dunder. reflexivity. }
    assert (Px' : plain tx) by (apply Px; intros b Hb; exact (proj1 (proj2 (Jm b Hb)))).
    assert (Plx' : forall l, lx = Some l -> plain l) by (apply Plx; intros b l Hb; exact (proj2 (proj2 (Jm b Hb)) l)).
    assert (Lv : forall b l m, In b mid -> fb_lid b = Some l -> In m (leaves l) -> valid m).
    { intros b l m Hb El Hm. destruct (Jm b Hb) as [(_ & _ & _ & Hl & _) _]. now apply (Hl l El). }
    assert (Jx : joinable x).
    { split; [apply plain_symmetric; exact Px'|]. split; [exact Tx|]. split.
      - intros n r Hr. cbn [x fb_dofs] in Hr. rewrite Fx. exact (flat_well_shaped mid n r Wm Hr).
      - split; [|split].
        + intros l El. cbn [x fb_lid] in El. subst lx. split; [apply plain_symmetric; now apply Plx'|].
          cbn [option_map] in Lx. unfold joined_lid in Lx. destruct (somes (map fb_lid mid)) as [|l0 ls] eqn:E0; [discriminate|].
          assert (Lx' : leaves l = map lid_down (concat (map leaves (l0 :: ls)))) by congruence. split.
          * intros m Hm. rewrite Lx' in Hm. apply in_map_iff in Hm. destruct Hm as (m0 & <- & Hm0). apply lid_down_valid.
            apply in_concat in Hm0. destruct Hm0 as (ms & Hms & Hm0). apply in_map_iff in Hms. destruct Hms as (l' & <- & Hl'). rewrite <- E0 in Hl'.
            apply somes_in in Hl'. apply in_map_iff in Hl'. destruct Hl' as (b & Eb & Hb). exact (Lv b l' m0 Hb Eb Hm0).
          * rewrite nb_faces_leaves, Lx', lid_total. cbn [map concat]. rewrite total_faces_app, <- nb_faces_leaves.
            assert (H0 : In l0 (somes (map fb_lid mid))) by (rewrite E0; now left). apply somes_in in H0. apply in_map_iff in H0. destruct H0 as (b & Eb & Hb).
            destruct (Jm b Hb) as [(_ & _ & _ & Hl & _) _]. destruct (Hl l0 Eb) as (_ & _ & Pos). lia.
        + intros m Em. apply (joined_matrix_square fb_inertia mid m x); [intros b m' Hb; destruct (Jm b Hb) as [(_ & _ & _ & _ & Q1 & Q2) _]; (exact (Q1 m') || exact (Q2 m'))|exact Em|reflexivity].
        + intros m Em. apply (joined_matrix_square fb_stiffness mid m x); [intros b m' Hb; destruct (Jm b Hb) as [(_ & _ & _ & _ & Q1 & Q2) _]; (exact (Q1 m') || exact (Q2 m'))|exact Em|reflexivity]. }
    (* masses *)
    assert (Ms : option_map Rsum (all_set fb_mass (pre ++ [x] ++ post)) = option_map Rsum (all_set fb_mass (pre ++ mid ++ post))).
    { rewrite !all_set_app. cbn [all_set x fb_mass]. destruct (all_set fb_mass pre); [|reflexivity]. destruct (all_set fb_mass mid); cbn [option_map]; [|reflexivity].
      destruct (all_set fb_mass post); [|reflexivity]. cbn [option_map]. f_equal. rewrite !Rsum_app, Rsum_cons, Rsum_nil. lra. }
    assert (Mt' : forall ms, all_set fb_mass (pre ++ [x] ++ post) = Some ms -> Rsum ms <> 0).
    { intros ms E. rewrite E in Ms. destruct (all_set fb_mass (pre ++ mid ++ post)) as [ms'|] eqn:E'; [|discriminate]. cbn in Ms. injection Ms as ->. now apply Mt. }
    assert (Nd2 : names_in_assembly (pre ++ [x] ++ post) = names_in_assembly (pre ++ mid ++ post)) by (rewrite !names_app, Nx; reflexivity).
    rewrite <- !names_app in Nd.
    assert (Jy : forall b, In b (pre ++ [x] ++ post) -> joinable b).
    { intros b Hb. rewrite !in_app_iff in Hb. destruct Hb as [Hb|[[<-|[]]|Hb]]; [apply J; rewrite !in_app_iff; auto|exact Jx|apply J; rewrite !in_app_iff; auto]. }
    destruct (join_ok argsort Hs heal_normals (pre ++ [x] ++ post) None) as (ty & ly & Ey & Hy & Ty & Py & Ly & Ply);
      [destruct pre; discriminate|exact Jy|now rewrite Nd2|exact Mt'|].
    destruct (join_ok argsort Hs heal_normals (pre ++ mid ++ post) None) as (tz & lz & Ez & Hz & Tz & Pz & Lz & Plz);
      [destruct pre; [|discriminate]; destruct mid; [contradiction|discriminate]|intros b Hb; apply (J b Hb)|exact Nd|exact Mt|].
    exists x. eexists. eexists. split; [exact Ex|]. split; [exact Ey|]. split; [exact Ez|].
    unfold same_body. cbn [fb_name fb_mesh fb_lid fb_dofs fb_mass fb_com fb_rc fb_gc fb_inertia fb_stiffness].
    assert (Tot : list_sum (map fb_nb_faces (pre ++ [x] ++ post)) = list_sum (map fb_nb_faces (pre ++ mid ++ post))).
    { rewrite !map_app, !list_sum_app. cbn [map]. change (list_sum [fb_nb_faces x]) with (fb_nb_faces x + 0)%nat. rewrite Fx. lia. }
    split.
    { rewrite !map_app. cbn [map]. change (fb_name x) with (String.concat "+" (map fb_name mid)). apply concat_nested. destruct mid; [contradiction|discriminate]. }
    split.
    { assert (Hy' : Forall2 healed (concat (map (fun b => leaves (fb_mesh b)) (pre ++ mid ++ post))) (leaves ty)).
      { rewrite !map_app, !List.concat_app in Hy. cbn [map concat] in Hy. rewrite app_nil_r in Hy. cbn [x fb_mesh] in Hy.
        apply Forall2_app_inv_l in Hy. destruct Hy as (r1 & r' & Hy1 & Hy' & ->). apply Forall2_app_inv_l in Hy'. destruct Hy' as (r2 & r3 & Hy2 & Hy3 & ->).
        rewrite !map_app, !List.concat_app. apply Forall2_app; [exact Hy1|]. apply Forall2_app; [|exact Hy3].
        exact (Forall2_trans healed healed healed healed_trans _ _ _ Hx Hy2). }
      set (T := Node Plain (map fb_mesh (pre ++ mid ++ post))).
      assert (LT : leaves T = concat (map (fun b => leaves (fb_mesh b)) (pre ++ mid ++ post))) by (cbn; now rewrite map_map).
      assert (exists qs, tree_polygons T qs) as [qs Pq].
      { assert (V : forall m, In m (leaves T) -> valid m).
        { intros m Hm. rewrite LT in Hm. apply in_concat in Hm. destruct Hm as (ms & Hms & Hm). apply in_map_iff in Hms. destruct Hms as (b & <- & Hb).
          destruct (J b Hb) as [(_ & [_ Tb] & _) _]. apply (Tb m Hm). }
        unfold tree_polygons. clear - V. induction (leaves T) as [|m ms IH]; [exists []; exists []; split; [constructor|reflexivity]|].
        destruct IH as (qs & qss & F & ->); [intros m' H; apply V; now right|]. destruct (polygons_exist m (V m (or_introl eq_refl))) as [q Pq].
        exists (q ++ concat qss), (q :: qss). split; [now constructor|reflexivity]. }
      rewrite <- LT in Hy', Hz. destruct (healed_trees T ty qs Hy' Pq) as (q1 & P1 & S1). destruct (healed_trees T tz qs Hz Pq) as (q2 & P2 & S2).
      exists q1, q2. split; [exact P1|]. split; [exact P2|]. apply (same_polygons_list_trans _ qs); [|exact S2].
      exact (Forall2_flip' same_polygon same_polygon same_polygon_sym _ _ S1). }
    split.
    { rewrite Ly, Lz. unfold joined_lid. rewrite !map_app, !somes_app. cbn [map somes]. cbn [x fb_lid].
      unfold joined_lid in Lx. destruct lx as [lx|]; cbn [option_map] in Lx.
      - destruct (somes (map fb_lid mid)) as [|l0 ls] eqn:E0; [discriminate|]. assert (Lx' : leaves lx = map lid_down (concat (map leaves (l0 :: ls)))) by congruence.
        assert (G : forall u v w : list tree, match u ++ v ++ w with [] => None | lids => Some (map lid_down (concat (map leaves lids))) end
          = match v with [] => match u ++ w with [] => None | lids => Some (map lid_down (concat (map leaves lids))) end
            | _ => Some (map lid_down (concat (map leaves u)) ++ map lid_down (concat (map leaves v)) ++ map lid_down (concat (map leaves w))) end).
        { intros u v w. destruct v as [|v0 v]; [reflexivity|]. rewrite <- !map_app, <- !List.concat_app, <- !map_app. now destruct u. }
        rewrite !G. cbn [somes]. f_equal. f_equal. f_equal. cbn [map concat]. rewrite app_nil_r, Lx'. rewrite map_map. apply map_ext_in. intros m Hm.
        apply lid_down_twice. change (In m (concat (map leaves (l0 :: ls)))) in Hm. apply in_concat in Hm. destruct Hm as (ms & Hms & Hm). apply in_map_iff in Hms. destruct Hms as (l' & <- & Hl'). rewrite <- E0 in Hl'.
        apply somes_in in Hl'. apply in_map_iff in Hl'. destruct Hl' as (b & Eb & Hb). exact (Lv b l' m Hb Eb Hm).
      - destruct (somes (map fb_lid mid)) as [|l0 ls] eqn:E0; [reflexivity|discriminate]. }
    split.
    { rewrite Tot. rewrite !flat_app. cbn [flat_dofs]. rewrite Nat.add_0_l. f_equal. cbn [map]. change (list_sum [fb_nb_faces x]) with (fb_nb_faces x + 0)%nat.
      rewrite Nat.add_0_r. cbn [app flat_dofs]. rewrite app_nil_r, Fx. f_equal. cbn [x fb_dofs].
      rewrite flat_nested; [now rewrite Nat.add_0_r|exact Wm|lia|]. rewrite !map_app, !list_sum_app. lia. }
    split; [exact Ms|]. split.
    { unfold joined_com. rewrite !all_set_app. cbn [all_set]. cbn [x fb_mass fb_com]. unfold joined_com.
      destruct (all_set fb_mass pre) as [m1|] eqn:E1; [|reflexivity]. destruct (all_set fb_mass mid) as [m2|] eqn:E2; cbn [option_map]; [|reflexivity].
      destruct (all_set fb_mass post) as [m3|] eqn:E3; [|reflexivity]. destruct (all_set fb_com pre) as [c1|] eqn:C1; [|reflexivity].
      destruct (all_set fb_com mid) as [c2|] eqn:C2; [|reflexivity]. destruct (all_set fb_com post) as [c3|] eqn:C3; [|reflexivity].
      fold (weighted m2 c2). fold (weighted (m1 ++ [Rsum m2] ++ m3) (c1 ++ [vscale (/ Rsum m2) (weighted m2 c2)] ++ c3)). fold (weighted (m1 ++ m2 ++ m3) (c1 ++ c2 ++ c3)).
      assert (L1 : length m1 = length c1) by (now rewrite (all_set_length _ _ _ E1), (all_set_length _ _ _ C1)).
      assert (L2 : length m2 = length c2) by (now rewrite (all_set_length _ _ _ E2), (all_set_length _ _ _ C2)).
      rewrite !weighted_app by (first [exact L1|exact L2|reflexivity]). rewrite weighted_one, !Rsum_app, Rsum_cons, Rsum_nil, Rplus_0_r.
      replace (vscale (Rsum m2) (vscale (/ Rsum m2) (weighted m2 c2))) with (weighted m2 c2); [reflexivity|].
      pose proof (Mm m2 eq_refl). destruct (weighted m2 c2) as [w1 w2 w3]. apply vec_ext; cbn; field; assumption. }
    split; [reflexivity|]. split; [reflexivity|].
    assert (Mx : forall f, f x = joined_matrix f mid -> joined_matrix f (pre ++ [x] ++ post) = joined_matrix f (pre ++ mid ++ post)).
    { intros f Ef. unfold joined_matrix. rewrite Nd2, !all_set_app. cbn [all_set]. rewrite Ef. unfold joined_matrix.
      destruct (all_set f pre) as [m1|]; [|reflexivity]. destruct (all_set f mid) as [m2|]; [|reflexivity]. cbn [option_map].
      destruct (all_set f post) as [m3|]; [|reflexivity]. cbn [option_map]. f_equal. f_equal. rewrite !map_app, !block_app. cbn [map lm_rows]. now rewrite block_one. }
    split; apply Mx; reflexivity.
  Qed.
End Assoc.
