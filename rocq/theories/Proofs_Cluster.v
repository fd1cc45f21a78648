(** Clusters of bodies: joins of joins. *)
From Coq Require Import Reals String Ascii List Bool Arith ZArith Lra Lia.
From Verif Require Import Model_Base Model_Geometry Model_Mesh Spec_Mesh Model_Quality Spec_Quality Model_Tree Spec_Tree
  Proofs_Geometry Proofs_Mesh Proofs_Mesh2 Proofs_Mesh3 Proofs_Quality Proofs_Tree Proofs_Tree2 Proofs_Symmetry
  Spec_Clip Proofs_Clip4 Proofs_Clip5 Proofs_Clip6 Model_Integrals Spec_Integrals Proofs_Integrals Model_Body Spec_Body Proofs_Body Proofs_Body2 Proofs_Body3.
Import ListNotations.
Open Scope R_scope.

Notation all_faces L := (list_sum (map fb_nb_faces L)).
Notation all_leaves L := (concat (map (fun b => leaves (fb_mesh b)) L)).

(** ** What a join keeps from the bodies *)
Definition moment (b : fbody) : option vec := match fb_mass b, fb_com b with Some m, Some c => Some (vscale m c) | _, _ => None end.
Definition moments (L : list fbody) : option vec :=
  match all_set fb_mass L, all_set fb_com L with Some ms, Some cs => Some (weighted ms cs) | _, _ => None end.
Definition down_lid (b : fbody) : option (list mesh) := option_map (fun l => map lid_down (leaves l)) (fb_lid b).
Definition oapp {A} (f : A -> A -> A) (a b : option A) : option A :=
  match a, b with Some x, Some y => Some (f x y) | Some x, None => Some x | None, b => b end.
Definition obind2 {A} (f : A -> A -> A) (a b : option A) : option A :=
  match a, b with Some x, Some y => Some (f x y) | _, _ => None end.
Definition diag (f : fbody -> option lmatrix) (L : list fbody) : option (list (list (option R))) :=
  option_map (fun ms => block_diag (map lm_rows ms)) (all_set f L).

Lemma joined_lid_app L L' : joined_lid (L ++ L') = oapp (@app mesh) (joined_lid L) (joined_lid L').
Proof.
  unfold joined_lid. rewrite map_app, somes_app. destruct (somes (map fb_lid L)) as [|a l]; destruct (somes (map fb_lid L')) as [|a' l']; cbn [app oapp].
  - reflexivity.
  - reflexivity.
  - now rewrite app_nil_r.
  - change (a :: l ++ a' :: l') with ((a :: l) ++ (a' :: l')). now rewrite map_app, List.concat_app, map_app.
Qed.
Lemma joined_lid_one b : joined_lid [b] = down_lid b.
Proof. unfold joined_lid, down_lid. cbn [map somes]. destruct (fb_lid b) as [l|]; cbn [somes option_map]; [|reflexivity]. cbn [map concat]. now rewrite app_nil_r. Qed.
Lemma mass_app L L' : option_map Rsum (all_set fb_mass (L ++ L')) = obind2 Rplus (option_map Rsum (all_set fb_mass L)) (option_map Rsum (all_set fb_mass L')).
Proof.
  rewrite all_set_app. destruct (all_set fb_mass L); [|reflexivity]. destruct (all_set fb_mass L'); [|reflexivity]. cbn. now rewrite Rsum_app.
Qed.
Lemma mass_one b : option_map Rsum (all_set fb_mass [b]) = fb_mass b.
Proof. cbn [all_set]. destruct (fb_mass b); [|reflexivity]. cbn [option_map]. f_equal. rewrite Rsum_cons, Rsum_nil. lra. Qed.
Lemma moments_app L L' : moments (L ++ L') = obind2 vadd (moments L) (moments L').
Proof.
  unfold moments. rewrite !all_set_app. destruct (all_set fb_mass L) as [m|] eqn:E1; [|reflexivity].
  destruct (all_set fb_com L) as [c|] eqn:E2; [|now destruct (all_set fb_mass L')].
  destruct (all_set fb_mass L') as [m'|]; [|reflexivity]. destruct (all_set fb_com L') as [c'|]; [|reflexivity]. cbn [obind2]. f_equal. apply weighted_app.
  now rewrite (all_set_length _ _ _ E1), (all_set_length _ _ _ E2).
Qed.
Lemma moments_one b : moments [b] = moment b.
Proof. unfold moments, moment. cbn [all_set]. destruct (fb_mass b); [|reflexivity]. destruct (fb_com b); [|reflexivity]. now rewrite weighted_one. Qed.
Lemma diag_app f L L' : diag f (L ++ L') = obind2 dsum (diag f L) (diag f L').
Proof.
  unfold diag. rewrite all_set_app. destruct (all_set f L); [|reflexivity]. destruct (all_set f L'); [|reflexivity]. cbn. now rewrite map_app, block_app.
Qed.
Lemma diag_one f b : diag f [b] = option_map lm_rows (f b).
Proof. unfold diag. cbn [all_set]. destruct (f b); [|reflexivity]. cbn [option_map map]. now rewrite block_one. Qed.
Lemma joined_com_moments L : joined_com L = match moments L, option_map Rsum (all_set fb_mass L) with Some w, Some m => Some (vscale (/ m) w) | _, _ => None end.
Proof. unfold joined_com, moments. destruct (all_set fb_mass L); [|reflexivity]. now destruct (all_set fb_com L). Qed.
Lemma joined_matrix_diag f L : joined_matrix f L = option_map (LM (names_in_assembly L)) (diag f L).
Proof. unfold joined_matrix, diag. now destruct (all_set f L). Qed.

(** The body [x] can stand for the bodies [L] in a join. *)
Definition stands (L : list fbody) (x : fbody) : Prop :=
  L <> [] /\ joinable x /\ plain_body x
  /\ Forall2 healed (all_leaves L) (leaves (fb_mesh x))
  /\ down_lid x = joined_lid L
  /\ map (fun d => (name_in_assembly x (fst d), snd d)) (fb_dofs x) = flat_dofs (all_faces L) 0 L
  /\ fb_mass x = option_map Rsum (all_set fb_mass L)
  /\ moment x = moments L
  /\ option_map lm_rows (fb_inertia x) = diag fb_inertia L
  /\ option_map lm_rows (fb_stiffness x) = diag fb_stiffness L.
Lemma stands_one b : joinable b -> plain_body b -> stands [b] b.
Proof.
  intros J P. split; [discriminate|]. split; [exact J|]. split; [exact P|].
  destruct J as (J1 & [_ J2] & J3 & J4). split.
  { cbn [map concat]. rewrite app_nil_r. clear - J2. induction (leaves (fb_mesh b)) as [|m l IH]; constructor; [apply tidy_healed; apply J2; now left|].
    apply IH. intros m' H. apply J2. now right. }
  split; [symmetry; apply joined_lid_one|]. split.
  { cbn [flat_dofs]. rewrite app_nil_r. apply map_ext_in. intros [n r] H. cbn [fst snd]. f_equal. unfold padded_dof.
    rewrite (J3 n r H). cbn [map]. change (list_sum [fb_nb_faces b]) with (fb_nb_faces b + 0)%nat.
    replace (fb_nb_faces b + 0 - 0 - fb_nb_faces b)%nat with 0%nat by lia. cbn. now rewrite app_nil_r. }
  split; [symmetry; apply mass_one|]. split; [symmetry; apply moments_one|]. split; symmetry; apply diag_one.
Qed.
Lemma stands_faces L x : stands L x -> fb_nb_faces x = all_faces L.
Proof. intros (_ & _ & _ & H & _). rewrite leaves_total. unfold fb_nb_faces. rewrite nb_faces_leaves. exact (healed_faces _ _ H). Qed.
Lemma stands_names L x : stands L x -> names_in_assembly [x] = names_in_assembly L.
Proof.
  intros (_ & _ & _ & _ & _ & H & _). unfold names_in_assembly at 1. cbn [map concat]. rewrite app_nil_r.
  rewrite <- (flat_names (all_faces L) L 0), <- H, map_map. reflexivity.
Qed.
(** The dofs of [x], put among others. *)
Lemma stands_flat L x total off : (forall b, In b L -> well_shaped b) -> stands L x -> (off + all_faces L <= total)%nat -> flat_dofs total off [x] = flat_dofs total off L.
Proof.
  intros W H Le. pose proof H as (_ & _ & _ & _ & _ & D & _). cbn [flat_dofs]. rewrite app_nil_r.
  transitivity (map (fun d => (name_in_assembly x (fst d), padded_dof off total (snd d))) (map (fun d => (name_in_assembly x (fst d), snd d)) (fb_dofs x))).
  - rewrite map_map. apply map_ext. intros [n r]. cbn [fst snd]. f_equal. unfold name_in_assembly at 2. now rewrite assembly_dunder.
  - rewrite D. rewrite (flat_nested total (all_faces L) x L off 0 W); [now rewrite Nat.add_0_r|lia|exact Le].
Qed.

Section Pairs.
  Variable argsort : list R -> list nat.
  Hypothesis Hs : sorts argsort.
  Variable heal_normals : mesh -> result mesh.
  Notation join := (join_bodies argsort heal_normals).

  Lemma join_kept L name : L <> [] -> (forall b, In b L -> joinable b /\ plain_body b) -> NoDup (names_in_assembly L) ->
    (forall ms, all_set fb_mass L = Some ms -> Rsum ms <> 0) ->
    exists x, join L (Some name) = Ok x /\ fb_name x = name /\ joinable x /\ plain_body x /\ Forall2 healed (all_leaves L) (leaves (fb_mesh x))
      /\ option_map leaves (fb_lid x) = joined_lid L /\ fb_dofs x = flat_dofs (all_faces L) 0 L /\ fb_mass x = option_map Rsum (all_set fb_mass L)
      /\ fb_com x = joined_com L /\ fb_rc x = None /\ fb_gc x = None /\ fb_inertia x = joined_matrix fb_inertia L /\ fb_stiffness x = joined_matrix fb_stiffness L.
  Proof.
    intros N J Nd M.
    destruct (join_ok argsort Hs heal_normals L (Some name) N (fun b Hb => proj1 (J b Hb)) Nd M) as (tx & lx & Ex & Hx & Tx & Px & Lx & Plx).
    eexists. split; [exact Ex|]. cbn [fb_name fb_mesh fb_lid fb_dofs fb_mass fb_com fb_rc fb_gc fb_inertia fb_stiffness].
    split; [reflexivity|].
    assert (Px' : plain tx) by (apply Px; intros b Hb; exact (proj1 (proj2 (J b Hb)))).
    assert (Plx' : forall l, lx = Some l -> plain l) by (apply Plx; intros b l Hb; exact (proj2 (proj2 (J b Hb)) l)).
    assert (W : forall b, In b L -> well_shaped b) by (intros b Hb; apply (J b Hb)).
    assert (Lv : forall b l m, In b L -> fb_lid b = Some l -> In m (leaves l) -> valid m).
    { intros b l m Hb El Hm. destruct (J b Hb) as [(_ & _ & _ & Hl & _) _]. now apply (Hl l El). }
    split; [|split; [split; [exact Px'|exact Plx']|]; repeat (split; [assumption || reflexivity|]); reflexivity].
    split; [apply plain_symmetric; exact Px'|]. split; [exact Tx|]. split.
    - intros n r Hr. cbn [fb_dofs] in Hr. unfold fb_nb_faces at 1. cbn [fb_mesh]. rewrite nb_faces_leaves, (healed_faces _ _ Hx), <- leaves_total.
      exact (flat_well_shaped L n r W Hr).
    - split; [|split].
      + intros l El. cbn [fb_lid] in El. subst lx. split; [apply plain_symmetric; now apply Plx'|].
        cbn [option_map] in Lx. unfold joined_lid in Lx. destruct (somes (map fb_lid L)) as [|l0 ls] eqn:E0; [discriminate|].
        assert (Lx' : leaves l = map lid_down (concat (map leaves (l0 :: ls)))) by congruence. split.
        * intros m Hm. rewrite Lx' in Hm. apply in_map_iff in Hm. destruct Hm as (m0 & <- & Hm0). apply lid_down_valid.
          apply in_concat in Hm0. destruct Hm0 as (ms & Hms & Hm0). apply in_map_iff in Hms. destruct Hms as (l' & <- & Hl'). rewrite <- E0 in Hl'.
          apply somes_in in Hl'. apply in_map_iff in Hl'. destruct Hl' as (b & Eb & Hb). exact (Lv b l' m0 Hb Eb Hm0).
        * rewrite nb_faces_leaves, Lx', lid_total. cbn [map concat]. rewrite total_faces_app, <- nb_faces_leaves.
          assert (H0 : In l0 (somes (map fb_lid L))) by (rewrite E0; now left). apply somes_in in H0. apply in_map_iff in H0. destruct H0 as (b & Eb & Hb).
          destruct (J b Hb) as [(_ & _ & _ & Hl & _) _]. destruct (Hl l0 Eb) as (_ & _ & Pos). lia.
      + intros m Em. cbn [fb_inertia] in Em. eapply (joined_matrix_square fb_inertia L m); [intros b m' Hb; destruct (J b Hb) as [(_ & _ & _ & _ & Q1 & Q2) _]; exact (Q1 m')|exact Em|reflexivity].
      + intros m Em. cbn [fb_stiffness] in Em. eapply (joined_matrix_square fb_stiffness L m); [intros b m' Hb; destruct (J b Hb) as [(_ & _ & _ & _ & Q1 & Q2) _]; exact (Q2 m')|exact Em|reflexivity].
  Qed.

  (** Joining two bodies that stand for others. *)
  Lemma join_pair L1 x1 L2 x2 name : (forall b, In b (L1 ++ L2) -> joinable b /\ plain_body b) -> stands L1 x1 -> stands L2 x2 ->
    NoDup (names_in_assembly (L1 ++ L2)) -> (forall ms, all_set fb_mass (L1 ++ L2) = Some ms -> Rsum ms <> 0) ->
    exists y z, join [x1; x2] (Some name) = Ok y /\ join (L1 ++ L2) (Some name) = Ok z /\ same_body y z /\ stands (L1 ++ L2) y.
  Proof.
    intros J S1 S2 Nd M.
    pose proof (stands_names _ _ S1) as N1. pose proof (stands_names _ _ S2) as N2.
    pose proof (stands_faces _ _ S1) as F1. pose proof (stands_faces _ _ S2) as F2.
    assert (W1 : forall b, In b L1 -> well_shaped b) by (intros b Hb; apply J; apply in_or_app; now left).
    assert (W2 : forall b, In b L2 -> well_shaped b) by (intros b Hb; apply J; apply in_or_app; now right).
    assert (Fl : flat_dofs (all_faces (L1 ++ L2)) 0 (L1 ++ L2) = flat_dofs (all_faces [x1; x2]) 0 [x1; x2]).
    { replace (all_faces [x1; x2]) with (all_faces (L1 ++ L2)) by (rewrite map_app, list_sum_app; cbn [map]; change (list_sum [fb_nb_faces x1; fb_nb_faces x2]) with (fb_nb_faces x1 + (fb_nb_faces x2 + 0))%nat; lia).
      change [x1; x2] with ([x1] ++ [x2]). rewrite !flat_app. change (map fb_nb_faces [x1]) with [fb_nb_faces x1]. change (list_sum [fb_nb_faces x1]) with (fb_nb_faces x1 + 0)%nat.
      rewrite Nat.add_0_r, F1. rewrite (stands_flat L1 x1 _ _ W1 S1), (stands_flat L2 x2 _ _ W2 S2); [reflexivity| |]; rewrite map_app, list_sum_app; lia. }
    assert (Ns : names_in_assembly [x1; x2] = names_in_assembly (L1 ++ L2)).
    { change [x1; x2] with ([x1] ++ [x2]). now rewrite !names_app, N1, N2. }
    destruct S1 as (P1 & J1 & Q1 & H1 & D1 & O1 & M1 & C1 & I1 & T1). destruct S2 as (P2 & J2 & Q2 & H2 & D2 & O2 & M2 & C2 & I2 & T2).
    assert (Ms : option_map Rsum (all_set fb_mass [x1; x2]) = option_map Rsum (all_set fb_mass (L1 ++ L2))).
    { change [x1; x2] with ([x1] ++ [x2]). now rewrite !mass_app, !mass_one, M1, M2. }
    assert (Cs : moments [x1; x2] = moments (L1 ++ L2)).
    { change [x1; x2] with ([x1] ++ [x2]). now rewrite !moments_app, !moments_one, C1, C2. }
    assert (Is : diag fb_inertia [x1; x2] = diag fb_inertia (L1 ++ L2)).
    { change [x1; x2] with ([x1] ++ [x2]). now rewrite !diag_app, !diag_one, I1, I2. }
    assert (Ts : diag fb_stiffness [x1; x2] = diag fb_stiffness (L1 ++ L2)).
    { change [x1; x2] with ([x1] ++ [x2]). now rewrite !diag_app, !diag_one, T1, T2. }
    assert (Ds : joined_lid [x1; x2] = joined_lid (L1 ++ L2)).
    { change [x1; x2] with ([x1] ++ [x2]). now rewrite !joined_lid_app, !joined_lid_one, D1, D2. }
    destruct (join_kept [x1; x2] name) as (y & Ey & Yn & Yj & Yp & Yh & Yl & Yd & Ym & Yc & Yr & Yg & Yi & Yt); [discriminate| | | |].
    { intros b [<-|[<-|[]]]; now split. }
    { now rewrite Ns. }
    { intros ms E. rewrite E in Ms. destruct (all_set fb_mass (L1 ++ L2)) as [ms'|] eqn:E'; [|discriminate]. cbn in Ms. injection Ms as ->. now apply M. }
    destruct (join_kept (L1 ++ L2) name) as (z & Ez & Zn & Zj & Zp & Zh & Zl & Zd & Zm & Zc & Zr & Zg & Zi & Zt); [destruct L1; [contradiction|discriminate]|exact J|exact Nd|exact M|].
    assert (Hy : Forall2 healed (all_leaves (L1 ++ L2)) (leaves (fb_mesh y))).
    { cbn [map concat] in Yh. rewrite app_nil_r in Yh. apply Forall2_app_inv_l in Yh. destruct Yh as (r1 & r2 & A1 & A2 & ->).
      rewrite map_app, List.concat_app. apply Forall2_app; [exact (Forall2_trans healed healed healed healed_trans _ _ _ H1 A1)|exact (Forall2_trans healed healed healed healed_trans _ _ _ H2 A2)]. }
    exists y, z. split; [exact Ey|]. split; [exact Ez|]. split.
    - split; [congruence|]. split.
      { set (T := Node Plain (map fb_mesh (L1 ++ L2))).
        assert (LT : leaves T = all_leaves (L1 ++ L2)) by (cbn; now rewrite map_map).
        assert (exists qs, tree_polygons T qs) as [qs Pq].
        { assert (V : forall m, In m (leaves T) -> valid m).
          { intros m Hm. rewrite LT in Hm. apply in_concat in Hm. destruct Hm as (ms & Hms & Hm). apply in_map_iff in Hms. destruct Hms as (b & <- & Hb).
            destruct (J b Hb) as [(_ & [_ Tb] & _) _]. apply (Tb m Hm). }
          unfold tree_polygons. clear - V. induction (leaves T) as [|m ms IH]; [exists []; exists []; split; [constructor|reflexivity]|].
          destruct IH as (qs & qss & F & ->); [intros m' H; apply V; now right|]. destruct (polygons_exist m (V m (or_introl eq_refl))) as [q Pq].
          exists (q ++ concat qss), (q :: qss). split; [now constructor|reflexivity]. }
        rewrite <- LT in Hy, Zh. destruct (healed_trees T _ qs Hy Pq) as (q1 & R1 & E1). destruct (healed_trees T _ qs Zh Pq) as (q2 & R2 & E2).
        exists q1, q2. split; [exact R1|]. split; [exact R2|]. apply (same_polygons_list_trans _ qs); [|exact E2].
        exact (Forall2_flip' same_polygon same_polygon same_polygon_sym _ _ E1). }
      split; [congruence|]. split; [congruence|]. split; [congruence|]. split; [rewrite Yc, Zc, !joined_com_moments, Ms, Cs; reflexivity|].
      split; [congruence|]. split; [congruence|]. split.
      + rewrite Yi, Zi, !joined_matrix_diag. now rewrite Is, Ns.
      + rewrite Yt, Zt, !joined_matrix_diag. now rewrite Ts, Ns.
    - split; [destruct L1; [contradiction|discriminate]|]. split; [exact Yj|]. split; [exact Yp|]. split; [exact Hy|]. split.
      { rewrite <- Ds. unfold down_lid. destruct (fb_lid y) as [l|] eqn:E; cbn [option_map] in Yl |- *; [|exact Yl]. rewrite <- Yl. f_equal.
        change (joined_lid [x1; x2]) with (joined_lid ([x1] ++ [x2])) in Yl. rewrite joined_lid_app, !joined_lid_one in Yl.
        assert (G : forall x, joinable x -> forall ms, down_lid x = Some ms -> map lid_down ms = ms).
        { intros x (_ & _ & _ & Hl & _) ms Em. unfold down_lid in Em. destruct (fb_lid x) as [lx|] eqn:El; [|discriminate]. cbn [option_map] in Em. injection Em as <-.
          rewrite map_map. apply map_ext_in. intros m Hm. apply lid_down_twice. now apply (Hl lx eq_refl). }
        unfold oapp in Yl. destruct (down_lid x1) as [a|] eqn:Ea; destruct (down_lid x2) as [b|] eqn:Eb; try discriminate.
        - assert (X : leaves l = a ++ b) by congruence. rewrite X, map_app. now rewrite (G x1 J1 a Ea), (G x2 J2 b Eb).
        - assert (X : leaves l = a) by congruence. rewrite X. exact (G x1 J1 a Ea).
        - assert (X : leaves l = b) by congruence. rewrite X. exact (G x2 J2 b Eb). }
      split.
      { rewrite Fl, Yd. symmetry. rewrite <- (map_id (flat_dofs _ 0 [x1; x2])) at 1. apply map_ext_in. intros [n r] Hd. cbn [fst snd]. f_equal. symmetry.
        unfold name_in_assembly. assert (Hn : In n (names_in_assembly [x1; x2])) by (rewrite <- (flat_names (all_faces [x1; x2]) [x1; x2] 0); exact (in_map fst _ _ Hd)).
        unfold names_in_assembly in Hn. apply in_concat in Hn. destruct Hn as (l & Hl & Hin). apply in_map_iff in Hl. destruct Hl as (b & <- & _).
        apply in_map_iff in Hin. destruct Hin as (d' & E & _). rewrite <- E, assembly_dunder. reflexivity. }
      split; [congruence|]. split.
      { rewrite <- Cs. unfold moment. rewrite Ym, Yc, joined_com_moments. unfold moments. destruct (all_set fb_mass [x1; x2]) as [ms|] eqn:Em; [|reflexivity].
        cbn [option_map]. destruct (all_set fb_com [x1; x2]) as [cs|]; [|reflexivity]. f_equal.
        assert (R0 : Rsum ms <> 0).
        { cbn [option_map] in Ms. destruct (all_set fb_mass (L1 ++ L2)) as [ms'|] eqn:E'; [|discriminate]. cbn in Ms. injection Ms as ->. now apply M. }
        destruct (weighted ms cs) as [w1 w2 w3]. apply vec_ext; cbn; field; exact R0. }
      split.
      + rewrite Yi, joined_matrix_diag, <- Is. now destruct (diag fb_inertia [x1; x2]).
      + rewrite Yt, joined_matrix_diag, <- Ts. now destruct (diag fb_stiffness [x1; x2]).
  Qed.
End Pairs.
