(** Healing the meshes of revolution. *)
From Coq Require Import Reals List Bool Arith Lia Lra Permutation.
From Verif Require Import Model_Base Model_Geometry Model_Mesh Model_Clip Spec_Mesh Spec_Tree Spec_Clip Model_Tree Model_Body Spec_Body
  Proofs_Geometry Proofs_Mesh Proofs_Mesh2 Proofs_Mesh3 Proofs_Clip4 Proofs_Clip5 Model_Integrals Spec_Integrals Proofs_Integrals Proofs_Tree Proofs_Tree2 Proofs_Body Proofs_Body2 Proofs_Body5
  Model_Quality Spec_Quality Proofs_Quality Model_Normals Spec_Normals Proofs_Normals4 Spec_Grid Proofs_Grid2 Proofs_Grid3 Proofs_Grid4 Proofs_Grid5 Proofs_Grid6
  Proofs_Dataset Proofs_Problem Proofs_Box3 Proofs_Box4 Proofs_Box5 Spec_Cylinder Proofs_Cylinder Proofs_Cylinder2 Proofs_Cylinder3 Proofs_Cylinder4.
Import ListNotations.
Open Scope R_scope.

Lemma closes_heal vs f q q' : NoDup vs -> corners_at vs f q' -> same_polygon q q' -> trapezoid q -> closes (heal_face f).
Proof.
  intros Nv K S T. destruct q as [[[a b] c] d]. destruct T as (T1 & T2 & T3 & T4 & T5).
  assert (D : forall i j u v, nth_error vs i = Some u -> nth_error vs j = Some v -> u <> v -> i <> j) by (intros i j u v A B D ->; congruence).
  destruct f as [fa fb fc fd]. unfold closes, heal_face, roll_quad, roll, is_tri. cbn [Model_Mesh.fa Model_Mesh.fb Model_Mesh.fc Model_Mesh.fd].
  assert (X : fa <> fc /\ fb <> fd /\ ((fa <> fb /\ fc <> fd /\ (fa = fd -> fb <> fc)) \/ (fa <> fd /\ fb <> fc /\ (fa = fb -> fc <> fd)))).
  { destruct S as [->|[->|[->| ->]]]; destruct K as (Ka & Kb & Kc & Kd); cbn [Model_Mesh.fa Model_Mesh.fb Model_Mesh.fc Model_Mesh.fd] in *.
    - split; [eapply D; eassumption|]. split; [eapply D; eassumption|]. left. split; [eapply D; eassumption|]. split; [eapply D; eassumption|]. intros E1 E2. apply T5. split; congruence.
    - split; [eapply D; eauto|]. split; [eapply D; eauto|]. right. split; [eapply D; eauto|]. split; [eapply D; eauto|]. intros E1 E2. apply T5. split; congruence.
    - split; [eapply D; eauto|]. split; [eapply D; eauto|]. left. split; [eapply D; eauto|]. split; [eapply D; eauto|]. intros E1 E2. apply T5. split; congruence.
    - split; [eapply D; eauto|]. split; [eapply D; eauto|]. right. split; [eapply D; eauto|]. split; [eapply D; eauto|]. intros E1 E2. apply T5. split; congruence. }
  clear - X. destruct X as (X1 & X2 & X3).
  destruct (Nat.eqb_spec fa fd) as [E|E]; cbn [Model_Mesh.fa Model_Mesh.fb Model_Mesh.fc Model_Mesh.fd]; [rewrite E, Nat.eqb_refl; cbn; rewrite Nat.eqb_refl; cbn; now left|].
  destruct (Nat.eqb_spec fd fc) as [E1|E1]; cbn [Model_Mesh.fa Model_Mesh.fb Model_Mesh.fc Model_Mesh.fd]; [rewrite E1, Nat.eqb_refl; cbn; now left|].
  destruct (Nat.eqb_spec fc fb) as [E2|E2]; cbn [Model_Mesh.fa Model_Mesh.fb Model_Mesh.fc Model_Mesh.fd]; [now left|].
  destruct (Nat.eq_dec fb fa) as [E3|E3]; [now left|right]. rewrite !NoDup_cons_iff. cbn [In]. pose proof (NoDup_nil nat). intuition congruence.
Qed.
Lemma flat_area a c : p_area (face_of (a, a, c, c)) = 0.
Proof.
  unfold face_of, props_of, quad_of, quad_props. cbn [qa qb qc qd].
  replace (cross (vsub c a) (vsub c a)) with v0 by vring. rewrite (proj2 (norm_zero v0) eq_refl), Rabs_R0.
  rewrite (proj2 (Rltb_true 0 degenerate_tol)) by (unfold degenerate_tol; lra). reflexivity.
Qed.
Definition kept (q : polygon) : bool := negb (Reqb (p_area (face_of q)) 0).
Lemma carried_corner m qs q p : carried m qs -> In q qs -> In p (polygon_corners q) -> In p (m_vertices m).
Proof.
  intros (Vm & Um & Nm & qs' & P & S) Hq Hp. apply In_nth_error in Hq. destruct Hq as [k Hq]. destruct (Forall2_nth_l _ _ _ _ _ S Hq) as (q' & Hq' & Sq).
  destruct (Forall2_nth_r _ _ _ _ _ P Hq') as (f & _ & K). apply (same_polygon_corners q' q p (same_polygon_sym _ _ Sq)) in Hp.
  destruct q' as [[[a b] c] d]. destruct K as (Ka & Kb & Kc & Kd). destruct Hp as [<-|[<-|[<-|[<-|[]]]]]; eapply nth_error_In; eassumption.
Qed.

Section Heal.
  Variable argsort : list R -> list nat.
  Hypothesis Hs : sorts argsort.
  Variable set_order : list nat -> list nat.
  Hypothesis Ho : forall l, Permutation l (set_order l).
  (** The faces without area are removed, the vertices are merged. *)
  Lemma heal_rough vs fs qs A closed : Forall2 (corners_at vs) fs qs -> (forall q, In q qs -> kept q = true -> well_sized A q) -> filter kept qs <> [] -> spaced (filter kept qs) ->
    all_used (Mesh vs fs) ->
    (forall i, (i < length vs)%nat -> exists f q, In (f, q) (combine fs qs) /\ kept q = true /\ In i [fa f; fb f; fc f; fd f]) ->
    exists m f0s, heal_leaf argsort (heal_normals set_order) closed (Mesh vs fs) = (if closed then heal_normals set_order m else Ok m) /\ carried m (filter kept qs)
      /\ m_faces m = map heal_face f0s.
  Proof.
    intros P Sz Ne Sp Um Uk. unfold heal_leaf, remove_unused. rewrite (all_used_seq _ Um), seq_length, (Nat.ltb_irrefl (nb_vertices _)). cbn [bind].
    assert (Lq : length fs = length qs) by exact (f2_length _ _ _ P).
    assert (Pr : faces_props (Mesh vs fs) = Ok (map face_of qs)) by (apply leaf_props; exact P).
    assert (K0 : forall q, In q qs -> kept q = false -> p_area (face_of q) = 0) by (intros q _ E; unfold kept in E; apply negb_false_iff in E; now apply Reqb_true).
    assert (Hk : exists q0, In q0 qs /\ kept q0 = true).
    { destruct (filter kept qs) as [|q0 l] eqn:E; [contradiction|]. exists q0. apply filter_In. rewrite E. now left. }
    destruct Hk as (q0 & Hq0 & Kq0).
    assert (PA : forall q, In q qs -> 0 <= p_area (face_of q) <= A /\ (kept q = true -> A / 100000 <= p_area (face_of q) /\ 0 < p_area (face_of q))).
    { assert (A0 : 0 <= A). { pose proof (sized_area A q0 (Sz q0 Hq0 Kq0)). lra. }
      intros q Hq. destruct (kept q) eqn:Ek.
      - pose proof (sized_area A q (Sz q Hq Ek)) as B. assert (p_area (face_of q) <> 0) by (intros E; unfold kept in Ek; rewrite E, Reqb_refl in Ek; discriminate). split; [lra|]. intros _. lra.
      - rewrite (K0 q Hq Ek). split; [lra|discriminate]. }
    unfold remove_degenerated. rewrite (proj2 (Rltb_true 0 (/ 100000))) by lra. rewrite Pr. cbn [negb bind].
    set (mean := Rsum _ / _).
    assert (M : 0 < mean <= A).
    { unfold mean. rewrite map_map, map_length. split.
      - apply Rdiv_lt_0_compat; [|apply lt_0_INR; destruct qs; [destruct Hq0|cbn; lia]]. apply in_split in Hq0. destruct Hq0 as (l1 & l2 & Eq). rewrite Eq, map_app, Rsum_app. cbn [map]. rewrite Rsum_cons.
        assert (N1 : forall l, (forall q, In q l -> In q qs) -> 0 <= Rsum (map (fun q => p_area (face_of q)) l)).
        { induction l as [|q l IH]; intros H; [cbn; lra|]. cbn [map]. rewrite Rsum_cons. pose proof (PA q (H q (or_introl eq_refl))). specialize (IH (fun x Hx => H x (or_intror Hx))). lra. }
        pose proof (N1 l1 ltac:(intros q Hq; rewrite Eq; apply in_or_app; now left)). pose proof (N1 l2 ltac:(intros q Hq; rewrite Eq; apply in_or_app; right; now right)).
        pose proof (proj2 (PA q0 ltac:(rewrite Eq; apply in_or_app; right; now left)) Kq0). lra.
      - rewrite <- (map_length (fun q => p_area (face_of q))). apply mean_bound; [pose proof (PA q0 Hq0); lra| |].
        + intros y Hy. apply in_map_iff in Hy. destruct Hy as (q & <- & Hq). apply PA. exact Hq.
        + destruct qs; [destruct Hq0|discriminate]. }
    clearbody mean.
    set (fs' := map fst (filter (fun fp => negb (Rltb (p_area (snd fp)) (mean * / 100000))) (combine fs (map face_of qs)))).
    assert (Ef : fs' = map fst (filter (fun fq => kept (snd fq)) (combine fs qs))).
    { unfold fs'. clear - PA M P. induction P as [|f q fs qs K P IH]; [reflexivity|]. cbn [map combine filter snd].
      assert (E : negb (Rltb (p_area (face_of q)) (mean * / 100000)) = kept q).
      { destruct (PA q (or_introl eq_refl)) as [B1 B2]. destruct (kept q) eqn:Ek; [apply negb_true_iff, Rltb_false; specialize (B2 eq_refl); lra|].
        apply negb_false_iff, Rltb_true. unfold kept in Ek. apply negb_false_iff, Reqb_true in Ek. lra. }
      rewrite E. specialize (IH (fun x Hx => PA x (or_intror Hx))). destruct (kept q); cbn [map fst]; [f_equal|]; exact IH. }
    assert (P' : Forall2 (corners_at vs) fs' (filter kept qs)).
    { rewrite Ef. clear - P. induction P as [|f q fs qs K P IH]; [constructor|]. cbn [combine filter snd]. destruct (kept q); cbn [map fst]; [now constructor|exact IH]. }
    assert (L : loose vs fs' (filter kept qs)).
    { exists (filter kept qs). split; [exact P'|]. clear. induction (filter kept qs); constructor; [apply same_polygon_refl|assumption]. }
    assert (Uu : all_used (Mesh vs fs')).
    { intros i Hi. cbn [m_vertices] in Hi. destruct (Uk i Hi) as (f & q & Hfq & Kq & Hif). exists f. split; [|exact Hif]. cbn [m_faces]. rewrite Ef. apply in_map_iff. exists (f, q). split; [reflexivity|]. apply filter_In. auto. }
    assert (Nv : vs <> []).
    { intros ->. inversion P' as [E1 E2|f q l l' K P2 E1 E2]; [congruence|]. destruct q as [[[a b] c] d]. destruct K as (Ka & _). destruct (fa f); discriminate. }
    cbn [m_vertices m_faces bind]. fold fs'. destruct (merge_loose argsort Hs vs fs' _ L Uu Sp Nv) as (m1 & ids & E & C). rewrite E. cbn [bind fst].
    exists (heal_triangles m1), (m_faces m1). split; [now destruct closed|]. split; [exact C|reflexivity].
  Qed.

  Section Revolution.
  Variables (o : vec) (prof : nat -> R * R) (n T N : nat) (th0 : R).
  Hypotheses (Hn : (0 < n)%nat) (HT : (3 <= T)%nat) (HN : (0 < N <= T)%nat).
  Notation rho i := (fst (prof i)). Notation zed i := (snd (prof i)).
  Hypothesis Hpos : forall i, (i <= n)%nat -> 0 <= rho i.
  Hypothesis Hmid : forall i, (0 < i < n)%nat -> 0 < rho i.
  Hypothesis Hinj : forall i i', (i <= n)%nat -> (i' <= n)%nat -> prof i = prof i' -> i = i'.
  Hypothesis Hpoles : n = 1%nat -> ~ (rho 0 = 0 /\ rho n = 0).
  Hypothesis Hup : forall i, (i < n)%nat -> zed i <= zed (S i).
  Hypothesis Hlow : forall i, (i <= n)%nat -> rho 0 <= rho i.
  Hypothesis Hsz : forall i, (i < n)%nat -> / 1000000000000 <= strip_area (prof i) (prof (S i)) T.
  Notation panel := (turned_panel n N (is_full T N) (low_pole prof) (high_pole prof n) (place o prof T th0)).
  Notation ranged := (ranged n N).
  Section Mesh.
  Variables (m : mesh) (ks : list key).
  Hypotheses (Nk : NoDup ks) (Rk : forall k, In k ks <-> ranged k) (C : carried m (map panel ks)).
  Lemma up_to i : (i <= n)%nat -> zed i <= zed n.
  Proof. intros Hi. remember (n - i)%nat as d eqn:E. revert i Hi E. induction d as [|d IH]; intros i Hi E; [replace i with n by lia; lra|]. specialize (Hup i ltac:(lia)). specialize (IH (S i) ltac:(lia) ltac:(lia)). lra. Qed.
  Lemma panel_closes f0s : m_faces m = map heal_face f0s -> forall f, In f (m_faces m) -> closes f.
  Proof.
    intros E f Hf. pose proof Hf as Hf'. rewrite E in Hf'. apply in_map_iff in Hf'. destruct Hf' as (f0 & <- & _). apply In_nth_error in Hf. destruct Hf as [i Hf].
    destruct (carried_face m _ i _ C Hf) as (q & q' & Hq & S & K). pose proof C as (_ & _ & Nv & _).
    rewrite nth_error_map in Hq. destruct (nth_error ks i) as [k|] eqn:Ek; [|discriminate]. cbn in Hq. injection Hq as <-.
    assert (R1 : ranged k) by (apply Rk; now apply nth_error_In in Ek).
    assert (Tz : trapezoid (panel k)).
    { apply panel_trapezoid; try assumption; [lia|exact (full_three prof n T N Hn HT HN Hpoles)|exact (two_ends prof n T N HN Hpoles)|]. apply place_inj; assumption. }
    assert (X : exists q0, corners_at (m_vertices m) f0 q0 /\ same_polygon q' q0).
    { clear - K. destruct q' as [[[a b] c] d]. destruct K as (Ka & Kb & Kc & Kd). destruct (heal_rotation f0) as [E|[E|[E|E]]]; rewrite E in *; cbn [fa fb fc fd] in *.
      - exists (a, b, c, d). split; [repeat split; assumption|cbn; auto].
      - exists (d, a, b, c). split; [repeat split; assumption|cbn; auto].
      - exists (c, d, a, b). split; [repeat split; assumption|cbn; auto].
      - exists (b, c, d, a). split; [repeat split; assumption|cbn; auto]. }
    destruct X as (q0 & K0 & S0). exact (closes_heal (m_vertices m) f0 (panel k) q0 Nv K0 (same_polygon_trans _ _ _ S S0) Tz).
  Qed.
  Hypothesis Cl : forall f, In f (m_faces m) -> closes f.
  Lemma turned_nonempty : m_faces m <> [].
  Proof.
    intros E. destruct C as (_ & _ & _ & qs' & P & S). unfold polygons_of in P. rewrite E in P. inversion P. subst. inversion S as [E'|].
    destruct ks as [|k l]; [|discriminate]. apply (proj2 (Rk (0, 0)%nat)). split; cbn; lia.
  Qed.
  Lemma normals_kept : heal_normals set_order m = Ok m.
  Proof.
    assert (Vm : valid m) by apply C.
    assert (Xi := place_inj o prof n T N th0 Hn HT HN Hpos Hmid Hinj Hpoles).
    assert (Rk' : forall k, In k ks -> ranged k) by (intros k; apply Rk).
    destruct (heal_consistent_already set_order Ho m Vm turned_nonempty) as [K|K]; [| |exact K|].
    { eapply (turned_conformal n N (is_full T N) (low_pole prof) (high_pole prof n)); try eassumption; [lia|exact (full_three prof n T N Hn HT HN Hpoles)|exact (two_ends prof n T N HN Hpoles)]. }
    { eapply (turned_consistent n N (is_full T N) (low_pole prof) (high_pole prof n)); try eassumption; [lia|exact (full_three prof n T N Hn HT HN Hpoles)|exact (two_ends prof n T N HN Hpoles)]. }
    rewrite K. unfold outwards.
    assert (Hv : In (node o prof T th0 n 0) (m_vertices m)).
    { apply (carried_corner m _ (panel (n - 1, 0)%nat) _ C); [apply in_map, Rk; split; cbn; lia|].
      rewrite panel_is by (try assumption; split; cbn; lia). cbn [fst snd revolved_panel polygon_corners]. replace (S (n - 1)) with n by lia. cbn; tauto. }
    destruct (highest_spec m) as (z & -> & Zu & _); [intros E; rewrite E in Hv; destruct Hv|]. cbn [bind].
    assert (HZ : vz o + zed n <= z) by (specialize (Zu _ Hv); cbn in Zu; exact Zu).
    pose proof C as (_ & _ & _ & qs' & P & S). rewrite (leaf_props m qs' P). cbn [bind].
    rewrite (proj2 (Rltb_false _ _)); [reflexivity|].
    enough (E : vertical_flux z (map face_of qs') = Rsum (map (fun k : key => strip_flux o prof T z (fst k)) ks)).
    { rewrite E. rewrite (Rsum_perm _ (map (fun k : key => strip_flux o prof T z (fst k)) (rect_keys n N))).
      - rewrite (rect_sum (strip_flux o prof T z) n N). apply Rmult_le_pos; [apply pos_INR|]. now apply flux_positive with (N := N).
      - apply Permutation_map. apply NoDup_Permutation; [exact Nk|apply nodup_rect|]. intros k. now rewrite in_rect. }
    unfold vertical_flux. revert S Rk'. generalize ks as l. clear Nk Rk C Cl K Hv P. induction qs' as [|q' qs' IH]; intros l S Rk'.
    - inversion S as [E|]. symmetry in E. apply map_eq_nil in E. subst. reflexivity.
    - destruct l as [|k l]; [inversion S|]. cbn [map] in S. assert (Sq : same_polygon (panel k) q' /\ Forall2 same_polygon (map panel l) qs') by (inversion S; auto). clear S. destruct Sq as [Sq S]. cbn [map]. rewrite !Rsum_cons. f_equal.
      + assert (R1 : ranged k) by (apply Rk'; now left).
        rewrite <- (panel_flux o prof n T N th0) with (q' := q') by assumption.
        assert (Pf : proper_face q') by (apply (panel_proper o prof n T N th0) with (k := k); try assumption; apply Hsz; apply R1).
        destruct (face_flux q' Pf) as (_ & _ & E1 & E2). fold (flux q') in E2. rewrite <- E1, <- E2. cbn [vscale vmul vz]. ring.
      + apply IH; [exact S|]. intros k' Hk'. apply Rk'. now right.
  Qed.
  End Mesh.
  End Revolution.
End Heal.
