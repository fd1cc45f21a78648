(** Clusters of bodies: the loop on the linkage matrix. *)
From Coq Require Import Reals String Ascii List Bool Arith ZArith Lra Lia Permutation.
From Verif Require Import Model_Base Model_Geometry Model_Mesh Spec_Mesh Proofs_Mesh Model_Quality Spec_Quality Model_Tree Spec_Tree Proofs_Tree Proofs_Symmetry
  Model_Integrals Spec_Integrals Proofs_Integrals Model_Body Spec_Body Proofs_Body Proofs_Body2 Proofs_Body3 Spec_Precond Model_Cluster Spec_Cluster Proofs_Cluster.
Import ListNotations.
Open Scope nat_scope.

(** ** Joins under another name *)
Lemma join_name argsort hn L n n' z : join_bodies argsort hn L (Some n) = Ok z -> join_bodies argsort hn L (Some n') = Ok (set_name z n').
Proof.
  unfold join_bodies. intros E.
  destruct (mapM (fun b => copy (fb_mesh b)) L) as [meshes|]; cbn [bind] in *; [|discriminate].
  destruct (match somes (map fb_lid L) with [] => Ok None | _ => _ end) as [lid|]; cbn [bind] in *; [|discriminate].
  destruct (combine_dofs L) as [dofs|]; cbn [bind] in *; [|discriminate].
  destruct (match all_set fb_mass L with Some _ => _ | None => _ end) as [com|]; cbn [bind] in *; [|discriminate].
  unfold new_body in *.
  destruct (match lid with None => Ok None | Some _ => _ end) as [lid'|]; cbn [bind] in *; [|discriminate].
  destruct (if Nat.ltb 0 (t_nb_vertices (Node Plain meshes)) && Nat.ltb 0 (t_nb_faces (Node Plain meshes)) then t_heal argsort hn (Node Plain meshes) else Ok (Node Plain meshes)) as [t'|];
    cbn [bind] in *; [|discriminate].
  unfold fb_check, fb_nb_faces in *. cbn [fb_dofs fb_mesh] in *.
  destruct (forallb _ dofs); cbn [bind] in *; [|discriminate].
  unfold option_bind, add_dofs_labels_to_matrix in *. cbn [fb_dofs] in *.
  match type of E with bind ?X _ = _ => destruct X as [i|] end; cbn [bind] in *; [|discriminate].
  match type of E with bind ?X _ = _ => destruct X as [s|] end; cbn [bind] in *; [|discriminate].
  injection E as <-. reflexivity.
Qed.

(** ** The shape of the mesh *)
Lemma heal_clustered argsort hn t : clustered t -> forall t', heal_parts argsort hn t = Ok t' -> clustered t'.
Proof.
  induction 1 as [m|k a b _ IHa _ IHb]; intros t' E.
  - cbn [heal_parts] in E. destruct (heal_leaf argsort hn false m); [|discriminate]. cbn [bind] in E. injection E as <-. constructor.
  - cbn [heal_parts map sequence] in E. destruct (heal_parts argsort hn a) as [a'|]; cbn [bind] in E; [|discriminate].
    destruct (heal_parts argsort hn b) as [b'|]; cbn [bind] in E; [|discriminate]. injection E as <-. constructor; [now apply IHa|now apply IHb].
Qed.
Lemma join_clustered argsort hn x1 x2 n y : joinable x1 -> joinable x2 -> clustered (fb_mesh x1) -> clustered (fb_mesh x2) ->
  join_bodies argsort hn [x1; x2] (Some n) = Ok y -> clustered (fb_mesh y) /\ several (fb_mesh y).
Proof.
  intros J1 J2 C1 C2 E. unfold join_bodies in E. cbn [mapM bind] in E. rewrite (copy_ok _ (proj1 J1)), (copy_ok _ (proj1 J2)) in E. cbn [mapM bind] in E.
  match type of E with bind ?X _ = _ => destruct X as [lid|] end; cbn [bind] in E; [|discriminate].
  destruct (combine_dofs [x1; x2]) as [dofs|]; cbn [bind] in E; [|discriminate].
  match type of E with bind ?X _ = _ => destruct X as [com|] end; cbn [bind] in E; [|discriminate].
  unfold new_body in E. match type of E with bind (bind ?X _) _ = _ => destruct X as [lid'|] end; cbn [bind] in E; [|discriminate].
  set (t0 := Node Plain [fb_mesh x1; fb_mesh x2]) in *.
  assert (C0 : clustered t0) by now constructor.
  destruct (if Nat.ltb 0 (t_nb_vertices t0) && Nat.ltb 0 (t_nb_faces t0) then t_heal argsort hn t0 else Ok t0) as [t'|] eqn:Et; cbn [bind] in E; [|discriminate].
  assert (Ct : clustered t' /\ several t').
  { destruct (Nat.ltb 0 (t_nb_vertices t0) && Nat.ltb 0 (t_nb_faces t0)).
    - split; [exact (heal_clustered argsort hn t0 C0 t' Et)|]. unfold t0 in Et. cbn [t_heal heal_parts map sequence] in Et.
      destruct (heal_parts argsort hn (fb_mesh x1)); cbn [bind] in Et; [|discriminate]. destruct (heal_parts argsort hn (fb_mesh x2)); cbn [bind] in Et; [|discriminate].
      injection Et as <-. exact I.
    - injection Et as <-. split; [exact C0|exact I]. }
  unfold fb_check in E. match type of E with bind (bind (if ?X then _ else _) _) _ = _ => destruct X end; cbn [bind] in E; [|discriminate].
  match type of E with bind ?X _ = _ => destruct X as [i|] end; cbn [bind] in E; [|discriminate].
  match type of E with bind ?X _ = _ => destruct X as [s|] end; cbn [bind] in E; [|discriminate].
  injection E as <-. exact Ct.
Qed.

(** ** Dendrograms *)
Lemma dendrogram_inv n rows k o : dendrogram n rows k o ->
  (k < n /\ o = [k]) \/ (exists i l r a b, k = n + i /\ nth_error rows i = Some (l, r) /\ dendrogram n rows l a /\ dendrogram n rows r b /\ o = a ++ b).
Proof. intros H. destruct H as [k H|i l r a b E A B]; [left; auto|right]. exists i, l, r, a, b. auto. Qed.
Lemma dendrogram_unique n rows k o : dendrogram n rows k o -> forall o', dendrogram n rows k o' -> o = o'.
Proof.
  induction 1 as [k Hk|i l r a b Ei A IHa B IHb]; intros o' H'; apply dendrogram_inv in H'; destruct H' as [[H ->]|(i' & l' & r' & a' & b' & Ek & En & Da & Db & ->)]; try lia; [reflexivity|].
  assert (i' = i) by lia. subst i'. rewrite Ei in En. injection En as <- <-. now rewrite (IHa _ Da), (IHb _ Db).
Qed.
Lemma concat_perm {A} (l l' : list (list A)) : Permutation l l' -> Permutation (concat l) (concat l').
Proof.
  induction 1 as [|x l l' _ IH|x y l|l l' l'' _ IH1 _ IH2]; cbn [concat]; [constructor|now apply Permutation_app_head| |now apply (Permutation_trans IH1)].
  rewrite !app_assoc. apply Permutation_app_tail. apply Permutation_app_comm.
Qed.
Lemma NoDup_app_l {A} (l l' : list A) : NoDup (l ++ l') -> NoDup l.
Proof. induction l as [|a l IH]; intros H; [constructor|]. apply NoDup_cons_iff in H. destruct H as [H1 H2]. constructor; [|now apply IH]. intros Hin. apply H1. apply in_or_app. now left. Qed.
Lemma names_perm L L' : Permutation L L' -> Permutation (names_in_assembly L) (names_in_assembly L').
Proof. intros H. unfold names_in_assembly. apply concat_perm. now apply Permutation_map. Qed.
Lemma perm_two {A} (l r : A) (U : list A) : In l U -> In r U -> l <> r -> exists W, Permutation U (l :: r :: W).
Proof.
  intros Hl Hr N. apply in_split in Hl. destruct Hl as (u & v & ->). assert (Hr' : In r (u ++ v)).
  { apply in_app_or in Hr. apply in_or_app. destruct Hr as [H|[H|H]]; [now left|contradiction|now right]. }
  apply in_split in Hr'. destruct Hr' as (u' & v' & E). exists (u' ++ v'). transitivity (l :: u ++ v); [symmetry; apply Permutation_middle|].
  constructor. rewrite E. symmetry. apply Permutation_middle.
Qed.
Lemma Rsum_positive (ms : list R) : ms <> [] -> (forall m, In m ms -> (0 < m)%R) -> (0 < Rsum ms)%R.
Proof.
  induction ms as [|m ms IH]; intros N H; [contradiction|]. rewrite Rsum_cons. pose proof (H m (or_introl eq_refl)).
  destruct ms as [|m' ms']; [rewrite Rsum_nil; lra|]. specialize (IH ltac:(discriminate) (fun x Hx => H x (or_intror Hx))). lra.
Qed.
Lemma all_set_positive (L : list fbody) ms : (forall b m, In b L -> fb_mass b = Some m -> (0 < m)%R) -> all_set fb_mass L = Some ms -> forall m, In m ms -> (0 < m)%R.
Proof.
  revert ms. induction L as [|b L IH]; intros ms H E; cbn in E; [injection E as <-; intros m []|].
  destruct (fb_mass b) as [m0|] eqn:Eb; [|discriminate]. destruct (all_set fb_mass L) as [ms'|]; [|discriminate]. injection E as <-.
  intros m [<-|Hm]; [exact (H b m0 (or_introl eq_refl) Eb)|]. apply (IH ms'); auto. intros b' m' Hb. apply H. now right.
Qed.

Section Loop.
  Variable argsort : list R -> list nat.
  Hypothesis Hs : sorts argsort.
  Variable heal_normals : mesh -> result mesh.
  Notation join := (join_bodies argsort heal_normals).
  Variable bodies : list fbody.
  Notation n := (List.length bodies).
  Hypothesis Jb : forall b, In b bodies -> joinable b /\ plain_body b.
  Hypothesis Nb : NoDup (names_in_assembly bodies).
  Hypothesis Mb : forall b m, In b bodies -> fb_mass b = Some m -> (0 < m)%R.
  Variable rows : list (nat * nat).
  Hypothesis Hr : linkage_rows n rows.

  Notation chosen := (Forall2 (fun k b => nth_error bodies k = Some b)).
  Definition node_name (k : nat) : string := ("node_" ++ str_nat k)%string.
  (** The node [k] is the join of the bodies under it. *)
  Definition node_ok (k : nat) (x : fbody) : Prop := forall o, dendrogram n rows k o ->
    exists L, chosen o L /\ stands L x /\ ((forall b, In b bodies -> clustered (fb_mesh b)) -> clustered (fb_mesh x))
      /\ (n <= k -> ((forall b, In b bodies -> clustered (fb_mesh b)) -> several (fb_mesh x)) /\ exists z, join L (Some (node_name k)) = Ok z /\ same_body x z /\ fb_name x = node_name k).
  Definition unused (done : list (nat * nat)) (k : nat) : Prop := forall l r, In (l, r) done -> k <> l /\ k <> r.
  Definition left_to_merge (done : list (nat * nat)) (U : list nat) (os : list (list nat)) : Prop :=
    NoDup U /\ List.length U + List.length done = n /\ (forall k, In k U <-> k < n + List.length done /\ unused done k)
    /\ Forall2 (dendrogram n rows) U os /\ Permutation (concat os) (seq 0 n).

  Lemma chosen_ex o : (forall k, In k o -> k < n) -> exists L, chosen o L.
  Proof.
    induction o as [|k o IH]; intros H; [exists []; constructor|]. destruct IH as [L HL]; [intros k' H'; apply H; now right|].
    destruct (nth_error bodies k) as [b|] eqn:E; [exists (b :: L); now constructor|]. apply nth_error_None in E. specialize (H k (or_introl eq_refl)). lia.
  Qed.
  Lemma chosen_app o o' L L' : chosen o L -> chosen o' L' -> chosen (o ++ o') (L ++ L').
  Proof. apply Forall2_app. Qed.
  Lemma chosen_in o L b : chosen o L -> In b L -> In b bodies.
  Proof.
    induction 1 as [|k b' o L E _ IH]; [intros []|]. intros [<-|H]; [exact (nth_error_In _ _ E)|auto].
  Qed.
  Lemma chosen_all : chosen (seq 0 n) bodies.
  Proof.
    assert (G : forall pre suf, bodies = pre ++ suf -> chosen (seq (List.length pre) (List.length suf)) suf).
    { intros pre suf. revert pre. induction suf as [|b suf IH]; intros pre E; [constructor|]. cbn [List.length seq]. constructor.
      - rewrite E, nth_error_app2, Nat.sub_diag by lia. reflexivity.
      - specialize (IH (pre ++ [b])). rewrite app_length in IH. cbn [List.length] in IH. replace (List.length pre + 1) with (S (List.length pre)) in IH by lia.
        apply IH. now rewrite <- app_assoc. }
    exact (G [] bodies eq_refl).
  Qed.
  Lemma chosen_unique o L L' : chosen o L -> chosen o L' -> L = L'.
  Proof.
    intros H. revert L'. induction H as [|k b o L E _ IH]; intros L' H'; inversion H' as [|k' b' o' L'' E' H'' ]; subst; [reflexivity|]. f_equal; [congruence|auto].
  Qed.
  Lemma chosen_perm o o' L : Permutation o o' -> chosen o L -> exists L', chosen o' L' /\ Permutation L L'.
  Proof. intros P H. destruct (Permutation_Forall2 P H) as (L' & P' & H'). exists L'. auto. Qed.
  (** Bodies under a node, out of all the bodies. *)
  Lemma part_good a rest L : Permutation (a ++ rest) (seq 0 n) -> chosen a L -> L <> [] ->
    (forall b, In b L -> joinable b /\ plain_body b) /\ NoDup (names_in_assembly L) /\ (forall ms, all_set fb_mass L = Some ms -> Rsum ms <> 0%R).
  Proof.
    intros P H N. split; [intros b Hb; exact (Jb b (chosen_in _ _ _ H Hb))|].
    destruct (chosen_ex rest) as [R HR].
    { intros k Hk. assert (Hin : In k (seq 0 n)) by (apply (Permutation_in k P); apply in_or_app; now right). apply in_seq in Hin. lia. }
    destruct (chosen_perm _ _ _ P (chosen_app _ _ _ _ H HR)) as (B & HB & PB). rewrite (chosen_unique _ _ _ HB chosen_all) in PB.
    split.
    - apply (NoDup_app_l _ (names_in_assembly R)). rewrite <- names_app. apply (Permutation_NoDup (l := names_in_assembly bodies)); [|exact Nb].
      apply names_perm. now symmetry.
    - intros ms E. assert (Pos : (0 < Rsum ms)%R); [|lra]. apply Rsum_positive.
      + intros ->. apply all_set_length in E. destruct L; [contradiction|discriminate].
      + apply (all_set_positive L ms); [|exact E]. intros b m Hb. apply Mb. exact (chosen_in _ _ _ H Hb).
  Qed.

  Lemma loop : forall todo done nodes U os, rows = done ++ todo -> List.length nodes = n + List.length done ->
    (forall k x, nth_error nodes k = Some x -> node_ok k x) -> left_to_merge done U os ->
    exists nodes' U' os', merge_nodes argsort heal_normals n (List.length done) nodes todo = Ok nodes' /\ List.length nodes' = n + List.length rows
      /\ (forall k x, nth_error nodes' k = Some x -> node_ok k x) /\ left_to_merge rows U' os'.
  Proof.
    induction todo as [|[l r] todo IH]; intros done nodes U os E Ln Nk Lf.
    - rewrite app_nil_r in E. subst done. exists nodes, U, os. split; [reflexivity|auto].
    - assert (Ei : nth_error rows (List.length done) = Some (l, r)) by (rewrite E, nth_error_app2, Nat.sub_diag by lia; reflexivity).
      destruct (proj2 Hr _ _ _ Ei) as (Dlr & Bl & Br & Un).
      destruct Lf as (NU & LU & IU & FU & PU).
      assert (Ul : In l U).
      { apply IU. split; [exact Bl|]. intros l' r' H. apply In_nth_error in H. destruct H as [j Ej]. assert (j < List.length done) by (apply nth_error_Some; congruence).
        destruct (Un j l' r' H) as (? & ? & ? & ?); [rewrite E, nth_error_app1 by assumption; exact Ej|auto]. }
      assert (Ur : In r U).
      { apply IU. split; [exact Br|]. intros l' r' H. apply In_nth_error in H. destruct H as [j Ej]. assert (j < List.length done) by (apply nth_error_Some; congruence).
        destruct (Un j l' r' H) as (? & ? & ? & ?); [rewrite E, nth_error_app1 by assumption; exact Ej|auto]. }
      destruct (perm_two l r U Ul Ur Dlr) as [W PW].
      destruct (Permutation_Forall2 PW FU) as (os' & Po & Fo).
      inversion Fo as [|l0 ol U0 os0 Dl Fo' E1 E2]; subst. inversion Fo' as [|r0 or U0 ws Dr Fw E1 E2]; subst.
      assert (PU' : Permutation ((ol ++ or) ++ concat ws) (seq 0 n)).
      { rewrite <- PU. rewrite (concat_perm _ _ Po). cbn [concat]. now rewrite app_assoc. }
      destruct (nth_error nodes l) as [xl|] eqn:El; [|apply nth_error_None in El; lia].
      destruct (nth_error nodes r) as [xr|] eqn:Er; [|apply nth_error_None in Er; lia].
      destruct (Nk l xl El ol Dl) as (Ll & Cl & Sl & Kl & _). destruct (Nk r xr Er or Dr) as (Lr & Cr & Sr & Kr & _).
      destruct (part_good (ol ++ or) (concat ws) (Ll ++ Lr) PU' (chosen_app _ _ _ _ Cl Cr)) as (G1 & G2 & G3); [destruct Ll; [destruct Sl as [Sl _]; contradiction|discriminate]|].
      destruct (join_pair argsort Hs heal_normals Ll xl Lr xr (node_name (List.length done + n)) G1 Sl Sr G2 G3) as (y & z & Ey & Ez & Same & Sy).
      cbn [merge_nodes]. unfold get. rewrite El, Er. cbn [bind]. fold (node_name (List.length done + n)). rewrite Ey. cbn [bind].
      assert (Ly : S (List.length done) = List.length (done ++ [(l, r)])) by (rewrite app_length; cbn; lia).
      rewrite Ly. apply (IH (done ++ [(l, r)]) (nodes ++ [y]) ((n + List.length done) :: W) ((ol ++ or) :: ws)).
      + now rewrite <- app_assoc.
      + rewrite app_length. cbn. lia.
      + intros k x Hk. destruct (Nat.lt_ge_cases k (List.length nodes)) as [Lt|Ge].
        * rewrite nth_error_app1 in Hk by exact Lt. exact (Nk k x Hk).
        * assert (k = List.length nodes) by (assert (k < List.length (nodes ++ [y])) by (apply nth_error_Some; congruence); rewrite app_length in *; cbn in *; lia).
          subst k. rewrite nth_error_app2, Nat.sub_diag in Hk by lia. cbn in Hk. injection Hk as <-.
          intros o Do. destruct (dendrogram_inv _ _ _ _ Do) as [[H _]|(i & l' & r' & a & b & Ek & En & Da & Db & ->)]; [lia|].
          assert (i = List.length done) by lia. subst i. rewrite Ei in En. injection En as <- <-.
          destruct (Nk l xl El a Da) as (La & Ca & Sa & _). destruct (Nk r xr Er b Db) as (Lb & Cb & Sb & _).
          (* the same bodies *)
          assert (Eab : a = ol /\ b = or).
          { split; eapply dendrogram_unique; eassumption. }
          destruct Eab as [-> ->]. rewrite (chosen_unique _ _ _ Ca Cl) in *. rewrite (chosen_unique _ _ _ Cb Cr) in *.
          exists (Ll ++ Lr). split; [exact (chosen_app _ _ _ _ Cl Cr)|]. split; [exact Sy|].
          assert (CL : (forall b, In b bodies -> clustered (fb_mesh b)) -> clustered (fb_mesh y) /\ several (fb_mesh y)).
          { intros Hc. apply (join_clustered argsort heal_normals xl xr (node_name (List.length done + n)) y); auto; [apply Sl|apply Sr]. }
          split; [intros Hc; apply (CL Hc)|]. intros _. split; [intros Hc; apply (CL Hc)|].
          exists z. replace (List.length nodes) with (List.length done + n) by lia. split; [exact Ez|]. split; [exact Same|].
          destruct Same as (En & _). rewrite En. clear - Hs Ez G1 G2 G3 Sl. destruct (join_kept argsort Hs heal_normals (Ll ++ Lr) (node_name (List.length done + n))) as (x & Ex & Nx & _); auto.
          { destruct Ll; [destruct Sl as [Sl _]; contradiction|discriminate]. }
          congruence.
      + assert (IW : forall k, In k W <-> In k U /\ k <> l /\ k <> r).
        { assert (ND : NoDup (l :: r :: W)) by exact (Permutation_NoDup PW NU). apply NoDup_cons_iff in ND. destruct ND as [N1 ND]. apply NoDup_cons_iff in ND. destruct ND as [N2 N3].
          intros k. split.
          - intros Hk. split; [apply (Permutation_in k (Permutation_sym PW)); now right; right|]. split; intros ->; [apply N1; now right|now apply N2].
          - intros (Hk & Kl' & Kr'). apply (Permutation_in k PW) in Hk. destruct Hk as [H|[H|H]]; [congruence|congruence|exact H]. }
        split; [|split; [|split; [|split]]].
        * constructor; [|].
          -- rewrite IW, IU. intros [[H _] _]. lia.
          -- assert (ND : NoDup (l :: r :: W)) by exact (Permutation_NoDup PW NU). apply NoDup_cons_iff in ND. destruct ND as [_ ND]. now apply NoDup_cons_iff in ND.
        * apply Permutation_length in PW. cbn in PW |- *. rewrite app_length. cbn. lia.
        * intros k. rewrite app_length. cbn [List.length In]. rewrite IW, IU. split.
          -- intros [<-|[[H1 H2] [H3 H4]]].
             ++ split; [lia|]. intros l' r' H. apply in_app_or in H. destruct H as [H|[H|[]]].
                ** apply In_nth_error in H. destruct H as [j Ej]. assert (Hj : j < List.length done) by (apply nth_error_Some; congruence).
                   assert (Ej' : nth_error rows j = Some (l', r')) by (rewrite E, nth_error_app1 by exact Hj; exact Ej).
                   destruct (proj2 Hr _ _ _ Ej') as (_ & B1 & B2 & _). lia.
                ** injection H as <- <-. lia.
             ++ split; [lia|]. intros l' r' H. apply in_app_or in H. destruct H as [H|[H|[]]]; [exact (H2 l' r' H)|]. injection H as <- <-. auto.
          -- intros [H1 H2]. destruct (Nat.eq_dec k (n + List.length done)) as [->|Nk']; [now left|right].
             split; [split; [lia|intros l' r' H; apply (H2 l' r'); apply in_or_app; now left]|]. apply (H2 l r). apply in_or_app. right. now left.
        * constructor; [|exact Fw]. exact (dendrogram_node n rows (List.length done) l r ol or Ei Dl Dr).
        * exact PU'.
  Qed.

  Hypothesis two : 2 <= n.
  Lemma cluster_loop : exists nodes, merge_nodes argsort heal_normals n 0 bodies rows = Ok nodes /\ List.length nodes = n + List.length rows
    /\ exists x o L z, nth_error nodes (List.length nodes - 1) = Some x /\ dendrogram n rows (2 * n - 2) o /\ Permutation o (seq 0 n) /\ chosen o L
       /\ ((forall b, In b bodies -> clustered (fb_mesh b)) -> clustered (fb_mesh x) /\ several (fb_mesh x))
       /\ fb_name x = node_name (2 * n - 2) /\ join L (Some (node_name (2 * n - 2))) = Ok z /\ same_body x z.
  Proof.
    destruct (loop rows [] bodies (seq 0 n) (map (fun k => [k]) (seq 0 n))) as (nodes & U & os & E & Ln & Nk & NU & LU & IU & FU & PU).
    - reflexivity.
    - cbn. lia.
    - intros k x Hk o Do. assert (k < n) by (apply nth_error_Some; congruence).
      destruct (dendrogram_inv _ _ _ _ Do) as [[_ ->]|(i & l' & r' & a & b & Ek & _)]; [|lia].
      exists [x]. split; [repeat constructor; exact Hk|]. assert (Hx : In x bodies) by exact (nth_error_In _ _ Hk). destruct (Jb x Hx) as [Jx Px].
      split; [exact (stands_one x Jx Px)|]. split; [intros Hc; exact (Hc x Hx)|]. lia.
    - split; [apply seq_NoDup|]. split; [rewrite seq_length; cbn; lia|]. split.
      + intros k. rewrite in_seq. cbn [List.length]. split; [intros H; split; [lia|intros l r []]|lia].
      + split.
        * assert (G : forall l, (forall k, In k l -> k < n) -> Forall2 (dendrogram n rows) l (map (fun k => [k]) l)).
          { induction l as [|k l IH]; intros H; [constructor|]. cbn [map]. constructor; [apply dendrogram_leaf; apply H; now left|]. apply IH. intros k' H'. apply H. now right. }
          apply G. intros k Hk. apply in_seq in Hk. lia.
        * assert (G : forall l : list nat, concat (map (fun k => [k]) l) = l) by (induction l as [|k l IH]; [reflexivity|cbn; now rewrite IH]). rewrite G. apply Permutation_refl.
    - exists nodes. split; [exact E|]. split; [exact Ln|].
      assert (Lr : List.length rows = n - 1) by exact (proj1 Hr).
      assert (Last : List.length nodes - 1 = 2 * n - 2) by lia.
      assert (In (2 * n - 2) U) as HU.
      { apply IU. split; [lia|]. intros l r H. apply In_nth_error in H. destruct H as [j Ej]. assert (j < List.length rows) by (apply nth_error_Some; congruence).
        destruct (proj2 Hr _ _ _ Ej) as (_ & B1 & B2 & _). lia. }
      destruct U as [|u [|u' U]]; cbn in LU; try lia. destruct HU as [Hu|[]]. subst u.
      inversion FU as [|u0 o U0 os0 Do Fn E1 E2]; subst. inversion Fn; subst. cbn [concat] in PU. rewrite app_nil_r in PU.
      destruct (nth_error nodes (List.length nodes - 1)) as [x|] eqn:Ex; [|apply nth_error_None in Ex; lia].
      destruct (Nk _ _ Ex o) as (L & C & S & Kc & Kj); [now rewrite Last|].
      destruct Kj as [Ks (z & Ez & Same & Nx)]; [lia|]. rewrite Last in *.
      exists x, o, L, z. split; [reflexivity|]. split; [exact Do|]. split; [exact PU|]. split; [exact C|]. split; [intros Hc; split; auto|]. auto.
  Qed.
End Loop.
