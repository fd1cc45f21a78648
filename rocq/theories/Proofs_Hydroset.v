(** Proofs about the dataset of hydrostatics. *)
From Coq Require Import String Ascii Reals List Bool Arith Lia Permutation.
From Verif Require Import Model_Base Model_Problem Spec_Problem Model_Solver Model_Dataset Spec_Dataset Proofs_Dataset Proofs_Dataset2 Proofs_Matrices Model_Hydroset Spec_Hydroset.
Import ListNotations.
Open Scope nat_scope.

Section Hydroset.
  Variable cell : Type.
  Variable nan : cell.
  Variable arrange : column -> list value -> list value.
  Hypothesis arranged : forall c l, Permutation l (arrange c l).
  Notation lmatrix := (lmatrix cell).
  Notation hbody := (hbody cell).
  Notation value_at := (value_at cell nan).
  Notation concatenated := (concatenated cell nan arrange).
  Notation by_name := (by_name cell).
  Notation hydrostatics_dataset := (hydrostatics_dataset cell nan arrange).

  (** ** The dictionary *)
  Definition entries (q : quantity) (bodies : list hbody) : list (string * lmatrix) :=
    flat_map (fun b => match property cell q b with Some m => [(h_name cell b, m)] | None => [] end) bodies.
  Lemma dict_set_new {X} k (x : X) d : ~ In k (map fst d) -> dict_set k x d = d ++ [(k, x)].
  Proof.
    induction d as [|[k' y] d IH]; intros H; [reflexivity|]. cbn [dict_set]. destruct (String.eqb k k') eqn:E.
    - apply String.eqb_eq in E. exfalso. apply H. now left.
    - cbn [app]. rewrite IH; [reflexivity|]. intros I. apply H. now right.
  Qed.
  Lemma by_name_distinct q bodies : NoDup (map (h_name cell) bodies) -> by_name q bodies = entries q bodies.
  Proof.
    intros N. unfold by_name, Model_Hydroset.by_name.
    assert (G : forall l d, NoDup (map (h_name cell) l) -> (forall b, In b l -> ~ In (h_name cell b) (map fst d)) ->
      fold_left (fun d b => match property cell q b with Some m => dict_set (h_name cell b) m d | None => d end) l d = d ++ entries q l).
    { induction l as [|b l IH]; intros d Nl H; [cbn; now rewrite app_nil_r|]. cbn [fold_left map] in *. inversion Nl as [|? ? N1 N2]; subst. cbn [entries flat_map]. fold (entries q l).
      destruct (property cell q b) as [m|].
      - rewrite IH; [|exact N2|].
        + rewrite dict_set_new by (apply H; now left). rewrite <- app_assoc. reflexivity.
        + intros b' Hb'. rewrite dict_set_new by (apply H; now left). rewrite map_app, in_app_iff. intros [I|[I|[]]]; [apply (H b' (or_intror Hb') I)|].
          cbn in I. apply N1. rewrite I. now apply in_map.
      - rewrite IH; [reflexivity|exact N2|]. intros b' Hb'. apply H. now right. }
    rewrite G; [reflexivity|exact N|intros b _ []].
  Qed.
  Lemma entries_in q bodies n m : In (n, m) (entries q bodies) <-> exists b, In b bodies /\ h_name cell b = n /\ property cell q b = Some m.
  Proof.
    unfold entries. rewrite in_flat_map. split.
    - intros (b & Hb & H). exists b. destruct (property cell q b); [|destruct H]. destruct H as [H|[]]. injection H as <- <-. auto.
    - intros (b & Hb & <- & E). exists b. split; [exact Hb|]. rewrite E. now left.
  Qed.
  Lemma entries_names q bodies n : In n (map fst (entries q bodies)) -> exists b, In b bodies /\ h_name cell b = n /\ property cell q b <> None.
  Proof. intros H. apply in_map_iff in H. destruct H as ([n' m] & <- & H). apply entries_in in H. destruct H as (b & Hb & E & P). exists b. rewrite P. repeat split; [exact Hb|exact E|discriminate]. Qed.
  Lemma entries_nodup q bodies : NoDup (map (h_name cell) bodies) -> NoDup (map fst (entries q bodies)).
  Proof.
    induction bodies as [|b l IH]; intros N; [constructor|]. cbn [map] in N. inversion N as [|? ? N1 N2]; subst. cbn [entries flat_map]. fold (entries q l).
    destruct (property cell q b) as [m|]; [|now apply IH]. cbn [app map fst]. constructor; [|now apply IH].
    intros I. apply entries_names in I. destruct I as (b' & Hb' & E & _). apply N1. rewrite <- E. now apply in_map.
  Qed.

  (** ** The labels of the matrices *)
  Lemma join_in c ls l v : In l ls -> In v l -> In v (join_labels arrange c ls).
  Proof.
    destruct ls as [|l0 ls]; [intros []|]. intros H Hv. cbn [join_labels]. destruct (forallb _ _) eqn:E.
    - destruct H as [->|H]; [exact Hv|]. rewrite forallb_forall in E. apply E in H. apply list_eqb_eq in H. now rewrite H.
    - apply (Permutation_in _ (arranged c _)). apply unique_In. apply in_concat. eauto.
  Qed.
  Lemma value_outside (m : lmatrix) d e : ~ (In d (m_infl cell m) /\ In e (m_rad cell m)) -> value_at m d e = nan.
  Proof.
    intros H. unfold value_at, Model_Hydroset.value_at. rewrite at_labels_not; [reflexivity|]. intros F. apply H.
    inversion F as [|? ? ? ? A1 F1]; subst. inversion F1 as [|? ? ? ? A2 F2]; subst. cbn in A1, A2. split; assumption.
  Qed.

  (** ** One property *)
  Definition lookup (n : value) (l : list (string * lmatrix)) : option lmatrix := option_map snd (find (fun nm => value_eqb n (Name (fst nm))) l).
  Lemma lookup_in l n m : NoDup (map fst l) -> In (n, m) l -> lookup (Name n) l = Some m.
  Proof.
    induction l as [|[n' m'] l IH]; intros N H; [destruct H|]. cbn [map] in N. inversion N as [|? ? N1 N2]; subst. unfold lookup. cbn [find fst]. destruct (value_eqb (Name n) (Name n')) eqn:E.
    - apply (proj1 (value_eqb_eq _ _)) in E. injection E as E. destruct H as [H|H]; [now injection H as _ ->|]. exfalso. apply N1. cbn. rewrite <- E. now apply (in_map fst) in H.
    - destruct H as [H|H]; [injection H as <- <-; rewrite (proj2 (value_eqb_eq _ _) eq_refl) in E; discriminate|]. now apply IH.
  Qed.
  Lemma lookup_none l n : (forall m, ~ In (n, m) l) -> lookup (Name n) l = None.
  Proof.
    intros H. unfold lookup. destruct (find _ l) as [[n' m]|] eqn:E; [|reflexivity]. apply find_some in E. destruct E as [E1 E2]. cbn in E2. apply (proj1 (value_eqb_eq (Name n) (Name n'))) in E2. injection E2 as <-.
    exfalso. exact (H m E1).
  Qed.
  Lemma lookup_some l v m : lookup v l = Some m -> exists n, v = Name n /\ In (n, m) l.
  Proof.
    unfold lookup. destruct (find _ l) as [[n' m']|] eqn:E; [|discriminate]. intros [= <-]. apply find_some in E. destruct E as [E1 E2]. cbn in E2. apply (proj1 (value_eqb_eq v (Name n'))) in E2. eauto.
  Qed.
  (** What the array holds at the labels of its dimensions. *)
  Definition one_dims : list column := [InfluencedDof; RadiatingDof].
  Definition all_dims : list column := [BodyName; InfluencedDof; RadiatingDof].
  Definition one_value (m : lmatrix) (labels : list value) : cell := match labels with [d; e] => value_at m d e | _ => nan end.
  Definition all_value (l : list (string * lmatrix)) (labels : list value) : cell :=
    match labels with [n; d; e] => match lookup n l with Some m => value_at m d e | None => nan end | _ => nan end.
  Lemma f2_two {A B} (P : A -> B -> Prop) a b x y : Forall2 P [a; b] [x; y] <-> P a x /\ P b y.
  Proof. split; [intros F; inversion F as [|? ? ? ? A1 F1]; subst; inversion F1; subst; tauto|intros [H1 H2]; repeat constructor; assumption]. Qed.
  Lemma f2_three {A B} (P : A -> B -> Prop) a b c x y z : Forall2 P [a; b; c] [x; y; z] <-> P a x /\ P b y /\ P c z.
  Proof. split; [intros F; inversion F as [|? ? ? ? A1 F1]; subst; apply f2_two in F1; tauto|intros (H1 & H2 & H3); repeat constructor; assumption]. Qed.
  Lemma flat_map_nil_r {A B} (l : list A) : flat_map (fun _ => @nil B) l = [].
  Proof. induction l; [reflexivity|exact IHl]. Qed.
  Lemma product_one l : product [l] = map (fun x => [x]) l.
  Proof. cbn. induction l as [|x l IH]; [reflexivity|]. cbn. now rewrite IH. Qed.
  Lemma map_product_two (f : list value -> cell) la lb : map f (product [la; lb]) = flat_map (fun d => map (fun e => f [d; e]) lb) la.
  Proof.
    change (product [la; lb]) with (flat_map (fun x => map (cons x) (product [lb])) la). rewrite product_one. induction la as [|x la IH]; [reflexivity|]. cbn [flat_map]. rewrite map_app, IH. f_equal. now rewrite !map_map.
  Qed.
  Lemma map_product_three (f : list value -> cell) la lb lc : map f (product [la; lb; lc]) = flat_map (fun n => flat_map (fun d => map (fun e => f [n; d; e]) lc) lb) la.
  Proof.
    change (product [la; lb; lc]) with (flat_map (fun x => map (cons x) (product [lb; lc])) la). induction la as [|x la IH]; [reflexivity|]. cbn [flat_map]. rewrite map_app, IH. f_equal.
    rewrite map_map. apply (map_product_two (fun l => f (x :: l))).
  Qed.
  Lemma holds_one q n m : holds nan (concatenated q [(n, m)]) q one_dims (one_value m).
  Proof.
    assert (QB : quantity_beq q q = true) by (destruct q; reflexivity).
    split; [|split].
    - unfold find_var. cbn [concatenated Model_Hydroset.concatenated d_vars find fst map]. rewrite QB. cbn [option_map snd fst d_coords]. unfold one_dims. do 2 f_equal.
      cbn [map labels_in find fst column_beq]. rewrite map_product_two. cbn [flat_map snd]. rewrite app_nil_r. reflexivity.
    - intros c Hc. exact Hc.
    - intros [|d [|e [|? ?]]] HL HN; try discriminate HL. cbn [one_value]. apply value_outside. intros [Hd He]. apply HN. apply f2_two. cbn. tauto.
  Qed.
  Lemma holds_all q l : (forall nm, l <> [nm]) -> NoDup (map fst l) -> holds nan (concatenated q l) q all_dims (all_value l).
  Proof.
    intros HL N. assert (QB : quantity_beq q q = true) by (destruct q; reflexivity).
    set (infl := join_labels arrange InfluencedDof (map (fun nm => m_infl cell (snd nm)) l)). set (rad := join_labels arrange RadiatingDof (map (fun nm => m_rad cell (snd nm)) l)).
    assert (E : concatenated q l = DSet _ _ [(BodyName, map (fun nm => Name (fst nm)) l); (InfluencedDof, infl); (RadiatingDof, rad)] []
      [(q, (all_dims, flat_map (fun nm => flat_map (fun d => map (fun e => value_at (snd nm) d e) rad) infl) l))]).
    { unfold concatenated, Model_Hydroset.concatenated. fold infl rad. destruct l as [|[n m] [|nm' l']]; [reflexivity|exfalso; exact (HL _ eq_refl)|reflexivity]. }
    rewrite E. split; [|split].
    - unfold find_var. cbn [d_vars find fst]. rewrite QB. cbn [option_map snd fst d_coords]. do 2 f_equal. unfold all_dims. cbn [map labels_in find fst column_beq].
      rewrite map_product_three. rewrite (flat_map_concat_map _ (map _ l)), map_map, <- flat_map_concat_map.
      assert (G : forall l0, (forall nm, In nm l0 -> In nm l) -> flat_map (fun nm => flat_map (fun d => map (fun e => value_at (snd nm) d e) rad) infl) l0
        = flat_map (fun nm => flat_map (fun d => map (fun e => all_value l [Name (fst nm); d; e]) rad) infl) l0); [|now apply G].
      induction l0 as [|[n m] l0 IH]; intros HI; [reflexivity|]. cbn [flat_map]. rewrite IH by (intros; apply HI; now right). f_equal. cbn [all_value fst snd].
      rewrite (lookup_in l n m N (HI _ (or_introl eq_refl))). reflexivity.
    - intros c Hc. exact Hc.
    - intros [|n [|d [|e [|? ?]]]] HLn HN; try discriminate HLn. cbn [all_value]. destruct (lookup n l) as [m|] eqn:El; [|reflexivity].
      apply lookup_some in El. destruct El as (n' & -> & Hin). apply value_outside. intros [Hd He]. apply HN. apply f2_three. cbn. split; [|split].
      + apply in_map_iff. now exists (n', m).
      + apply (join_in _ _ (m_infl cell m)); [apply in_map_iff; now exists (n', m)|exact Hd].
      + apply (join_in _ _ (m_rad cell m)); [apply in_map_iff; now exists (n', m)|exact He].
  Qed.
  Lemma good_concatenated q l : good (concatenated q l).
  Proof. unfold good. destruct l as [|[n m] [|nm' l']]; cbn; repeat constructor; cbn; intuition discriminate. Qed.

  (** ** The dataset *)
  Lemma labelled_merge_l (a b m : dset quantity cell) c v : xmerge arrange nan a b = Ok m -> good a -> good m -> labelled a c v -> labelled m c v.
  Proof. intros E Ga Gm H. apply labelled_in in H; [|exact Ga]. destruct H as [H1 H2]. apply labelled_in; [exact Gm|]. split; [apply (merge_dims arrange nan a b m E); now left|eapply merge_labels_l; eassumption]. Qed.
  Lemma labelled_merge_r (a b m : dset quantity cell) c v : xmerge arrange nan a b = Ok m -> good b -> good m -> labelled b c v -> labelled m c v.
  Proof. intros E Ga Gm H. apply labelled_in in H; [|exact Ga]. destruct H as [H1 H2]. apply labelled_in; [exact Gm|]. split; [apply (merge_dims arrange nan a b m E); now right|eapply merge_labels_r; eassumption]. Qed.
  Definition hydro (q : quantity) : Prop := q = InertiaMatrix \/ q = HydrostaticStiffness.
  Lemma other_var q q' l : q <> q' -> find_var q (concatenated q' l) = None.
  Proof.
    intros H. unfold find_var. assert (E : quantity_beq q q' = false) by (destruct q, q'; try reflexivity; exfalso; apply H; reflexivity).
    destruct l as [|[n m] [|nm l]]; cbn [concatenated Model_Hydroset.concatenated d_vars find fst]; rewrite E; reflexivity.
  Qed.
  Lemma kept bodies ds q l : hydrostatics_dataset bodies = Ok ds -> hydro q -> by_name q bodies = l -> l <> [] ->
    good ds /\ (forall dims f, holds nan (concatenated q l) q dims f -> holds nan ds q dims f) /\ forall c v, labelled (concatenated q l) c v -> labelled ds c v.
  Proof.
    intros E Hq El Hn. unfold hydrostatics_dataset, Model_Hydroset.hydrostatics_dataset in E. destruct (add_property _ _ _ _ _ _) as [ds1|] eqn:E1; [|discriminate]. cbn [bind] in E.
    assert (GE : good (@empty_set quantity cell)) by constructor.
    assert (G1 : good ds1).
    { unfold add_property in E1. destruct (Model_Hydroset.by_name cell InertiaMatrix bodies) as [|nm l1]; [injection E1 as <-; exact GE|]. eapply good_merge; [exact E1|exact GE|apply good_concatenated]. }
    assert (G2 : good ds).
    { unfold add_property in E. destruct (Model_Hydroset.by_name cell HydrostaticStiffness bodies) as [|nm l1]; [injection E as <-; exact G1|]. eapply good_merge; [exact E|exact G1|apply good_concatenated]. }
    split; [exact G2|]. destruct Hq as [-> | ->].
    - unfold add_property in E1. rewrite El in E1. destruct l as [|nm l]; [contradiction|].
      assert (X1 : forall dims f, holds nan (concatenated InertiaMatrix (nm :: l)) InertiaMatrix dims f -> holds nan ds1 InertiaMatrix dims f) by (intros dims f H; eapply merge_holds_r; [exact arranged|exact E1|reflexivity|exact H]).
      assert (X2 : forall c v, labelled (concatenated InertiaMatrix (nm :: l)) c v -> labelled ds1 c v) by (intros c v H; eapply labelled_merge_r; [exact E1|apply good_concatenated|exact G1|exact H]).
      unfold add_property in E. destruct (Model_Hydroset.by_name cell HydrostaticStiffness bodies) as [|nm' l']; [injection E as <-; now split|]. split.
      + intros dims f H. eapply merge_holds_l; [exact arranged|exact E|]. now apply X1.
      + intros c v H. eapply labelled_merge_l; [exact E|exact G1|exact G2|]. now apply X2.
    - unfold add_property in E. rewrite El in E. destruct l as [|nm l]; [contradiction|]. split.
      + intros dims f H. eapply merge_holds_r; [exact arranged|exact E| |exact H]. unfold add_property in E1. destruct (Model_Hydroset.by_name cell InertiaMatrix bodies) as [|nm' l']; [injection E1 as <-; reflexivity|].
        rewrite (find_var_merge arrange nan _ _ _ E1 HydrostaticStiffness), find_empty, other_var by discriminate. reflexivity.
      + intros c v H. eapply labelled_merge_r; [exact E|apply good_concatenated|exact G2|exact H].
  Qed.
  Lemma value_inside (m : lmatrix) d e x : sound cell m -> coefficient_of cell m d e x -> value_at m d e = x.
  Proof.
    intros [N1 N2] (i & j & Hi & Hj & Hx). unfold value_at, Model_Hydroset.value_at, at_labels. cbn [map labels_in find fst column_beq flat_position].
    rewrite (position_at _ _ _ N1 Hi), (position_at _ _ _ N2 Hj).
    rewrite product_one, map_length. change (length (product [])) with 1. replace (i * length (m_rad cell m) + (j * 1 + 0)) with (i * length (m_rad cell m) + j) by lia. now rewrite Hx.
  Qed.

  (** ** The values of the dataset *)
  Lemma has_property q b m : has cell q b m <-> hydro q /\ property cell q b = Some m.
  Proof. unfold has, hydro. split; [intros [[-> H]|[-> H]]; auto|intros [[-> | ->] H]; auto]. Qed.
  Lemma values_found bodies ds q b m d e x : NoDup (map (h_name cell) bodies) -> hydrostatics_dataset bodies = Ok ds -> In b bodies -> has cell q b m -> sound cell m -> coefficient_of cell m d e x ->
    sel ds q (at_body (h_name cell b) d e) = Ok x.
  Proof.
    intros ND E Hb Hm Hs Hx. apply has_property in Hm. destruct Hm as [Hq Hp].
    assert (Hin : In (h_name cell b, m) (entries q bodies)) by (apply entries_in; eauto). assert (Nn := entries_nodup q bodies ND).
    destruct (kept bodies ds q (entries q bodies) E Hq (by_name_distinct q bodies ND) ltac:(intros X; rewrite X in Hin; destruct Hin)) as (G & K1 & K2).
    assert (Hd : In d (m_infl cell m)) by (destruct Hx as (i & j & Hi & _); eapply nth_error_In; exact Hi).
    assert (He : In e (m_rad cell m)) by (destruct Hx as (i & j & _ & Hj & _); eapply nth_error_In; exact Hj).
    assert (Ji : In d (join_labels arrange InfluencedDof (map (fun nm => m_infl cell (snd nm)) (entries q bodies)))) by (apply (join_in _ _ (m_infl cell m)); [apply in_map_iff; now exists (h_name cell b, m)|exact Hd]).
    assert (Jr : In e (join_labels arrange RadiatingDof (map (fun nm => m_rad cell (snd nm)) (entries q bodies)))) by (apply (join_in _ _ (m_rad cell m)); [apply in_map_iff; now exists (h_name cell b, m)|exact He]).
    destruct (entries q bodies) as [|[n0 m0] l] eqn:El; [destruct Hin|]. destruct l as [|nm' l].
    - destruct Hin as [Hin|[]]. injection Hin as -> ->. rewrite (holds_sel nan ds q one_dims (one_value m) _ G (K1 _ _ (holds_one q (h_name cell b) m))).
      + cbn. f_equal. now apply value_inside.
      + intros c Hc. apply K2. cbn in Hc. destruct Hc as [<-|[<-|[]]]; eexists; (split; [cbn; eauto|assumption]).
    - assert (NS : forall nm, (n0, m0) :: nm' :: l <> [nm]) by (intros; discriminate).
      rewrite (holds_sel nan ds q all_dims (all_value ((n0, m0) :: nm' :: l)) _ G (K1 _ _ (holds_all q _ NS Nn))).
      + cbn [map at_body all_dims all_value]. rewrite (lookup_in _ _ _ Nn Hin). f_equal. now apply value_inside.
      + intros c Hc. apply K2. cbn in Hc. destruct Hc as [<-|[<-|[<-|[]]]]; eexists; (split; [cbn; eauto|try assumption]). cbn [at_body]. apply (in_map (fun nm => Name (fst nm)) _ _ Hin).
  Qed.
  Lemma values_missing bodies ds q b d e : NoDup (map (h_name cell) bodies) -> hydrostatics_dataset bodies = Ok ds -> hydro q -> several cell q bodies -> In b bodies ->
    (forall m, has cell q b m -> ~ (In d (m_infl cell m) /\ In e (m_rad cell m))) ->
    labelled ds BodyName (Name (h_name cell b)) -> labelled ds InfluencedDof d -> labelled ds RadiatingDof e -> sel ds q (at_body (h_name cell b) d e) = Ok nan.
  Proof.
    intros ND E Hq (b1 & b2 & m1 & m2 & H1 & H2 & Nb & P1 & P2) Hb Hm L1 L2 L3. apply has_property in P1, P2.
    assert (I1 : In (h_name cell b1, m1) (entries q bodies)) by (apply entries_in; exists b1; tauto). assert (I2 : In (h_name cell b2, m2) (entries q bodies)) by (apply entries_in; exists b2; tauto).
    assert (Nn := entries_nodup q bodies ND).
    assert (Nw : h_name cell b1 <> h_name cell b2).
    { clear - ND H1 H2 Nb. induction bodies as [|b0 l IH]; [destruct H1|]. cbn [map] in ND. inversion ND as [|? ? N1 N2]; subst. destruct H1 as [->|H1], H2 as [->|H2].
      - contradiction.
      - intros X. apply N1. rewrite X. now apply in_map.
      - intros X. apply N1. rewrite <- X. now apply in_map.
      - now apply IH. }
    destruct (kept bodies ds q (entries q bodies) E Hq (by_name_distinct q bodies ND) ltac:(intros X; rewrite X in I1; destruct I1)) as (G & K1 & K2).
    assert (NS : forall nm, entries q bodies <> [nm]) by (intros nm X; rewrite X in I1, I2; destruct I1 as [I1|[]], I2 as [I2|[]]; apply Nw; congruence).
    rewrite (holds_sel nan ds q all_dims (all_value (entries q bodies)) _ G (K1 _ _ (holds_all q _ NS Nn))).
    - cbn [map at_body all_dims all_value]. destruct (lookup _ _) as [m|] eqn:El; [|reflexivity]. f_equal. apply value_outside. apply Hm.
      apply lookup_some in El. destruct El as (n' & En & Hin). injection En as <-. apply entries_in in Hin. destruct Hin as (b' & Hb' & En & Hp).
      assert (b' = b) as ->; [|apply has_property; now split].
      clear - ND Hb Hb' En. induction bodies as [|b0 l IH]; [destruct Hb|]. cbn [map] in ND. inversion ND as [|? ? N1 N2]; subst. destruct Hb as [->|Hb], Hb' as [->|Hb']; auto.
      + exfalso. apply N1. rewrite <- En. now apply in_map.
      + exfalso. apply N1. rewrite En. now apply in_map.
    - intros c Hc. cbn in Hc. destruct Hc as [<-|[<-|[<-|[]]]]; assumption.
  Qed.
  Lemma values_absent bodies ds q s : hydrostatics_dataset bodies = Ok ds -> hydro q -> (forall b, In b bodies -> lacks cell q b) -> sel ds q s = Err KeyError.
  Proof.
    intros E Hq H. assert (Z : by_name q bodies = []).
    { unfold by_name, Model_Hydroset.by_name. assert (G : forall l d, (forall b, In b l -> property cell q b = None) -> fold_left (fun d b => match property cell q b with Some m => dict_set (h_name cell b) m d | None => d end) l d = d).
      { induction l as [|b l IH]; intros d0 HN; [reflexivity|]. cbn [fold_left]. rewrite (HN b (or_introl eq_refl)). apply IH. intros; apply HN; now right. }
      apply G. intros b Hb. destruct (property cell q b) eqn:P; [|reflexivity]. exfalso. apply (H b Hb l). apply has_property. now split. }
    assert (F : find_var q ds = None); [|unfold sel; now rewrite F].
    unfold hydrostatics_dataset, Model_Hydroset.hydrostatics_dataset in E. destruct (add_property _ _ _ _ _ _) as [ds1|] eqn:E1; [|discriminate]. cbn [bind] in E. unfold add_property in E, E1.
    destruct Hq as [-> | ->]; rewrite Z in *.
    - injection E1 as <-. destruct (Model_Hydroset.by_name cell HydrostaticStiffness bodies) as [|nm l]; [injection E as <-; reflexivity|].
      rewrite (find_var_merge arrange nan _ _ _ E InertiaMatrix), find_empty, other_var by discriminate. reflexivity.
    - injection E as <-. destruct (Model_Hydroset.by_name cell InertiaMatrix bodies) as [|nm l]; [injection E1 as <-; reflexivity|].
      rewrite (find_var_merge arrange nan _ _ _ E1 HydrostaticStiffness), find_empty, other_var by discriminate. reflexivity.
  Qed.

  (** ** Refusal *)
  Lemma merge_two (a b : dset quantity cell) n n' la lb la' lb' : d_coords _ _ a = [(InfluencedDof, la); (RadiatingDof, lb)] -> d_coords _ _ b = [(InfluencedDof, la'); (RadiatingDof, lb')] ->
    d_scalars _ _ a = [(BodyName, Name n)] -> d_scalars _ _ b = [(BodyName, Name n')] ->
    (n = n' -> exists m, xmerge arrange nan a b = Ok m) /\ (n <> n' -> xmerge arrange nan a b = Err ValueError).
  Proof.
    intros A1 B1 A2 B2. unfold xmerge. rewrite A1, B1, A2, B2. cbn [map fst mem existsb column_beq orb negb filter app forallb snd andb].
    destruct (value_eqb (Name n) (Name n')) eqn:E; cbn [andb]; (split; [intros ->|intros N]).
    - eexists. reflexivity.
    - exfalso. apply (proj1 (value_eqb_eq _ _)) in E. congruence.
    - rewrite (proj2 (value_eqb_eq (Name n') (Name n')) eq_refl) in E. discriminate.
    - reflexivity.
  Qed.
  Lemma merge_first l : exists m, xmerge arrange nan (@empty_set quantity cell) (concatenated InertiaMatrix l) = Ok m
    /\ map fst (d_coords _ _ m) = map fst (d_coords _ _ (concatenated InertiaMatrix l)) /\ d_scalars _ _ m = d_scalars _ _ (concatenated InertiaMatrix l).
  Proof.
    destruct l as [|[n m0] [|nm l]]; (eexists; split; [reflexivity|split; reflexivity]).
  Qed.
  Lemma merge_none_l (a b : dset quantity cell) : d_scalars _ _ a = [] -> exists m, xmerge arrange nan a b = Ok m.
  Proof. intros E. unfold xmerge. rewrite E. cbn [filter forallb]. eauto. Qed.
  Lemma merge_none_r (a b : dset quantity cell) : d_scalars _ _ b = [] -> exists m, xmerge arrange nan a b = Ok m.
  Proof. intros E. unfold xmerge. rewrite E. cbn [filter forallb]. assert (F : forall l : list (column * value), forallb (fun _ => true) l = true) by (induction l; [reflexivity|assumption]). rewrite F. eauto. Qed.
  Lemma merge_dim (a b : dset quantity cell) n : d_scalars _ _ a = [(BodyName, Name n)] -> In BodyName (map fst (d_coords _ _ b)) -> exists m, xmerge arrange nan a b = Ok m.
  Proof.
    intros E H. unfold xmerge. rewrite E. set (dims := map fst (d_coords _ _ a) ++ _). assert (M : mem BodyName dims = true).
    { apply mem_In. unfold dims. apply in_or_app. destruct (mem BodyName (map fst (d_coords _ _ a))) eqn:X; [left; now apply mem_In|]. right. apply filter_In. split; [exact H|now rewrite X]. }
    cbn [filter fst]. rewrite M. cbn [negb forallb]. eauto.
  Qed.
  Lemma two_coords (ds : dset quantity cell) : map fst (d_coords _ _ ds) = [InfluencedDof; RadiatingDof] -> exists la lb, d_coords _ _ ds = [(InfluencedDof, la); (RadiatingDof, lb)].
  Proof. destruct (d_coords _ _ ds) as [|[c la] [|[c' lb] [|? ?]]]; try discriminate. cbn. intros [= -> ->]. eauto. Qed.
  Lemma hydro_result bodies : match by_name InertiaMatrix bodies, by_name HydrostaticStiffness bodies with
    | [(n, _)], [(n', _)] => if String.eqb n n' then exists ds, hydrostatics_dataset bodies = Ok ds else hydrostatics_dataset bodies = Err ValueError
    | _, _ => exists ds, hydrostatics_dataset bodies = Ok ds end.
  Proof.
    unfold hydrostatics_dataset, Model_Hydroset.hydrostatics_dataset, add_property.
    assert (A : forall l l', l <> [] -> match l, l' with
      | [(n, _)], [(n', _)] => if String.eqb n n' then exists ds, bind (xmerge arrange nan empty_set (concatenated InertiaMatrix l)) (fun ds => xmerge arrange nan ds (concatenated HydrostaticStiffness l')) = Ok ds
          else bind (xmerge arrange nan empty_set (concatenated InertiaMatrix l)) (fun ds => xmerge arrange nan ds (concatenated HydrostaticStiffness l')) = Err ValueError
      | _, _ => exists ds, bind (xmerge arrange nan empty_set (concatenated InertiaMatrix l)) (fun ds => xmerge arrange nan ds (concatenated HydrostaticStiffness l')) = Ok ds end).
    { intros l l' Hl. destruct (merge_first l) as (ds1 & -> & M1 & M2). cbn [bind]. destruct l as [|[n m] [|nm l]]; [contradiction| |].
      - destruct l' as [|[n' m'] [|nm' l']].
        + apply (merge_dim _ _ n M2). now left.
        + destruct (two_coords _ M1) as (la & lb & C). destruct (merge_two ds1 (concatenated HydrostaticStiffness [(n', m')]) n n' la lb _ _ C eq_refl M2 eq_refl) as [Y N].
          destruct (String.eqb n n') eqn:E; [apply Y; now apply String.eqb_eq|apply N; now apply String.eqb_neq].
        + apply (merge_dim _ _ n M2). now left.
      - destruct l' as [|[n' m'] [|nm' l']]; apply merge_none_l; exact M2. }
    destruct (by_name InertiaMatrix bodies) as [|nm l] eqn:E1.
    - cbn [bind]. destruct (by_name HydrostaticStiffness bodies) as [|nm' l']; [eauto|]. apply merge_none_l. reflexivity.
    - specialize (A (nm :: l) (by_name HydrostaticStiffness bodies) ltac:(discriminate)). destruct (by_name HydrostaticStiffness bodies) as [|nm' l'] eqn:E2; [|exact A].
      destruct (merge_first (nm :: l)) as (ds1 & -> & _). cbn [bind]. destruct nm, l; eauto.
  Qed.
  Lemma only_name q bodies n : NoDup (map (h_name cell) bodies) -> hydro q -> (only cell q bodies n <-> exists m, by_name q bodies = [(n, m)]).
  Proof.
    intros ND Hq. rewrite (by_name_distinct q bodies ND). split.
    - intros (b & m & Hb & En & Hm & U). exists m. assert (N := entries_nodup q bodies ND). apply has_property in Hm.
      assert (Hin : In (n, m) (entries q bodies)) by (apply entries_in; exists b; tauto).
      assert (A : forall nm, In nm (entries q bodies) -> nm = (n, m)).
      { intros [n' m'] H'. apply entries_in in H'. destruct H' as (b' & Hb' & En' & Hp). assert (EB : b' = b) by (apply (U b' m' Hb'); apply has_property; now split). rewrite EB in En', Hp. destruct Hm as [_ Hm]. f_equal; congruence. }
      destruct (entries q bodies) as [|x [|y l]]; [destruct Hin| |].
      + now rewrite (A x (or_introl eq_refl)).
      + exfalso. rewrite (A x (or_introl eq_refl)), (A y (or_intror (or_introl eq_refl))) in N. cbn in N. inversion N as [|? ? N1 _]; subst. apply N1. now left.
    - intros (m & E). assert (H : In (n, m) (entries q bodies)) by (rewrite E; now left). apply entries_in in H. destruct H as (b & Hb & En & Hp). exists b, m. repeat split; [exact Hb|exact En|apply has_property; now split|].
      intros b' m' Hb' Hm'. apply has_property in Hm'. destruct Hm' as [_ Hm']. assert (H : In (h_name cell b', m') (entries q bodies)) by (apply entries_in; eauto). rewrite E in H. destruct H as [H|[]]. injection H as H _.
      clear - ND Hb Hb' En H. subst n. induction bodies as [|b0 l IH]; [destruct Hb|]. cbn [map] in ND. inversion ND as [|? ? N1 N2]; subst. destruct Hb as [->|Hb], Hb' as [->|Hb']; auto.
      + exfalso. apply N1. rewrite H. now apply in_map.
      + exfalso. apply N1. rewrite <- H. now apply in_map.
  Qed.
  Lemma refused bodies : NoDup (map (h_name cell) bodies) ->
    (exists ds, hydrostatics_dataset bodies = Ok ds) \/ (hydrostatics_dataset bodies = Err ValueError /\ exists n n', n <> n' /\ only cell InertiaMatrix bodies n /\ only cell HydrostaticStiffness bodies n').
  Proof.
    intros ND. assert (H := hydro_result bodies). assert (O1 := fun n => only_name InertiaMatrix bodies n ND (or_introl eq_refl)). assert (O2 := fun n => only_name HydrostaticStiffness bodies n ND (or_intror eq_refl)).
    destruct (by_name InertiaMatrix bodies) as [|[n m] [|? ?]]; [now left| |now left]. destruct (by_name HydrostaticStiffness bodies) as [|[n' m'] [|? ?]]; [now left| |now left].
    destruct (String.eqb n n') eqn:E; [now left|]. right. split; [exact H|]. exists n, n'. apply String.eqb_neq in E. split; [exact E|]. split; [apply O1|apply O2]; eauto.
  Qed.
  Lemma refused_iff bodies n n' : NoDup (map (h_name cell) bodies) -> n <> n' -> only cell InertiaMatrix bodies n -> only cell HydrostaticStiffness bodies n' -> hydrostatics_dataset bodies = Err ValueError.
  Proof.
    intros ND N H1 H2. apply only_name in H1, H2; try assumption; try (now left); try (now right). destruct H1 as (m & E1), H2 as (m' & E2). assert (H := hydro_result bodies). rewrite E1, E2 in H.
    apply String.eqb_neq in N. now rewrite N in H.
  Qed.
End Hydroset.
