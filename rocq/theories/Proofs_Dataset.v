From Coq Require Import Reals String List Bool Arith Permutation Lia.
From Verif Require Import Model_Base Model_Mesh Proofs_Mesh Model_Problem Model_Solver Proofs_Problem Proofs_Problem2 Model_Dataset Spec_Dataset.
Import ListNotations.
Open Scope nat_scope.

(** ** Equalities *)
Lemma value_eqb_eq a b : value_eqb a b = true <-> a = b.
Proof.
  split.
  - destruct a as [x|s|], b as [y|t|]; cbn; try discriminate; try reflexivity.
    + destruct x, y; cbn; try discriminate; try reflexivity. intros H. apply Reqb_true in H. congruence.
    + destruct x; discriminate.
    + destruct x; discriminate.
    + intros H. apply String.eqb_eq in H. congruence.
  - intros <-. destruct a as [x|s|]; cbn; [|apply String.eqb_refl|reflexivity]. destruct x; cbn; try reflexivity. apply Reqb_refl.
Qed.
Lemma list_eqb_eq l l' : list_eqb l l' = true <-> l = l'.
Proof.
  revert l'. induction l as [|x l IH]; intros [|y l']; cbn; try (split; discriminate); [split; reflexivity|].
  rewrite andb_true_iff, value_eqb_eq, IH. split; [intros [-> ->]; reflexivity|intros [=]; auto].
Qed.
Lemma column_eq a b : column_beq a b = true <-> a = b.
Proof. split; [apply internal_column_dec_bl|apply internal_column_dec_lb]. Qed.
Lemma mem_In c l : mem c l = true <-> In c l.
Proof.
  unfold mem. rewrite existsb_exists. split; [intros (x & H & E); apply column_eq in E; now subst|].
  intros H. exists c. split; [exact H|now apply column_eq].
Qed.

(** ** Labels *)
Lemma unique_In x l : In x (unique l) <-> In x l.
Proof.
  induction l as [|y l IH]; [reflexivity|]. cbn [unique In]. rewrite filter_In, IH, negb_true_iff. split; [tauto|].
  intros [->|H]; [now left|]. destruct (value_eqb y x) eqn:E; [apply value_eqb_eq in E; now left|]. right. auto.
Qed.
Lemma unique_NoDup l : NoDup (unique l).
Proof.
  induction l as [|y l IH]; cbn; constructor.
  - rewrite filter_In, negb_true_iff. intros [_ H]. rewrite (proj2 (value_eqb_eq y y) eq_refl) in H. discriminate.
  - now apply NoDup_filter.
Qed.
Lemma position_In x l : In x l -> exists i, position x l = Some i /\ nth_error l i = Some x.
Proof.
  induction l as [|y l IH]; [intros []|]. cbn [position]. destruct (value_eqb x y) eqn:E.
  - apply value_eqb_eq in E. subst. intros _. exists 0. auto.
  - intros [->|H]; [rewrite (proj2 (value_eqb_eq x x) eq_refl) in E; discriminate|]. destruct (IH H) as (i & -> & N). exists (S i). auto.
Qed.
Lemma position_not x l : ~ In x l -> position x l = None.
Proof.
  induction l as [|y l IH]; [reflexivity|]. cbn. intros H. destruct (value_eqb x y) eqn:E; [apply value_eqb_eq in E; subst; tauto|].
  rewrite IH; tauto.
Qed.
Lemma nth_blocks {A} (x : A) y (P : list (list A)) : forall l i j, nth_error l i = Some x -> nth_error P j = Some y ->
  nth_error (flat_map (fun x => map (cons x) P) l) (i * length P + j) = Some (x :: y).
Proof.
  induction l as [|z l IH]; intros i j Hi Hj; [destruct i; discriminate|]. cbn [flat_map].
  assert (LJ : j < length P) by (apply nth_error_Some; congruence).
  destruct i as [|i]; cbn [nth_error] in Hi.
  - injection Hi as ->. cbn [Nat.mul Nat.add]. rewrite nth_error_app1 by (rewrite map_length; exact LJ). rewrite nth_error_map, Hj. reflexivity.
  - rewrite nth_error_app2 by (rewrite map_length; cbn; lia). rewrite map_length.
    replace (S i * length P + j - length P) with (i * length P + j) by (cbn; lia). now apply IH.
Qed.
Lemma flat_position_In ls labels : Forall2 (fun l x => In x l) ls labels ->
  exists i, flat_position ls labels = Some i /\ nth_error (product ls) i = Some labels.
Proof.
  induction 1 as [|l x ls labels H F IH]; [exists 0; auto|]. destruct IH as (j & E & N). destruct (position_In x l H) as (i & E' & N').
  cbn [flat_position product]. rewrite E, E'. eexists. split; [reflexivity|]. now apply nth_blocks.
Qed.
Lemma flat_position_not ls labels : ~ Forall2 (fun l x => In x l) ls labels -> flat_position ls labels = None.
Proof.
  revert labels. induction ls as [|l ls IH]; intros [|x labels] H; cbn [flat_position]; try reflexivity.
  - exfalso. apply H. constructor.
  - destruct (In_dec (fun a b => match value_eqb a b as v return value_eqb a b = v -> {a = b} + {a <> b} with
      | true => fun e => left (proj1 (value_eqb_eq a b) e)
      | false => fun e => right (fun e' => Bool.diff_false_true (eq_trans (eq_sym e) (proj2 (value_eqb_eq a b) e'))) end eq_refl) x l) as [I|N].
    + rewrite IH; [destruct (position x l); reflexivity|]. intros F. apply H. now constructor.
    + now rewrite (position_not x l N).
Qed.
Lemma at_labels_In {X} coords dims (f : list value -> X) labels : Forall2 (fun c x => In x (labels_in coords c)) dims labels ->
  at_labels coords dims (map f (product (map (labels_in coords) dims))) labels = Some (f labels).
Proof.
  intros F. unfold at_labels. assert (F' : Forall2 (fun l x => In x l) (map (labels_in coords) dims) labels) by (clear - F; induction F; constructor; auto).
  destruct (flat_position_In _ _ F') as (i & -> & N). now rewrite nth_error_map, N.
Qed.
Lemma at_labels_not {X} coords dims (xs : list X) labels : ~ Forall2 (fun c x => In x (labels_in coords c)) dims labels ->
  at_labels coords dims xs labels = None.
Proof.
  intros N. unfold at_labels. rewrite flat_position_not; [reflexivity|]. intros F. apply N. clear N.
  revert labels F. induction dims as [|c dims IH]; intros labels F; inversion F; subst; constructor; auto.
Qed.
Lemma product_In ls labels : In labels (product ls) <-> Forall2 (fun l x => In x l) ls labels.
Proof.
  revert labels. induction ls as [|l ls IH]; intros labels; cbn [product].
  - split; [intros [<-|[]]; constructor|]. intros F. inversion F. now left.
  - rewrite in_flat_map. split.
    + intros (x & Hx & H). apply in_map_iff in H. destruct H as (y & <- & H). constructor; [exact Hx|]. now apply IH.
    + intros F. inversion F as [|? x ? y Hx HF]; subst. exists x. split; [exact Hx|]. apply in_map. now apply IH.
Qed.

Lemma f2_length {A B} (P : A -> B -> Prop) l l' : Forall2 P l l' -> length l = length l'.
Proof. induction 1; cbn; congruence. Qed.

(** ** Squeezing *)
Section Squeeze.
  Variable L : column -> list value.
  Variable sq : column -> bool.
  Fixpoint expand (index : list column) (ks : list value) : list value :=
    match index with
    | [] => []
    | c :: index' => if sq c then hd Missing (L c) :: expand index' ks
                     else match ks with k :: ks' => k :: expand index' ks' | [] => [] end
    end.
  Lemma squeeze_product {X} index : forall f : list value -> X, (forall c, In c index -> sq c = true -> length (L c) = 1) ->
    map f (product (map L index)) = map (fun ks => f (expand index ks)) (product (map L (filter (fun c => negb (sq c)) index))).
  Proof.
    induction index as [|c index IH]; intros f H; [reflexivity|]. cbn [map filter]. assert (IH' := fun g => IH g (fun c' I => H c' (or_intror I))).
    destruct (sq c) eqn:E; cbn [negb].
    - assert (HL := H c (or_introl eq_refl) E). destruct (L c) as [|v [|]] eqn:EL; try discriminate HL. cbn [product flat_map].
      rewrite app_nil_r, map_map. rewrite (IH' (fun x => f (v :: x))). apply map_ext. intros ks. cbn [expand]. now rewrite E, EL.
    - cbn [map product]. induction (L c) as [|v l IHl]; [reflexivity|]. cbn [flat_map]. rewrite !map_app, IHl, !map_map. f_equal.
      rewrite (IH' (fun x => f (v :: x))). apply map_ext. intros ks. cbn [expand]. now rewrite E.
  Qed.
  Lemma expand_map s index : expand index (map s (filter (fun c => negb (sq c)) index)) = map (fun c => if sq c then hd Missing (L c) else s c) index.
  Proof.
    induction index as [|c index IH]; [reflexivity|]. cbn [filter map expand]. destruct (sq c); cbn [negb map]; now rewrite IH.
  Qed.
End Squeeze.

Section Rows.
  Variable cell : Type.
  Variable arrange : column -> list value -> list value.
  Hypothesis arranged : forall c l, Permutation l (arrange c l).
  Notation row := (row cell).
  Notation column_of := (column_of cell).
  Notation key := (key cell).
  Notation drop := (drop_duplicates cell).

  (** ** Duplicated rows *)
  Lemma find_drop index K rows : forall seen, ~ In K seen ->
    find (fun r => list_eqb (key index r) K) (drop index seen rows) = find (fun r => list_eqb (key index r) K) rows.
  Proof.
    induction rows as [|r rows IH]; intros seen HK; [reflexivity|]. cbn [drop_duplicates find].
    destruct (existsb _ seen) eqn:E.
    - apply existsb_exists in E. destruct E as (k & Hk & E). apply list_eqb_eq in E. rewrite IH by exact HK.
      destruct (list_eqb (key index r) K) eqn:E'; [|reflexivity]. apply list_eqb_eq in E'. congruence.
    - cbn [find]. destruct (list_eqb (key index r) K) eqn:E'; [reflexivity|]. apply IH. intros [H|H]; [|tauto].
      apply (proj2 (list_eqb_eq _ _)) in H. congruence.
  Qed.
  Lemma drop_In index rows : forall seen r, In r (drop index seen rows) -> In r rows.
  Proof.
    induction rows as [|x rows IH]; intros seen r; [intros []|]. cbn [drop_duplicates]. destruct (existsb _ seen).
    - intros H. right. eapply IH. exact H.
    - intros [H|H]; [now left|right; eapply IH; exact H].
  Qed.
  Lemma drop_complete index rows r : In r rows -> exists r', In r' (drop index [] rows) /\ key index r' = key index r.
  Proof.
    intros H. destruct (find (fun x => list_eqb (key index x) (key index r)) rows) as [r'|] eqn:E.
    - exists r'. rewrite <- (find_drop index _ rows []) in E by (intros []). apply find_some in E. destruct E as [I E]. split; [exact I|].
      now apply list_eqb_eq.
    - exfalso. apply (find_none _ _ E) in H. cbn in H. rewrite (proj2 (list_eqb_eq _ _) eq_refl) in H. discriminate.
  Qed.
  Lemma key_column index r r' c : key index r' = key index r -> In c index -> column_of r' c = column_of r c.
  Proof.
    unfold Model_Dataset.key. induction index as [|d index IH]; [intros _ []|]. intros [= E1 E2] [->|I]; [exact E1|]. now apply IH.
  Qed.
  Lemma find_first P (p : row -> bool) l r : (forall x, In x l -> p x = true <-> P x) -> find p l = Some r <-> first_such cell P l r.
  Proof.
    intros HP. split.
    - induction l as [|x l IH]; [discriminate|]. cbn. destruct (p x) eqn:E.
      + intros [= ->]. exists [], l. split; [reflexivity|]. split; [apply HP; [now left|exact E]|intros ? []].
      + intros H. destruct (IH (fun y I => HP y (or_intror I)) H) as (l1 & l2 & -> & Pr & N). exists (x :: l1), l2. split; [reflexivity|].
        split; [exact Pr|]. intros y [<-|I]; [|now apply N]. intros Px. apply (HP x (or_introl eq_refl)) in Px. congruence.
    - intros (l1 & l2 & -> & Pr & N). induction l1 as [|x l1 IH]; cbn.
      + now rewrite (proj2 (HP r (or_introl eq_refl)) Pr).
      + destruct (p x) eqn:E; [exfalso; apply (N x); [now left|apply HP; [now left|exact E]]|].
        apply IH; [intros y I; apply HP; now right|intros y I; apply N; now right].
  Qed.

  (** ** One dataframe *)
  Section Frame.
    Context {X : Type} (get : row -> quantity -> X) (missing : X).
    Definition frame_value index rows q labels := match find (fun r => list_eqb (key index r) labels) rows with Some r => get r q | None => missing end.
    Definition holds (ds : dset quantity X) (q : quantity) (dims : list column) (f : list value -> X) : Prop :=
      find_var q ds = Some (dims, map f (product (map (labels_in (d_coords _ _ ds)) dims)))
      /\ (forall c, In c dims -> In c (map fst (d_coords _ _ ds)))
      /\ (forall labels, length labels = length dims -> ~ Forall2 (fun c x => In x (labels_in (d_coords _ _ ds) c)) dims labels -> f labels = missing).

    Lemma labels_in_map (F : column -> list value) index c : In c index -> labels_in (map (fun c => (c, F c)) index) c = F c.
    Proof.
      unfold labels_in. induction index as [|d index IH]; [intros []|]. cbn [map find fst]. destruct (column_beq c d) eqn:E.
      - apply column_eq in E. now subst.
      - intros [->|I]; [rewrite (proj2 (column_eq c c) eq_refl) in E; discriminate|]. now apply IH.
    Qed.
    Lemma labels_in_filter (p : column -> bool) coords c : p c = true -> labels_in (filter (fun cl => p (fst cl)) coords) c = labels_in coords c.
    Proof.
      intros Hp. unfold labels_in. induction coords as [|[d l] coords IH]; [reflexivity|]. cbn [filter fst].
      destruct (p d) eqn:Ed; cbn [find fst].
      - destruct (column_beq c d); [reflexivity|exact IH].
      - destruct (column_beq c d) eqn:E; [apply column_eq in E; congruence|exact IH].
    Qed.
    Lemma find_var_map (F : quantity -> list column * list X) vars q coords scalars : In q vars ->
      find_var q (DSet _ _ coords scalars (map (fun v => (v, F v)) vars)) = Some (F q).
    Proof.
      unfold find_var. cbn [d_vars]. induction vars as [|v vars IH]; [intros []|]. cbn [map find fst].
      destruct (quantity_beq q v) eqn:E; [apply internal_quantity_dec_bl in E; now subst|].
      intros [->|I]; [rewrite (internal_quantity_dec_lb q q eq_refl) in E; discriminate|]. now apply IH.
    Qed.

    Variables (rows : list row) (vars : list quantity) (dims optional : list column).
    Let index := optional ++ dims.
    Let rows' := drop index [] rows.
    Let L c := arrange c (unique (map (fun r => column_of r c) rows')).
    Let coords := map (fun c => (c, L c)) index.
    Let sq c := (mem c optional && Nat.eqb (length (labels_in coords c)) 1)%bool.
    Let kept := filter (fun c => negb (sq c)) index.
    Let ds := from_dataframe cell arrange get missing rows vars dims optional.

    Lemma L_In c v : In c index -> In v (L c) <-> exists r, In r rows /\ column_of r c = v.
    Proof.
      intros Hc. unfold L. split.
      - intros H. apply (Permutation_in _ (Permutation_sym (arranged c _))) in H. apply (proj1 (unique_In _ _)) in H. apply in_map_iff in H.
        destruct H as (r & <- & H). exists r. split; [eapply drop_In; exact H|reflexivity].
      - intros (r & H & <-). apply (Permutation_in _ (arranged c _)). apply (proj2 (unique_In _ _)). apply in_map_iff.
        destruct (drop_complete index rows r H) as (r' & H' & E). exists r'. split; [|exact H']. now apply (key_column index).
    Qed.
    Lemma L_NoDup c : NoDup (L c).
    Proof. unfold L. eapply Permutation_NoDup; [apply arranged|apply unique_NoDup]. Qed.
    Lemma sq_spec c : In c index -> rows <> [] -> sq c = true <-> In c optional /\ ~ varying cell rows c.
    Proof.
      intros Hc HR. unfold sq. rewrite andb_true_iff, mem_In. unfold coords. rewrite labels_in_map by exact Hc.
      assert (E : Nat.eqb (length (L c)) 1 = true <-> ~ varying cell rows c); [|tauto]. rewrite Nat.eqb_eq. split.
      - intros H (r & r' & Hr & Hr' & N). apply N.
        assert (I : In (column_of r c) (L c)) by (apply L_In; [exact Hc|eauto]).
        assert (I' : In (column_of r' c) (L c)) by (apply L_In; [exact Hc|eauto]).
        destruct (L c) as [|v [|]]; try discriminate H. destruct I as [<-|[]], I' as [<-|[]]. reflexivity.
      - intros NV. assert (X0 : exists r0, In r0 rows) by (clear - HR; destruct rows as [|r0 l]; [tauto|exists r0; now left]).
        destruct X0 as (r0 & H0). assert (I : In (column_of r0 c) (L c)) by (apply L_In; [exact Hc|]; exists r0; auto).
        assert (A : forall v, In v (L c) -> v = column_of r0 c).
        { intros v Hv. apply L_In in Hv; [|exact Hc]. destruct Hv as (r & Hr & <-).
          destruct (value_eqb (column_of r c) (column_of r0 c)) eqn:E; [now apply value_eqb_eq|]. exfalso. apply NV. exists r, r0.
          split; [exact Hr|]. split; [exact H0|]. intros H. apply (proj2 (value_eqb_eq _ _)) in H. congruence. }
        assert (ND := L_NoDup c). destruct (L c) as [|v [|w t]]; [destruct I|reflexivity|]. exfalso.
        assert (v = w) by (rewrite (A v) by (now left); rewrite (A w) by (right; now left); reflexivity). subst.
        inversion ND as [|? ? HN ?]; subst. apply HN. now left.
    Qed.
    Lemma ds_labels c : In c kept -> labels_in (d_coords _ _ ds) c = L c.
    Proof.
      intros Hc. unfold kept in Hc. apply filter_In in Hc. destruct Hc as [Hi Hs]. unfold ds, from_dataframe. cbn [d_coords].
      fold index. fold rows'. change (map (fun c => (c, arrange c (unique (map (fun r => column_of r c) rows')))) index) with coords.
      rewrite (labels_in_filter (fun c => negb (mem c optional && Nat.eqb (length (labels_in coords c)) 1)%bool) coords c) by exact Hs.
      unfold coords. now apply labels_in_map.
    Qed.
    Definition frame_at (q : quantity) (ks : list value) : X := frame_value index rows' q (expand (labels_in coords) sq index ks).

    Lemma frame_holds q : In q vars -> holds ds q kept (frame_at q).
    Proof.
      intros Hq. split; [|split].
      - unfold ds, from_dataframe. cbv zeta. rewrite find_var_map by exact Hq. cbn [d_coords]. fold index. fold rows'.
        change (map (fun c => (c, arrange c (unique (map (fun r => column_of r c) rows')))) index) with coords.
        change (fun labels => match find (fun r => list_eqb (key index r) labels) rows' with Some r => get r q | None => missing end) with (frame_value index rows' q).
        change (filter (fun c => negb (mem c optional && Nat.eqb (length (labels_in coords c)) 1)) index) with kept.
        do 2 f_equal. rewrite (squeeze_product (labels_in coords) sq index (frame_value index rows' q)).
        + fold kept. do 2 f_equal. apply map_ext_in. intros c Hc. apply filter_In in Hc. destruct Hc as [Hi Hs].
          symmetry. exact (labels_in_filter (fun c => negb (mem c optional && Nat.eqb (length (labels_in coords c)) 1)%bool) coords c Hs).
        + intros c _ Hs. unfold sq in Hs. apply andb_true_iff in Hs. destruct Hs as [_ Hs]. now apply Nat.eqb_eq.
      - intros c Hc. unfold kept in Hc. apply filter_In in Hc. destruct Hc as [Hi Hs]. unfold ds, from_dataframe. cbn [d_coords].
        fold index. fold rows'. change (map (fun c => (c, arrange c (unique (map (fun r => column_of r c) rows')))) index) with coords.
        apply in_map_iff. exists (c, L c). split; [reflexivity|]. apply filter_In. split; [|exact Hs]. unfold coords. apply in_map_iff. eauto.
      - intros labels HL N. unfold frame_at, frame_value.
        destruct (find _ rows') as [r|] eqn:E; [|reflexivity]. exfalso. apply N. apply find_some in E. destruct E as [Hr E].
        apply list_eqb_eq in E. apply drop_In in Hr.
        assert (D : forall c, In c kept -> labels_in (d_coords _ _ ds) c = L c) by exact ds_labels.
        assert (HI : forall c, In c index -> In (column_of r c) (L c)) by (intros c Hc; apply L_In; eauto).
        clear N Hq. unfold Model_Dataset.key in E. unfold kept in D, HL |- *. clearbody L sq. revert labels HL E D HI. generalize index as ind.
        induction ind as [|c ind IH]; intros labels HL E D HI; cbn [filter map expand] in *.
        + destruct labels; [constructor|discriminate].
        + destruct (sq c) eqn:Es; cbn [negb] in *.
          * injection E as _ E. apply IH; auto. intros; apply HI; now right.
          * destruct labels as [|k ks]; [discriminate|]. injection E as E1 E2. constructor.
            -- rewrite D by now left. rewrite <- E1. apply HI. now left.
            -- apply IH; auto. intros; apply D; now right. intros; apply HI; now right.
    Qed.

    (** The value is that of the first row with these labels. *)
    Lemma frame_at_agree q s : rows <> [] -> 
      (forall r, first_such cell (agrees cell kept s) rows r -> frame_at q (map s kept) = get r q)
      /\ ((forall r, In r rows -> ~ agrees cell kept s r) -> frame_at q (map s kept) = missing).
    Proof.
      intros HR. unfold frame_at, frame_value. unfold kept at 1. rewrite expand_map.
      assert (P : forall r, In r rows -> list_eqb (key index r) (map (fun c => if sq c then hd Missing (labels_in coords c) else s c) index) = true
        <-> agrees cell kept s r).
      { intros r Hr. rewrite list_eqb_eq. unfold Model_Dataset.key. split.
        - intros E c Hc. unfold kept in Hc. apply filter_In in Hc. destruct Hc as [Hi Hs].
          assert (A : forall c, In c index -> column_of r c = if sq c then hd Missing (labels_in coords c) else s c).
          { clear - E. revert E. generalize index as ind. induction ind as [|d ind IH]; [intros _ c []|].
            intros [= E1 E2] c [->|I]; [exact E1|now apply IH]. }
          rewrite (A c Hi). destruct (sq c); [discriminate|reflexivity].
        - intros A. apply map_ext_in. intros c Hc. destruct (sq c) eqn:Es.
          + assert (HL : In (column_of r c) (L c)) by (apply L_In; eauto). unfold coords. rewrite labels_in_map by exact Hc.
            unfold sq in Es. apply andb_true_iff in Es. destruct Es as [_ Es]. unfold coords in Es. rewrite labels_in_map in Es by exact Hc.
            apply Nat.eqb_eq in Es. destruct (L c) as [|v [|]]; try discriminate Es. destruct HL as [<-|[]]. reflexivity.
          + apply A. unfold kept. apply filter_In. split; [exact Hc|now rewrite Es]. }
      unfold rows'. rewrite find_drop by (intros []). split.
      - intros r Hr. apply (find_first _ _ _ _ P) in Hr. now rewrite Hr.
      - intros N. destruct (find _ rows) as [r|] eqn:E; [|reflexivity]. exfalso. apply find_some in E. destruct E as [Hr E].
        apply (N r Hr). now apply P.
    Qed.
    Lemma varying_dec c : varying cell rows c \/ ~ varying cell rows c.
    Proof.
      destruct (existsb (fun r => existsb (fun r' => negb (value_eqb (column_of r c) (column_of r' c))) rows) rows) eqn:E.
      - left. apply existsb_exists in E. destruct E as (r & Hr & E). apply existsb_exists in E. destruct E as (r' & Hr' & E).
        exists r, r'. split; [exact Hr|]. split; [exact Hr'|]. intros H. apply (proj2 (value_eqb_eq _ _)) in H. rewrite H in E. discriminate.
      - right. intros (r & r' & Hr & Hr' & N). assert (existsb (fun r => existsb (fun r' => negb (value_eqb (column_of r c) (column_of r' c))) rows) rows = true); [|congruence].
        apply existsb_exists. exists r. split; [exact Hr|]. apply existsb_exists. exists r'. split; [exact Hr'|].
        destruct (value_eqb _ _) eqn:E'; [apply value_eqb_eq in E'; tauto|reflexivity].
    Qed.
    Lemma kept_In c : rows <> [] -> (forall c, In c dims -> ~ In c optional) -> In c kept <-> In c dims \/ In c optional /\ varying cell rows c.
    Proof.
      intros HR HD. unfold kept. rewrite filter_In, negb_true_iff. unfold index. rewrite in_app_iff.
      assert (S0 : In c index -> sq c = false <-> ~ (In c optional /\ ~ varying cell rows c)).
      { intros Hc. rewrite <- (sq_spec c Hc HR). destruct (sq c); split; congruence || tauto || (intros _ H; discriminate). }
      unfold index in S0. rewrite in_app_iff in S0. specialize (HD c). destruct (varying_dec c); split.
      - intros [[H0|H0] H1]; tauto.
      - intros [H0|[H0 H1]]; (split; [tauto|]); apply S0; tauto.
      - intros [[H0|H0] H1]; [|tauto]. apply S0 in H1; tauto.
      - intros [H0|[H0 H1]]; [|tauto]. split; [tauto|]. apply S0; tauto.
    Qed.
    Lemma kept_labels c r : In c kept -> In r rows -> In (column_of r c) (labels_in (d_coords _ _ ds) c).
    Proof. intros Hc Hr. rewrite ds_labels by exact Hc. unfold kept in Hc. apply filter_In in Hc. apply L_In; [tauto|eauto]. Qed.
    Lemma frame_var_none q : ~ In q vars -> find_var q ds = None.
    Proof.
      intros H. unfold ds, from_dataframe, find_var. cbn [d_vars]. induction vars as [|v l IH]; [reflexivity|]. cbn [map find fst].
      destruct (quantity_beq q v) eqn:E; [apply internal_quantity_dec_bl in E; subst; exfalso; apply H; now left|]. apply IH.
      intros I. apply H. now right.
    Qed.
  End Frame.

  (** ** Merging *)
  Section Merging.
    Context {X : Type} (missing : X).
    Variables a b m : dset quantity X.
    Hypothesis E : xmerge arrange missing a b = Ok m.

    Lemma merge_coords_of : d_coords _ _ m = map (fun c => (c, merge_labels arrange a b c))
      (map fst (d_coords _ _ a) ++ filter (fun c => negb (mem c (map fst (d_coords _ _ a)))) (map fst (d_coords _ _ b))).
    Proof. unfold xmerge in E. destruct (forallb _ _); [|discriminate]. injection E as <-. reflexivity. Qed.
    Lemma merge_dims c : In c (map fst (d_coords _ _ m)) <-> In c (map fst (d_coords _ _ a)) \/ In c (map fst (d_coords _ _ b)).
    Proof.
      rewrite merge_coords_of, map_map. cbn [fst]. rewrite map_id, in_app_iff, filter_In, negb_true_iff.
      destruct (mem c (map fst (d_coords _ _ a))) eqn:M.
      - apply mem_In in M. split; [tauto|]. intros _. now left.
      - tauto.
    Qed.
    Lemma merge_labels_l c v : In c (map fst (d_coords _ _ a)) -> In v (labels_in (d_coords _ _ a) c) -> In v (labels_in (d_coords _ _ m) c).
    Proof.
      intros Hc Hv. rewrite merge_coords_of, labels_in_map.
      - unfold merge_labels. rewrite (proj2 (mem_In _ _) Hc). cbn [negb]. destruct (mem c _); [|exact Hv]. cbn [negb].
        destruct (list_eqb _ _); [exact Hv|]. apply (Permutation_in _ (arranged c _)). apply unique_In. apply in_or_app. now left.
      - apply in_or_app. now left.
    Qed.
    Lemma merge_labels_r c v : In c (map fst (d_coords _ _ b)) -> In v (labels_in (d_coords _ _ b) c) -> In v (labels_in (d_coords _ _ m) c).
    Proof.
      intros Hc Hv. rewrite merge_coords_of, labels_in_map.
      - unfold merge_labels. destruct (mem c (map fst (d_coords _ _ a))); cbn [negb]; [|exact Hv]. rewrite (proj2 (mem_In _ _) Hc). cbn [negb].
        destruct (list_eqb _ _) eqn:EL; [apply list_eqb_eq in EL; now rewrite EL|]. apply (Permutation_in _ (arranged c _)). apply unique_In. apply in_or_app. now right.
      - apply in_or_app. destruct (mem c (map fst (d_coords _ _ a))) eqn:M; [left; now apply mem_In|]. right. apply filter_In. split; [exact Hc|now rewrite M].
    Qed.
    Lemma find_redo (d : dset quantity X) coords q : find (fun v => quantity_beq q (fst v))
      (map (fun v => (fst v, (fst (snd v), reindex missing (d_coords _ _ d) coords (fst (snd v)) (snd (snd v))))) (d_vars _ _ d))
      = option_map (fun v => (fst v, (fst (snd v), reindex missing (d_coords _ _ d) coords (fst (snd v)) (snd (snd v)))))
          (find (fun v => quantity_beq q (fst v)) (d_vars _ _ d)).
    Proof. induction (d_vars _ _ d) as [|v l IH]; [reflexivity|]. cbn [map find fst]. destruct (quantity_beq q (fst v)); [reflexivity|exact IH]. Qed.
    Lemma find_app_case {A} (p : A -> bool) l l' : find p (l ++ l') = match find p l with Some x => Some x | None => find p l' end.
    Proof. induction l as [|x l IH]; [reflexivity|]. cbn. destruct (p x); [reflexivity|exact IH]. Qed.
    Lemma find_var_merge q : find_var q m =
      match find_var q a with
      | Some (dims, xs) => Some (dims, reindex missing (d_coords _ _ a) (d_coords _ _ m) dims xs)
      | None => match find_var q b with
                | Some (dims, xs) => Some (dims, reindex missing (d_coords _ _ b) (d_coords _ _ m) dims xs)
                | None => None
                end
      end.
    Proof.
      unfold find_var. unfold xmerge in E. destruct (forallb _ _); [|discriminate]. injection E as <-. cbn [d_vars d_coords].
      rewrite find_app_case, !find_redo. destruct (find _ (d_vars _ _ a)) as [[v [dims xs]]|]; cbn [option_map fst snd]; [reflexivity|].
      destruct (find _ (d_vars _ _ b)) as [[v [dims xs]]|]; reflexivity.
    Qed.
    Lemma reindex_map old dims f : (forall c v, In c dims -> In v (labels_in old c) -> In v (labels_in (d_coords _ _ m) c)) ->
      (forall labels, length labels = length dims -> ~ Forall2 (fun c x => In x (labels_in old c)) dims labels -> f labels = missing) ->
      reindex missing old (d_coords _ _ m) dims (map f (product (map (labels_in old) dims))) = map f (product (map (labels_in (d_coords _ _ m)) dims)).
    Proof.
      intros HS HM. unfold reindex. apply map_ext_in. intros labels HL. apply product_In in HL.
      assert (HN : length labels = length dims) by (apply f2_length in HL; rewrite map_length in HL; auto).
      destruct (flat_position (map (labels_in old) dims) labels) eqn:EP.
      - assert (F : Forall2 (fun c x => In x (labels_in old c)) dims labels).
        { clear - EP HN. revert labels n EP HN. induction dims as [|c dims IH]; intros [|x labels] n EP HN; try discriminate HN; [constructor|].
          cbn [map flat_position] in EP. destruct (position x _) eqn:E1; [|discriminate]. destruct (flat_position _ _) eqn:E2; [|discriminate].
          constructor; [|eapply IH; [exact E2|cbn in HN; lia]]. clear - E1. revert n0 E1. induction (labels_in old c) as [|y l IH]; [discriminate|].
          cbn. intros n0. destruct (value_eqb x y) eqn:E; [apply value_eqb_eq in E; now left|]. destruct (position x l) eqn:EP; [|discriminate].
          intros _. right. eapply IH. reflexivity. }
        now rewrite (at_labels_In old dims f labels F).
      - unfold at_labels. rewrite EP. symmetry. apply HM; [exact HN|]. intros F.
        assert (F' : Forall2 (fun l x => In x l) (map (labels_in old) dims) labels) by (clear - F; induction F; constructor; auto).
        destruct (flat_position_In _ _ F') as (i & EI & _). congruence.
    Qed.
    Lemma merge_holds_l q dims f : holds missing a q dims f -> holds missing m q dims f.
    Proof.
      intros (F & D & M). split; [|split].
      - rewrite find_var_merge, F. f_equal. f_equal. apply reindex_map; [|exact M]. intros c v Hc. apply merge_labels_l. now apply D.
      - intros c Hc. apply merge_dims. left. now apply D.
      - intros labels HL N. apply M; [exact HL|]. intros F2. apply N.
        assert (G : forall c v, In c dims -> In v (labels_in (d_coords _ _ a) c) -> In v (labels_in (d_coords _ _ m) c)) by (intros; apply merge_labels_l; auto).
        clear - F2 G. induction F2 as [|c x dims labels H F2 IH]; constructor; [apply G; [now left|exact H]|apply IH; intros; apply G; [now right|assumption]].
    Qed.
    Lemma merge_holds_r q dims f : find_var q a = None -> holds missing b q dims f -> holds missing m q dims f.
    Proof.
      intros HN (F & D & M). split; [|split].
      - rewrite find_var_merge, HN, F. f_equal. f_equal. apply reindex_map; [|exact M]. intros c v Hc. apply merge_labels_r. now apply D.
      - intros c Hc. apply merge_dims. right. now apply D.
      - intros labels HL N. apply M; [exact HL|]. intros F2. apply N.
        assert (G : forall c v, In c dims -> In v (labels_in (d_coords _ _ b) c) -> In v (labels_in (d_coords _ _ m) c)) by (intros; apply merge_labels_r; auto).
        clear - F2 G. induction F2 as [|c x dims labels H F2 IH]; constructor; [apply G; [now left|exact H]|apply IH; intros; apply G; [now right|assumption]].
    Qed.
  End Merging.
End Rows.
