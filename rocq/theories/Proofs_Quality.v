(** Proofs about the merging of vertices. *)
From Coq Require Import Reals List Bool Arith Permutation Sorted Lra Lia.
From Verif Require Import Model_Base Model_Geometry Model_Mesh Spec_Mesh Model_Quality Spec_Quality
  Proofs_Geometry Proofs_Mesh Proofs_Mesh2 Proofs_Mesh3.
Import ListNotations.
Open Scope R_scope.

Definition by_val (val : nat -> R) (i j : nat) : Prop := val i <= val j.
Definition gathered (levels : list (list nat)) (i j : nat) : Prop := exists l, In l levels /\ In i l /\ In j l.

Lemma split_concat atol val : forall l vref cur, concat (split_level atol val vref cur l) = cur ++ l.
Proof.
  induction l as [|i l IH]; intros vref cur; cbn; [reflexivity|].
  destruct (Rltb _ _); cbn; rewrite IH; cbn; [reflexivity|now rewrite <- app_assoc].
Qed.
Lemma split_within atol val : 0 <= atol -> forall l vref cur, StronglySorted (by_val val) l ->
  (forall i, In i cur -> vref <= val i <= vref + atol) -> (forall i, In i l -> vref <= val i) ->
  forall lev i j, In lev (split_level atol val vref cur l) -> In i lev -> In j lev -> Rabs (val i - val j) <= atol.
Proof.
  intros Ha. induction l as [|i0 l IH]; intros vref cur So Hc Hl lev i j; cbn.
  - intros [<-|[]] Hi Hj. apply Hc in Hi. apply Hc in Hj. apply Rabs_le. lra.
  - apply StronglySorted_inv in So. destruct So as [So Ff]. rewrite Forall_forall in Ff.
    destruct (Rltb _ _) eqn:T.
    + intros [<-|H] Hi Hj.
      * apply Hc in Hi. apply Hc in Hj. apply Rabs_le. lra.
      * revert H Hi Hj. apply IH; [exact So| |exact Ff]. intros k [<-|[]]. lra.
    + apply Rltb_false in T. apply IH; [exact So| |intros k Hk; apply Hl; now right].
      intros k Hk. apply in_app_or in Hk. destruct Hk as [Hk|[<-|[]]]; [now apply Hc|].
      pose proof (Hl i0 (or_introl eq_refl)). rewrite Rabs_pos_eq in T by lra. lra.
Qed.
Lemma split_gathers atol val : 0 <= atol -> forall l vref cur, StronglySorted (by_val val) l ->
  (forall i, In i cur -> vref <= val i <= vref + atol) -> (forall i, In i l -> vref <= val i) ->
  forall i j, In i (cur ++ l) -> In j (cur ++ l) -> val i = val j -> gathered (split_level atol val vref cur l) i j.
Proof.
  intros Ha. induction l as [|i0 l IH]; intros vref cur So Hc Hl i j; cbn.
  - rewrite app_nil_r. intros Hi Hj _. exists cur. split; [now left|now split].
  - apply StronglySorted_inv in So. destruct So as [So Ff]. rewrite Forall_forall in Ff.
    destruct (Rltb _ _) eqn:T.
    + intros Hi Hj E. apply Rltb_true in T. pose proof (Hl i0 (or_introl eq_refl)) as H0. rewrite Rabs_pos_eq in T by lra.
      assert (G : forall k, In k (i0 :: l) -> vref + atol < val k).
      { intros k [<-|Hk]; [lra|]. specialize (Ff k Hk). unfold by_val in Ff. lra. }
      apply in_app_or in Hi. apply in_app_or in Hj. destruct Hi as [Hi|Hi], Hj as [Hj|Hj].
      * exists cur. split; [now left|now split].
      * apply Hc in Hi. apply G in Hj. lra.
      * apply Hc in Hj. apply G in Hi. lra.
      * destruct (IH (val i0) [i0] So) with (i := i) (j := j) as (lev & A & B); try assumption.
        -- intros k [<-|[]]. lra.
        -- exists lev. split; [now right|exact B].
    + intros Hi Hj E. apply Rltb_false in T. apply IH; [exact So| |intros k Hk; apply Hl; now right| | |exact E].
      * intros k Hk. apply in_app_or in Hk. destruct Hk as [Hk|[<-|[]]]; [now apply Hc|].
        pose proof (Hl i0 (or_introl eq_refl)). rewrite Rabs_pos_eq in T by lra. lra.
      * now rewrite <- app_assoc.
      * now rewrite <- app_assoc.
Qed.
Lemma split_nonempty atol val : forall l vref cur, cur <> [] -> ~ In [] (split_level atol val vref cur l).
Proof.
  induction l as [|i l IH]; intros vref cur Hc; cbn.
  - intros [H|[]]. congruence.
  - destruct (Rltb _ _).
    + intros [H|H]; [contradiction|]. revert H. apply IH; discriminate.
    + apply IH. destruct cur; discriminate.
Qed.

Section Merge.
  Variable argsort : list R -> list nat.
  Hypothesis Hsort : sorts argsort.

  Lemma mapM_get_map {A} (l : list A) (d : A) ks : (forall k, In k ks -> (k < length l)%nat) ->
    mapM (get l) ks = Ok (map (fun k => nth k l d) ks).
  Proof.
    intros H. apply mapM_map. intros k Hk. apply get_ok. now apply nth_error_nth', H.
  Qed.
  Lemma map_nth_seq {A} (l : list A) d : map (fun k => nth k l d) (seq 0 (length l)) = l.
  Proof.
    apply nth_ext with d d; [now rewrite map_length, seq_length|].
    rewrite map_length, seq_length. intros k Hk.
    rewrite (nth_indep _ d (nth 0 l d)) by now rewrite map_length, seq_length.
    rewrite (map_nth (fun k => nth k l d)), seq_nth; auto.
  Qed.
  Lemma sort_level_ok val level : exists s, sort_level argsort val level = Ok s /\ Permutation s level
    /\ StronglySorted (by_val val) s.
  Proof.
    unfold sort_level. destruct (Hsort (map val level)) as [P So]. rewrite map_length in P.
    exists (map (fun k => nth k level 0%nat) (argsort (map val level))). split; [|split].
    - apply mapM_get_map. intros k Hk. apply (Permutation_in _ P) in Hk. apply in_seq in Hk. lia.
    - rewrite P at 1. rewrite map_nth_seq. reflexivity.
    - assert (G : forall ks, (forall k, In k ks -> (k < length level)%nat) ->
         StronglySorted Rle (map (fun k => nth k (map val level) 0) ks) -> StronglySorted (by_val val) (map (fun k => nth k level 0%nat) ks)).
      { assert (E : forall k, (k < length level)%nat -> nth k (map val level) 0 = val (nth k level 0%nat)).
        { intros k Hk. rewrite (nth_indep _ 0 (val 0%nat)) by now rewrite map_length. apply map_nth. }
        induction ks as [|k ks IH]; intros Hk H; cbn; [constructor|]. cbn in H. apply StronglySorted_inv in H.
        destruct H as [H Ff]. constructor; [apply IH; [intros; apply Hk; now right|exact H]|].
        rewrite Forall_forall in *. intros x Hx. apply in_map_iff in Hx. destruct Hx as (j & <- & Hj).
        unfold by_val. rewrite <- !E by (apply Hk; cbn; auto). apply Ff. now apply (in_map (fun k => nth k (map val level) 0)). }
      apply G; [|exact So]. intros k Hk. apply (Permutation_in _ P) in Hk. apply in_seq in Hk. lia.
  Qed.
  (** What one coordinate does to one level. *)
  Record refined (atol : R) (val : nat -> R) (level : list nat) (ls : list (list nat)) : Prop := {
    rf_perm : Permutation (concat ls) level;
    rf_within : forall l i j, In l ls -> In i l -> In j l -> Rabs (val i - val j) <= atol;
    rf_gather : forall i j, In i level -> In j level -> val i = val j -> gathered ls i j;
    rf_nonempty : level <> [] -> ~ In [] ls }.
  Lemma refine_level_ok atol val level : 0 <= atol ->
    exists ls, refine_level argsort atol val level = Ok ls /\ refined atol val level ls.
  Proof.
    intros Ha. assert (One : forall l, (length l <= 1)%nat -> refined atol val l [l]).
    { intros l Hl. destruct l as [|x [|y l]]; [| |cbn in Hl; lia]; constructor; cbn.
      - constructor.
      - intros l i j [<-|[]] [].
      - intros i j [].
      - intros []; reflexivity.
      - reflexivity.
      - intros l i j [<-|[]] [<-|[]] [<-|[]]. unfold Rminus. now rewrite Rplus_opp_r, Rabs_R0.
      - intros i j [<-|[]] [<-|[]] _. exists [x]. cbn; auto.
      - intros _ [H|[]]; discriminate. }
    destruct level as [|x [|y level]]; cbn [refine_level].
    - eexists. split; [reflexivity|]. apply One. cbn; lia.
    - eexists. split; [reflexivity|]. apply One. cbn; lia.
    - set (lev := x :: y :: level). destruct (sort_level_ok val lev) as (s & -> & P & So). cbn [bind].
      destruct s as [|i0 s]; [apply Permutation_length in P; discriminate|].
      eexists. split; [reflexivity|].
      assert (So' := So). apply StronglySorted_inv in So'. destruct So' as [_ Ff]. rewrite Forall_forall in Ff.
      assert (Hge : forall i, In i (i0 :: s) -> val i0 <= val i) by (intros i [<-|Hi]; [lra|now apply Ff]).
      constructor.
      + now rewrite split_concat.
      + intros l i j. apply (split_within atol val Ha _ _ _ So); [intros k []|exact Hge].
      + intros i j Hi Hj. apply (split_gathers atol val Ha _ _ _ So); [intros k []|exact Hge| |];
          cbn; now apply (Permutation_in _ (Permutation_sym P)).
      + intros _. cbn. replace (val i0 - val i0) with 0 by ring. rewrite Rabs_R0.
        destruct (Rltb atol 0) eqn:T; [apply Rltb_true in T; lra|]. apply split_nonempty. discriminate.
  Qed.
  (** All the levels. *)
  Lemma refine_ok atol val levels : 0 <= atol -> exists levels', refine argsort atol val levels = Ok levels'
    /\ Permutation (concat levels') (concat levels)
    /\ (forall l i j, In l levels' -> In i l -> In j l -> Rabs (val i - val j) <= atol /\ gathered levels i j)
    /\ (forall i j, gathered levels i j -> val i = val j -> gathered levels' i j)
    /\ (~ In [] levels -> ~ In [] levels').
  Proof.
    intros Ha. unfold refine. induction levels as [|l0 levels IH].
    - exists []. cbn. split; [reflexivity|]. split; [constructor|]. split; [intros l i j []|].
      split; [intros i j (l & [] & _)|auto].
    - destruct (refine_level_ok atol val l0 Ha) as (ls & E & R). destruct IH as (lv & E' & P & W & G & N).
      cbn [mapM]. rewrite E. cbn [bind]. destruct (mapM (refine_level argsort atol val) levels) as [rs|]; [|discriminate].
      cbn [bind] in *. apply Ok_inj' in E'. subst lv. eexists. split; [reflexivity|]. destruct R as [R1 R2 R3 R4].
      cbn [concat]. split; [|split; [|split]].
      + rewrite concat_app, R1, P. reflexivity.
      + intros l i j Hl Hi Hj. apply in_app_or in Hl. destruct Hl as [Hl|Hl].
        * split; [now apply (R2 l)|]. exists l0. split; [now left|].
          split; (apply (Permutation_in _ R1); apply in_concat; exists l; auto).
        * destruct (W l i j Hl Hi Hj) as [A (l' & B & C)]. split; [exact A|]. exists l'. split; [now right|exact C].
      + intros i j (l & [<-|Hl] & Hi & Hj) E2.
        * destruct (R3 i j Hi Hj E2) as (l' & A & B). exists l'. split; [apply in_or_app; now left|exact B].
        * destruct (G i j) as (l' & A & B); [exists l; auto|exact E2|]. exists l'. split; [apply in_or_app; now right|exact B].
      + intros Hn H. apply in_app_or in H. destruct H as [H|H].
        * revert H. apply R4. intros ->. apply Hn. now left.
        * revert H. apply N. intros H. apply Hn. now right.
  Qed.

  Record merged_levels (atol : R) (vs : list vec) (levels : list (list nat)) : Prop := {
    ml_perm : Permutation (concat levels) (seq 0 (length vs));
    ml_within : forall l i j u v, In l levels -> In i l -> In j l -> nth_error vs i = Some u -> nth_error vs j = Some v -> close atol u v;
    ml_gather : forall i j u, nth_error vs i = Some u -> nth_error vs j = Some u -> gathered levels i j;
    ml_nonempty : vs <> [] -> ~ In [] levels }.
  Lemma coord_some p vs i v : nth_error vs i = Some v -> coord p vs i = p v.
  Proof. unfold coord. now intros ->. Qed.
  Lemma merge_levels_ok atol vs : 0 <= atol ->
    exists levels, merge_levels argsort atol vs = Ok levels /\ merged_levels atol vs levels.
  Proof.
    intros Ha. unfold merge_levels.
    destruct (refine_ok atol (coord vx vs) [seq 0 (length vs)] Ha) as (l1 & -> & P1 & W1 & G1 & N1).
    cbn [bind]. destruct (refine_ok atol (coord vy vs) l1 Ha) as (l2 & -> & P2 & W2 & G2 & N2).
    cbn [bind]. destruct (refine_ok atol (coord vz vs) l2 Ha) as (l3 & -> & P3 & W3 & G3 & N3).
    exists l3. split; [reflexivity|]. constructor.
    - rewrite P3, P2, P1. cbn. now rewrite app_nil_r.
    - intros l i j u v Hl Hi Hj Hu Hv. destruct (W3 l i j Hl Hi Hj) as [A3 (l' & Hl' & Hi' & Hj')].
      destruct (W2 l' i j Hl' Hi' Hj') as [A2 (l'' & Hl'' & Hi'' & Hj'')].
      destruct (W1 l'' i j Hl'' Hi'' Hj'') as [A1 _].
      rewrite !(coord_some _ _ _ _ Hu), !(coord_some _ _ _ _ Hv) in *. now split.
    - intros i j u Hi Hj. apply G3; [apply G2; [apply G1|]|].
      + exists (seq 0 (length vs)). split; [now left|].
        split; apply in_seq; [assert (i < length vs)%nat by (apply nth_error_Some; congruence)|assert (j < length vs)%nat by (apply nth_error_Some; congruence)]; lia.
      + now rewrite (coord_some _ _ _ _ Hi), (coord_some _ _ _ _ Hj).
      + now rewrite (coord_some _ _ _ _ Hi), (coord_some _ _ _ _ Hj).
      + now rewrite (coord_some _ _ _ _ Hi), (coord_some _ _ _ _ Hj).
    - intros Hv. apply N3, N2, N1. intros [H|[]]. destruct vs; [contradiction|discriminate].
  Qed.

  Lemma representatives_ok levels : ~ In [] levels -> exists reps, representatives levels = Ok reps
    /\ length reps = length levels
    /\ forall k l, nth_error levels k = Some l -> exists i, nth_error reps k = Some i /\ In i l.
  Proof.
    induction levels as [|l levels IH]; intros Hn.
    - exists []. split; [reflexivity|]. split; [reflexivity|]. intros [|k] l; discriminate.
    - destruct IH as (reps & E & L & H); [intros H; apply Hn; now right|].
      destruct l as [|i l]; [exfalso; apply Hn; now left|]. exists (i :: reps).
      cbn [representatives]. rewrite E. cbn. split; [reflexivity|]. split; [congruence|].
      intros [|k] l' Hl; [injection Hl as <-; exists i; cbn; auto|now apply H].
  Qed.
  Lemma level_of_some levels i k : level_of levels i = Some k -> exists l, nth_error levels k = Some l /\ In i l.
  Proof.
    revert k. induction levels as [|l levels IH]; intros k; cbn; [discriminate|].
    destruct (memb i l) eqn:M.
    - intros [= <-]. exists l. split; [reflexivity|now apply memb_In].
    - destruct (level_of levels i) as [k'|]; [|discriminate]. intros [= <-]. now apply IH.
  Qed.
  Lemma level_of_In levels i : In i (concat levels) -> exists k, level_of levels i = Some k.
  Proof.
    induction levels as [|l levels IH]; cbn; [intros []|]. intros H. destruct (memb i l) eqn:M; [now exists 0%nat|].
    apply in_app_or in H. destruct H as [H|H]; [apply memb_In in H; congruence|].
    destruct (IH H) as [k ->]. now exists (S k).
  Qed.
  Lemma NoDup_app_disjoint {A} (l l' : list A) x : NoDup (l ++ l') -> In x l -> In x l' -> False.
  Proof.
    induction l as [|a l IH]; cbn; [intros _ []|]. intros H [<-|Hx] Hx'.
    - inversion H as [|? ? N _]; subst. apply N, in_or_app. now right.
    - inversion H; subst. now apply IH.
  Qed.
  Lemma NoDup_app_right {A} (l l' : list A) : NoDup (l ++ l') -> NoDup l'.
  Proof. induction l as [|a l IH]; cbn; [auto|]. intros H. inversion H; subst. auto. Qed.
  Lemma level_of_unique levels k l i : NoDup (concat levels) -> nth_error levels k = Some l -> In i l ->
    level_of levels i = Some k.
  Proof.
    revert k. induction levels as [|l0 levels IH]; intros [|k] Nd; cbn; try discriminate; intros E Hi.
    - injection E as ->. apply memb_In in Hi. now rewrite Hi.
    - cbn in Nd. destruct (memb i l0) eqn:M.
      + exfalso. apply memb_In in M. apply (NoDup_app_disjoint _ _ i Nd M). apply in_concat. exists l.
        split; [now apply nth_error_In in E|exact Hi].
      + rewrite (IH k (NoDup_app_right _ _ Nd) E Hi). reflexivity.
  Qed.

  Record merged (atol : R) (vs : list vec) (uniq : list vec) (ids : list nat) : Prop := {
    mg_length : length ids = length vs;
    mg_from : forall k v, nth_error uniq k = Some v -> exists i, nth_error vs i = Some v /\ nth_error ids i = Some k;
    mg_close : forall i v, nth_error vs i = Some v -> exists k v', nth_error ids i = Some k /\ nth_error uniq k = Some v' /\ close atol v v';
    mg_equal : forall i j v, nth_error vs i = Some v -> nth_error vs j = Some v -> nth_error ids i = nth_error ids j }.
  Lemma merge_rows_ok atol vs : 0 <= atol -> vs <> [] ->
    exists uniq ids, merge_duplicate_rows argsort atol vs = Ok (uniq, ids) /\ merged atol vs uniq ids.
  Proof.
    intros Ha Hv. destruct (merge_levels_ok atol vs Ha) as (levels & E & [P W G N]). unfold merge_duplicate_rows.
    rewrite E. cbn [bind]. destruct (representatives_ok levels (N Hv)) as (reps & -> & Lr & Hr). cbn [bind].
    assert (Nd : NoDup (concat levels)) by (apply (Permutation_NoDup (Permutation_sym P)), seq_NoDup).
    assert (Lt : forall l i, In l levels -> In i l -> (i < length vs)%nat).
    { intros l i Hl Hi. assert (In i (concat levels)) by (apply in_concat; exists l; auto).
      apply (Permutation_in _ P) in H. apply in_seq in H. lia. }
    assert (Hreps : forall k i, nth_error reps k = Some i -> exists l, nth_error levels k = Some l /\ In i l).
    { intros k i Hk. destruct (nth_error levels k) as [l|] eqn:El.
      - destruct (Hr k l El) as (i' & A & B). rewrite Hk in A. injection A as <-. now exists l.
      - apply nth_error_None in El. assert (k < length reps)%nat by (apply nth_error_Some; congruence). lia. }
    destruct (mapM_total (get vs) reps) as [uniq Eu].
    { intros i Hi. apply In_nth_error in Hi. destruct Hi as [k Hk]. destruct (Hreps k i Hk) as (l & A & B).
      apply get_lt. apply (Lt l); [now apply nth_error_In in A|exact B]. }
    rewrite Eu. cbn [bind]. eexists. eexists. split; [reflexivity|]. apply mapM_ok in Eu. destruct Eu as [Lu Hu].
    assert (Ids : forall i, (i < length vs)%nat -> exists k l, level_of levels i = Some k /\ nth_error levels k = Some l /\ In i l
       /\ nth_error (map (new_vertex_id levels) (seq 0 (length vs))) i = Some k).
    { intros i Hi. destruct (level_of_In levels i) as [k Hk].
      - apply (Permutation_in _ (Permutation_sym P)). apply in_seq. lia.
      - destruct (level_of_some _ _ _ Hk) as (l & A & B). exists k, l. split; [exact Hk|]. split; [exact A|]. split; [exact B|].
        rewrite (map_nth_error (new_vertex_id levels) i (seq 0 (length vs)) (d := i)).
        + unfold new_vertex_id. now rewrite Hk.
        + rewrite nth_error_nth' with (d := 0%nat) by now rewrite seq_length. now rewrite seq_nth. }
    constructor.
    - now rewrite map_length, seq_length.
    - intros k v Hk. destruct (nth_error reps k) as [i|] eqn:Er.
      2:{ apply nth_error_None in Er. assert (k < length uniq)%nat by (apply nth_error_Some; congruence). lia. }
      destruct (Hu k i Er) as (v' & A & B). rewrite Hk in B. injection B as <-. apply get_ok in A. exists i. split; [exact A|].
      destruct (Hreps k i Er) as (l & C & D). destruct (Ids i) as (k' & l' & F1 & F2 & F3 & F4).
      { apply (Lt l); [now apply nth_error_In in C|exact D]. }
      rewrite F4. f_equal. pose proof (level_of_unique levels k l i Nd C D). congruence.
    - intros i v Hi. destruct (Ids i) as (k & l & F1 & F2 & F3 & F4); [apply nth_error_Some; congruence|].
      destruct (Hr k l F2) as (r & A & B). destruct (Hu k r A) as (v' & C & D). exists k, v'. split; [exact F4|].
      split; [exact D|]. apply get_ok in C. apply (W l i r v v'); auto. now apply nth_error_In in F2.
    - intros i j v Hi Hj. destruct (G i j v Hi Hj) as (l & A & B & C). apply In_nth_error in A. destruct A as [k A].
      destruct (Ids i) as (k1 & l1 & F1 & _ & _ & ->); [apply nth_error_Some; congruence|].
      destruct (Ids j) as (k2 & l2 & G1 & _ & _ & ->); [apply nth_error_Some; congruence|].
      pose proof (level_of_unique levels k l i Nd A B). pose proof (level_of_unique levels k l j Nd A C). congruence.
  Qed.

  Lemma close_zero u v : close 0 u v -> u = v.
  Proof.
    intros (A & B & C). assert (Z : forall x, Rabs x <= 0 -> x = 0).
    { intros x Hx. pose proof (Rabs_pos x). destruct (Req_dec x 0) as [?|N]; [assumption|]. apply Rabs_pos_lt in N. lra. }
    apply Z in A. apply Z in B. apply Z in C. apply vec_ext; lra.
  Qed.
  Lemma merge_duplicates_ok atol m : 0 <= atol -> valid m -> m_vertices m <> [] ->
    exists m' ids, merge_duplicates argsort atol m = Ok (m', ids) /\ valid m' /\ nb_faces m' = nb_faces m
      /\ merged atol (m_vertices m) (m_vertices m') ids
      /\ (forall k f, nth_error (m_faces m) k = Some f -> exists a b c d,
            nth_error ids (fa f) = Some a /\ nth_error ids (fb f) = Some b
            /\ nth_error ids (fc f) = Some c /\ nth_error ids (fd f) = Some d
            /\ nth_error (m_faces m') k = Some (F a b c d)).
  Proof.
    intros Ha Vm Hv. unfold merge_duplicates.
    destruct (merge_rows_ok atol (m_vertices m) Ha Hv) as (uniq & ids & -> & Mg). cbn [bind fst snd].
    destruct Mg as [M1 M2 M3 M4].
    assert (Hid : forall i, (i < length (m_vertices m))%nat -> exists k, nth_error ids i = Some k /\ (k < length uniq)%nat).
    { intros i Hi. apply nth_error_Some in Hi. destruct (nth_error (m_vertices m) i) as [v|] eqn:E; [|contradiction].
      destruct (M3 i v E) as (k & v' & A & B & _). exists k. split; [exact A|]. apply nth_error_Some. congruence. }
    assert (Hf : forall f, In f (m_faces m) -> exists a b c d, nth_error ids (fa f) = Some a /\ nth_error ids (fb f) = Some b
            /\ nth_error ids (fc f) = Some c /\ nth_error ids (fd f) = Some d /\ renumber_face ids f = Ok (F a b c d)
            /\ (a < length uniq /\ b < length uniq /\ c < length uniq /\ d < length uniq)%nat).
    { intros f Hf. destruct (Hid (fa f)) as (a & A & A'); [apply (Vm f); cbn; auto|].
      destruct (Hid (fb f)) as (b & B & B'); [apply (Vm f); cbn; auto|].
      destruct (Hid (fc f)) as (c & C & C'); [apply (Vm f); cbn; auto|].
      destruct (Hid (fd f)) as (d & D & D'); [apply (Vm f); cbn; auto|].
      exists a, b, c, d. unfold renumber_face, get. rewrite A, B, C, D. cbn. auto 10. }
    destruct (mapM_total (renumber_face ids) (m_faces m)) as [fs Efs].
    { intros f H. destruct (Hf f H) as (a & b & c & d & _ & _ & _ & _ & H5 & _). eauto. }
    rewrite Efs. cbn [bind]. apply mapM_ok in Efs. destruct Efs as [L Hfs].
    assert (Vf : forall f, In f fs -> forall i, In i (face_ids f) -> (i < length uniq)%nat).
    { intros f H. apply In_nth_error in H. destruct H as [k Hk]. destruct (nth_error (m_faces m) k) as [f0|] eqn:E0.
      2:{ apply nth_error_None in E0. assert (k < length fs)%nat by (apply nth_error_Some; congruence). lia. }
      destruct (Hfs k f0 E0) as (y & A & B). rewrite Hk in B. injection B as <-.
      destruct (Hf f0) as (a & b & c & d & _ & _ & _ & _ & H5 & H6); [now apply nth_error_In in E0|].
      rewrite A in H5. apply Ok_inj' in H5. subst f. intros i Hi. cbn in Hi.
      repeat match goal with H : _ \/ _ |- _ => destruct H as [H|H] end; subst; tauto. }
    destruct (build_mesh uniq fs) as [m'|e] eqn:Eb.
    2:{ exfalso. unfold build_mesh in Eb. destruct (forallb _ _) eqn:T; [discriminate|].
        assert (T' : forallb (fun f => forallb (fun i => Nat.ltb i (length uniq)) (face_ids f)) fs = true).
        { apply forallb_forall. intros f H. apply forallb_forall. intros i Hi. apply Nat.ltb_lt. now apply (Vf f). }
        congruence. }
    apply build_mesh_ok in Eb. destruct Eb as [-> V']. cbn [bind]. exists (Mesh uniq fs), ids. split; [reflexivity|].
    split; [exact V'|]. split; [exact L|]. split; [now constructor|].
    intros k f E. destruct (Hfs k f E) as (y & A & B). destruct (Hf f) as (a & b & c & d & H1 & H2 & H3 & H4 & H5 & _); [now apply nth_error_In in E|].
    rewrite H5 in A. apply Ok_inj' in A. subst y. exists a, b, c, d. auto.
  Qed.
End Merge.

(** A sorting permutation is unique when the values are distinct. *)
Lemma sorted_unique (val : nat -> R) : forall l1 l2, Permutation l1 l2 ->
  (forall i j, In i l1 -> In j l1 -> val i = val j -> i = j) ->
  StronglySorted (by_val val) l1 -> StronglySorted (by_val val) l2 -> l1 = l2.
Proof.
  induction l1 as [|a l1 IH]; intros [|b l2] P Hi S1 S2.
  - reflexivity.
  - apply Permutation_length in P. discriminate.
  - apply Permutation_length in P. discriminate.
  - apply StronglySorted_inv in S1. apply StronglySorted_inv in S2. destruct S1 as [S1 F1], S2 as [S2 F2].
    rewrite Forall_forall in F1, F2.
    assert (a = b).
    { assert (Ha : In a (b :: l2)) by (apply (Permutation_in _ P); now left).
      assert (Hb : In b (a :: l1)) by (apply (Permutation_in _ (Permutation_sym P)); now left).
      apply Hi; [now left|exact Hb|]. apply Rle_antisym.
      - destruct Hb as [->|Hb]; [lra|now apply F1].
      - destruct Ha as [->|Ha]; [lra|now apply F2]. }
    subst b. f_equal. apply IH; auto.
    + now apply Permutation_cons_inv in P.
    + intros i j H1 H2. apply Hi; now right.
Qed.
Lemma sort_level_unique argsort val level s : sorts argsort ->
  (forall i j, In i level -> In j level -> val i = val j -> i = j) ->
  Permutation s level -> StronglySorted (by_val val) s -> sort_level argsort val level = Ok s.
Proof.
  intros Hs Hi P So. destruct (sort_level_ok argsort Hs val level) as (s' & -> & P' & So'). f_equal.
  apply (sorted_unique val); auto.
  - now rewrite P', P.
  - intros i j H1 H2. apply Hi; now apply (Permutation_in _ P').
Qed.
