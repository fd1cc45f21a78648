(** The matrices of the hierarchical engine for a collection of meshes at one level. *)
From Coq Require Import Reals List Arith Bool ZArith Lia.
From Verif Require Import Model_Base Model_Ring Spec_Ring Model_Block Spec_Block Proofs_Block2 Model_Geometry Model_Mesh Proofs_Mesh Model_Quality Spec_Quality
  Model_Engine Spec_Engine Model_Tree Spec_Tree Proofs_Tree Proofs_Symmetry Proofs_Tree2 Proofs_Engine Proofs_Engine2 Proofs_Engine3 Proofs_Engine4 Proofs_Engine5
  Proofs_Engine6 Proofs_Engine7 Model_Precond Spec_Precond Proofs_Precond2 Proofs_Precond3 Proofs_Precond6 Proofs_Precond7.
Import ListNotations.
Open Scope nat_scope.

Section Engine.
Context {A : coeffs}.
Variable G : bool -> panel -> panel -> A * A.
Variable rel : A -> A -> Prop.
Variable argsort : list R -> list nat.
Variable ACA_distance : R.
Variable aca : (nat -> result (mat A * mat A)) -> (nat -> result (mat A * mat A)) -> nat -> nat -> result (option (mat A * mat A)).
Hypothesis Hrel : forall x, rel x x.
Hypothesis Hd : (0 <= ACA_distance)%R.
Hypothesis Hs : sorts argsort.
Hypothesis Hacc : accurate rel aca.
Hypothesis Hresp : responsive aca.
Notation hier := (hierarchical_matrices G argsort ACA_distance aca).

(** The matrices are built, and their entries are those of the Green function. *)
Lemma hier_entries t : unstructured t -> filled t -> all_valid t -> faced t ->
  exists S K ps, hier true t t = Ok (S, K) /\ t_panels t = Ok ps /\ length ps = t_nb_faces t /\ wf K /\ shape K = (t_nb_faces t, t_nb_faces t) /\ wf S
  /\ (forall F, represents K F -> forall i j p q, nth_error ps i = Some p -> nth_error ps j = Some q -> rel (F i j) (snd (G (i =? j) p q)))
  /\ (forall F, represents S F -> forall i j p q, nth_error ps i = Some p -> nth_error ps j = Some q -> rel (F i j) (fst (G (i =? j) p q))).
Proof using Hrel Hd Hs Hacc Hresp.
  intros U Fi V Fc. destruct (raw_total t Fi V) as [r E]. pose proof (unstructured_regular t U) as Rg.
  assert (HG : forall k, In k (kinds t) -> respects (fun _ _ => True) G k) by (intros k Hk; rewrite (U k Hk); exact I).
  assert (HC : coherent (kinds t)) by (intros k1 k2 H1 H2; rewrite (U k1 H1); discriminate).
  destruct (hier_total G argsort Hs ACA_distance aca Hresp t Rg Fc t true r r Rg Fc E E) as [[S K] Esk].
  assert (FP : faces_in (fun _ _ => True) t) by (repeat intro; exact I).
  pose proof (hier_good _ G rel Hrel (kinds t) HG HC argsort ACA_distance Hd aca Hacc t Rg (incl_refl _) t true r r _ Rg (incl_refl _) (fun _ => eq_refl) E E
    (faces_within _ t r E FP) (faces_within _ t r E FP) Esk) as Gsk.
  exists S, K, (map panel_raw r). split; [exact Esk|]. split; [now rewrite t_panels_raw, E|].
  assert (L : length (map panel_raw r) = t_nb_faces t) by (rewrite map_length; exact (raw_length _ _ E)). split; [exact L|].
  destruct (Gsk false) as (W & Sh & HF). destruct (Gsk true) as (W' & Sh' & HF'). cbn [sel snd fst] in *. rewrite L in *.
  split; [exact W|]. split; [exact Sh|]. split; [exact W'|].
  split; intros F RF i j p q Hp Hq; [apply (HF F RF)|apply (HF' F RF)]; unfold coefficient; rewrite Hp, Hq; reflexivity.
Qed.

Lemma hier_parts ms S K : let t := Node Model_Tree.Plain (map Leaf ms) in hier true t t = Ok (S, K) ->
  exists bl, K = mk Model_Block.Plain (length ms) (length ms) bl
  /\ forall i m, nth_error ms i = Some m -> exists f, bl i i = Dense (nb_faces m) (nb_faces m) f.
Proof using Hd.
  intros t H. assert (U : unstructured t).
  { apply unstructured_node. intros x Hx. apply in_map_iff in Hx. destruct Hx as (m & <- & _). intros k []. }
  apply (hier_self G argsort ACA_distance aca Hd _ _ _ U) in H. unfold blocks_case, t in H.
  destruct (sequence _) as [ls|] eqn:Els in H; [|discriminate]. cbn [bind] in H. apply Ok_inj' in H.
  unfold block_matrix in H. injection H as _ <-. destruct (sequence_nth _ _ Els) as [Ll Nl]. rewrite mapi_length, map_length in Ll.
  assert (Pos : forall i m row, nth_error ms i = Some m -> nth_error ls i = Some row ->
        length row = length ms /\ exists sk, hier true (Leaf m) (Leaf m) = Ok sk /\ nth_error row i = Some sk).
  { intros i m row Hx Hr. assert (Hx' : nth_error (map Leaf ms) i = Some (Leaf m)) by (rewrite nth_error_map, Hx; reflexivity).
    destruct (Nl i _ (mapi_nth _ _ _ _ Hx')) as (row' & Er & Hr'). rewrite Hr in Hr'. injection Hr' as <-.
    destruct (sequence_nth _ _ Er) as [L Nr]. rewrite mapi_length, map_length in L. split; [exact L|].
    destruct (Nr i _ (mapi_nth _ _ _ _ Hx')) as (sk & Esk & Hsk). rewrite Nat.eqb_refl in Esk. cbn [andb] in Esk. eauto. }
  assert (Ew : width_of ls = length ms).
  { destruct ls as [|r0 ls]; [now destruct ms|]. destruct ms as [|m ms]; [discriminate|]. cbn [width_of]. exact (proj1 (Pos 0 m r0 eq_refl eq_refl)). }
  rewrite Ll, Ew. eexists. split; [reflexivity|]. intros i m Hm.
  destruct (nth_error ls i) as [row|] eqn:Er; [|apply nth_error_None in Er; assert (i < length ms) by (apply nth_error_Some; congruence); lia].
  destruct (Pos i m row Hm Er) as (_ & [S0 K0] & E0 & H0).
  pose proof (hier_paired G argsort ACA_distance aca Hd (Leaf m) (clustered_leaf m) ltac:(intros k []) _ _ E0) as HP.
  assert (Eq : exists f, K0 = Dense (nb_faces m) (nb_faces m) f) by (inversion HP; eauto). destruct Eq as (f & ->). exists f.
  unfold array. rewrite (nth_error_nth _ _ [] (x := map snd row)) by (rewrite nth_error_map, Er; reflexivity).
  rewrite (nth_error_nth _ _ (Bad IndexError) (x := Dense (nb_faces m) (nb_faces m) f)) by (rewrite nth_error_map, H0; reflexivity). reflexivity.
Qed.

Lemma three_refused_engine lu lu_factor m0 m1 m2 ms :
  let t := Node Model_Tree.Plain (map Leaf (m0 :: m1 :: m2 :: ms)) in all_valid t -> faced t -> 2 <= nb_faces m0 ->
  precond_matrices lu lu_factor (hier true) t t = Err ValueError.
Proof using Hrel Hd Hs Hacc Hresp.
  intros t V Fc H0.
  assert (U : unstructured t).
  { apply unstructured_node. intros x Hx. apply in_map_iff in Hx. destruct Hx as (m & <- & _). intros k []. }
  assert (Fi : filled t).
  { constructor; [discriminate|]. intros x Hx. apply in_map_iff in Hx. destruct Hx as (m & <- & _). constructor. }
  destruct (hier_entries t U Fi V Fc) as (S & K & ps & E & _ & _ & W & _).
  unfold precond_matrices. rewrite E. cbn [bind snd]. destruct (hier_parts (m0 :: m1 :: m2 :: ms) _ _ E) as (bl & EK & Hb).
  set (n := length (m0 :: m1 :: m2 :: ms)) in *. unfold mk, mk_with_shapes in EK.
  assert (Sz : forall i m, nth_error (m0 :: m1 :: m2 :: ms) i = Some m -> height (bl i 0) = nb_faces m /\ width (bl 0 i) = nb_faces m).
  { intros i m Hm. assert (Hi : i < n) by (apply nth_error_Some; congruence). rewrite EK in W. destruct W as [_ W].
    destruct (W i i Hi Hi) as [_ Si]. destruct (Hb i m Hm) as (f & Ef). rewrite Ef in Si. cbn [shape] in Si. injection Si as S1 S2. auto. }
  assert (Lt : forall i, i < n -> exists m, nth_error (m0 :: m1 :: m2 :: ms) i = Some m).
  { intros i Hi. destruct (nth_error (m0 :: m1 :: m2 :: ms) i) eqn:E'; [eauto|]. apply nth_error_None in E'. unfold n in Hi. lia. }
  rewrite EK in *.
  assert (X : prepare lu lu_factor (path_to_leaf t) (Blk Model_Block.Plain n n (fun i => height (bl i 0)) (fun j => width (bl 0 j)) bl) = Err ValueError).
  { apply (three_refused lu lu_factor Model_Tree.Plain (m0 :: m1 :: m2 :: ms) _ _ bl (entry (Blk Model_Block.Plain n n (fun i => height (bl i 0)) (fun j => width (bl 0 j)) bl))).
    - cbn [length]. lia.
    - exact W.
    - now apply represents_entry.
    - destruct (Sz 0 m0 eq_refl). lia.
    - destruct (Sz 2 m2 eq_refl) as [-> _]. apply Fc. unfold t. cbn. tauto.
    - intros i Hi. destruct (Lt i Hi) as (m & Hm). destruct (Sz i m Hm). lia.
    - intros i Hi. destruct (Lt i Hi) as (m & Hm). destruct (Sz i m Hm) as [-> _]. now apply Hb. }
  rewrite X. reflexivity.
Qed.

Lemma single_refused_engine lu lu_factor m S K : hier true (Leaf m) (Leaf m) = Ok (S, K) ->
  precond_matrices lu lu_factor (hier true) (Leaf m) (Leaf m) = Err AttributeError.
Proof using Hd.
  intros E. pose proof (hier_paired G argsort ACA_distance aca Hd (Leaf m) (clustered_leaf m) ltac:(intros k []) _ _ E) as HP.
  unfold precond_matrices. rewrite E. cbn [bind snd]. assert (Eq : exists f, K = Dense (nb_faces m) (nb_faces m) f) by (inversion HP; eauto).
  destruct Eq as (f & ->). now rewrite single_refused.
Qed.
End Engine.
