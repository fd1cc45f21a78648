(** The matrices of the hierarchical engine for clusters of meshes without symmetries. *)
From Coq Require Import Reals List Arith Bool ZArith Lia.
From Verif Require Import Model_Base Model_Ring Spec_Ring Model_Block Spec_Block Proofs_Block2 Model_Geometry Model_Mesh Proofs_Mesh Model_Engine Spec_Engine
  Model_Tree Spec_Tree Proofs_Tree Proofs_Symmetry Proofs_Engine Proofs_Engine2 Proofs_Engine3 Proofs_Engine4 Proofs_Engine5 Proofs_Engine7
  Model_Precond Spec_Precond Proofs_Precond2 Proofs_Precond3.
Import ListNotations.
Open Scope nat_scope.

Lemma levels_in x l : In x l -> levels x <= fold_right Nat.max 0 (map levels l).
Proof. induction l as [|y l IH]; intros H; [destruct H|]. cbn. destruct H as [->|H]; [lia|]. specialize (IH H). lia. Qed.

Section Engine.
Context {A : coeffs}.
Variable G : bool -> panel -> panel -> A * A.
Variable argsort : list R -> list nat.
Variable ACA_distance : R.
Variable aca : (nat -> result (mat A * mat A)) -> (nat -> result (mat A * mat A)) -> nat -> nat -> result (option (mat A * mat A)).
Hypothesis Hd : (0 <= ACA_distance)%R.
Hypothesis Haca : low_rank aca.
Notation hier := (hierarchical_matrices G argsort ACA_distance aca).

Lemma depth_flat d (m : mat A) : is_block m = false -> depth_le d m.
Proof. now destruct d, m. Qed.
Lemma depth_mono d : forall d' (m : mat A), d <= d' -> depth_le d m -> depth_le d' m.
Proof.
  induction d as [|d IH]; intros [|d'] m H Hm; try lia; [destruct m; assumption|destruct m; try exact I; destruct Hm|].
  destruct m; try exact I. intros i j Hi Hj. apply (IH d'); [lia|]. now apply Hm.
Qed.
Lemma evaluate_flat same t1 t2 S K : evaluate G same t1 t2 = Ok (S, K) -> is_block K = false.
Proof.
  unfold evaluate. destruct (t_panels t1); [|discriminate]. destruct (t_panels t2); [|discriminate]. cbn [bind]. intros H. apply Ok_inj' in H.
  injection H as _ <-. reflexivity.
Qed.
Lemma plain_ready (m : mat A) : plain_tree m -> fft_ready m.
Proof.
  induction m as [e|h w f|h w r l rr|c nr nc hs ws b IH]; intros H; try exact I. destruct H as [-> H]. intros i j Hi Hj. apply IH. now apply H.
Qed.
Lemma hier_case same t1 t2 : unstructured t1 -> hier same t1 t2 = aca_case G argsort ACA_distance aca same t1 t2.
Proof.
  intros H. destruct t1 as [m|k l]; [reflexivity|]. rewrite (H k (or_introl eq_refl)). destruct t2; reflexivity.
Qed.
Lemma block_in {X} (f : X -> mat A) ls i j (m : mat A) : array (map (map f) ls) i j = m -> is_block m = true ->
  exists l x, nth_error ls i = Some l /\ nth_error l j = Some x /\ m = f x.
Proof.
  unfold array. intros H Hb. destruct (nth_error ls i) as [l|] eqn:El.
  - rewrite (nth_error_nth (map (map f) ls) i [] (x := map f l)) in H by (now rewrite nth_error_map, El).
    destruct (nth_error l j) as [x|] eqn:Ex.
    + exists l, x. split; [reflexivity|]. split; [exact Ex|]. rewrite <- H. apply nth_error_nth. now rewrite nth_error_map, Ex.
    + rewrite nth_overflow in H by (rewrite map_length; now apply nth_error_None). subst m. discriminate.
  - rewrite (nth_overflow (map (map f) ls)) in H by (rewrite map_length; now apply nth_error_None).
    destruct j; cbn in H; subst m; discriminate.
Qed.
Lemma flat_plain (m : mat A) : is_block m = false -> plain_tree m.
Proof. now destruct m. Qed.

Lemma hier_plain : forall t1, unstructured t1 -> forall t2 same S K, unstructured t2 -> hier same t1 t2 = Ok (S, K) ->
  plain_tree K /\ depth_le (levels t1) K.
Proof using Haca.
  induction t1 as [m|k l IH] using tree_induction; intros U1 t2 same S K U2 H; rewrite (hier_case _ _ _ U1) in H; unfold aca_case in H;
    (destruct (far argsort ACA_distance _ t2) as [b|] eqn:Ef; [|discriminate]); cbn [bind] in H.
  - assert (X : is_block K = false).
    { destruct b; [|exact (evaluate_flat _ _ _ _ _ H)]. destruct (aca _ _ _ _) as [[[S' K']|]|] eqn:Ea in H; [| |discriminate]; cbn [bind] in H.
      - apply Ok_inj' in H. injection H as -> ->. exact (proj2 (Haca _ _ _ _ _ _ Ea)).
      - exact (evaluate_flat _ _ _ _ _ H). }
    split; [now apply flat_plain|now apply depth_flat].
  - assert (B : blocks_case G argsort ACA_distance aca same (Node k l) t2 = Ok (S, K) -> plain_tree K /\ depth_le (levels (Node k l)) K).
    { clear H. intros H. unfold blocks_case in H. destruct t2 as [m2|k2 l2].
      - pose proof (evaluate_flat _ _ _ _ _ H). split; [now apply flat_plain|now apply depth_flat].
      - destruct (sequence _) as [ls|] eqn:Els in H; [|discriminate]. cbn [bind] in H. apply Ok_inj' in H.
        assert (EK : K = mk Model_Block.Plain (length ls) (width_of ls) (array (map (map snd) ls))).
        { unfold block_matrix in H. injection H as _ <-. reflexivity. }
        assert (Bl : forall i j, let m := array (map (map snd) ls) i j in plain_tree m /\ depth_le (fold_right Nat.max 0 (map levels l)) m).
        { intros i j m. destruct (is_block m) eqn:Em; [|split; [now apply flat_plain|now apply depth_flat]].
          destruct (block_in snd ls i j m eq_refl Em) as (row & [S' K'] & Er & Ex & ->). cbn [snd].
          destruct (sequence_nth _ _ Els) as [Ll Nl]. rewrite mapi_length in Ll.
          destruct (nth_error_in_range l ls i row Ll Er) as [x1 Hx1].
          destruct (Nl i _ (mapi_nth _ _ _ _ Hx1)) as (row' & Erow & Hrow). rewrite Er in Hrow. injection Hrow as <-.
          destruct (sequence_nth _ _ Erow) as [Lr Nr]. rewrite mapi_length in Lr.
          destruct (nth_error_in_range l2 row j _ Lr Ex) as [x2 Hx2].
          destruct (Nr j _ (mapi_nth _ _ _ _ Hx2)) as (y & Ey & Hy). rewrite Ex in Hy. injection Hy as <-.
          destruct (IH x1 (nth_error_In _ _ Hx1) (unstructured_part _ _ _ U1 (nth_error_In _ _ Hx1)) x2 _ S' K'
             (unstructured_part _ _ _ U2 (nth_error_In _ _ Hx2)) Ey) as [P1 P2].
          split; [exact P1|]. eapply depth_mono; [|exact P2]. apply levels_in. exact (nth_error_In _ _ Hx1). }
        subst K. cbn [mk mk_with_shapes]. split.
        + split; [reflexivity|]. intros i j _ _. exact (proj1 (Bl i j)).
        + intros i j _ _. exact (proj2 (Bl i j)). }
    destruct b; [|exact (B H)]. destruct (aca _ _ _ _) as [[[S' K']|]|] eqn:Ea in H; [| |discriminate]; cbn [bind] in H; [|exact (B H)].
    apply Ok_inj' in H. injection H as -> ->. pose proof (proj2 (Haca _ _ _ _ _ _ Ea)). split; [now apply flat_plain|now apply depth_flat].
Qed.

(** The interaction of a mesh with itself is never approximated. *)
Lemma hier_self t S K : unstructured t -> hier true t t = Ok (S, K) -> blocks_case G argsort ACA_distance aca true t t = Ok (S, K).
Proof using Hd.
  intros U H. rewrite (hier_case _ _ _ U) in H. unfold aca_case in H.
  destruct (far argsort ACA_distance t t) as [[|]|] eqn:Ef; [|exact H|discriminate]. destruct (far_self argsort ACA_distance Hd t Ef).
Qed.
Lemma hier_paired t : clustered t -> unstructured t -> forall S K, hier true t t = Ok (S, K) -> paired K t.
Proof using Hd.
  induction 1 as [m|k a b Ca IHa Cb IHb]; intros U S K H; apply hier_self in H; try exact U.
  - unfold blocks_case, evaluate in H. destruct (t_panels (Leaf m)) as [ps|] eqn:E; [|discriminate]. cbn [bind] in H. apply Ok_inj' in H.
    injection H as _ <-. unfold dense. assert (length ps = nb_faces m) as ->.
    { rewrite t_panels_raw in E. destruct (t_raw (Leaf m)) as [r|] eqn:Er; [|discriminate]. cbn [bind] in E. apply Ok_inj' in E. subst ps.
      rewrite map_length. exact (raw_length _ _ Er). }
    constructor.
  - unfold blocks_case in H. destruct (sequence _) as [ls|] eqn:Els in H; [|discriminate]. cbn [bind] in H. apply Ok_inj' in H.
    unfold block_matrix in H. injection H as _ <-. cbn [mk mk_with_shapes].
    assert (Pos : forall i x row, nth_error [a; b] i = Some x -> nth_error ls i = Some row ->
        length row = 2 /\ exists sk, hier true x x = Ok sk /\ nth_error row i = Some sk).
    { intros i x row Hx Hr. destruct (sequence_nth _ _ Els) as [_ Nl]. destruct (Nl i _ (mapi_nth _ _ _ _ Hx)) as (row' & Er & Hr').
      rewrite Hr in Hr'. injection Hr' as <-. destruct (sequence_nth _ _ Er) as [L Nr]. rewrite mapi_length in L. split; [exact L|].
      destruct (Nr i _ (mapi_nth _ _ _ _ Hx)) as (sk & Esk & Hsk). rewrite Nat.eqb_refl in Esk. cbn [andb] in Esk. eauto. }
    destruct (sequence_nth _ _ Els) as [Ll _]. rewrite mapi_length in Ll. cbn [length] in Ll.
    destruct ls as [|r0 [|r1 [|]]]; try discriminate.
    destruct (Pos 0 a r0 eq_refl eq_refl) as (L0 & [S0 K0] & E0 & H0). destruct (Pos 1 b r1 eq_refl eq_refl) as (L1 & [S1 K1] & E1 & H1).
    cbn [length width_of]. rewrite L0. constructor.
    + unfold array. cbn [map nth]. rewrite (nth_error_nth _ _ (Bad IndexError) (x := K0)) by (rewrite nth_error_map, H0; reflexivity).
      apply (IHa (unstructured_part _ _ _ U (or_introl eq_refl)) _ _ E0).
    + unfold array. cbn [map nth]. rewrite (nth_error_nth _ _ (Bad IndexError) (x := K1)) by (rewrite nth_error_map, H1; reflexivity).
      apply (IHb (unstructured_part _ _ _ U (or_intror (or_introl eq_refl))) _ _ E1).
Qed.
End Engine.
