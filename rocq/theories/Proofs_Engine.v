From Coq Require Import Reals List Bool ZArith Arith Lia Lra.
From Verif Require Import Model_Base Model_Ring Model_Block Spec_Block Proofs_Block Proofs_Block2 Model_Geometry Proofs_Geometry
  Model_Mesh Spec_Mesh Proofs_Mesh Model_Quality Model_Tree Spec_Tree Proofs_Tree Proofs_Symmetry Model_Engine Spec_Engine.
Import ListNotations.
Open Scope nat_scope.

(** ** Positions in a concatenation *)
Definition sizes {X} (L : list (list X)) (k : nat) : nat := length (nth k L []).
Lemma nsum_ext n f g : (forall k, k < n -> f k = g k) -> nsum n f = nsum n g.
Proof. induction n as [|n IH]; intros H; cbn; [reflexivity|]. rewrite IH, H; auto. Qed.
Lemma nsum_cons n f : nsum (S n) f = f 0 + nsum n (fun k => f (S k)).
Proof. induction n as [|n IH]; cbn in *; [lia|]. rewrite IH. lia. Qed.
Lemma concat_length_nsum {X} (L : list (list X)) : length (concat L) = nsum (length L) (sizes L).
Proof.
  induction L as [|l L IH]; [reflexivity|]. cbn [concat length]. rewrite app_length, nsum_cons, IH.
  unfold sizes. cbn [nth]. reflexivity.
Qed.
Lemma concat_nth {X} : forall (L : list (list X)) I i, i < sizes L I -> nth_error (concat L) (nsum I (sizes L) + i) = nth_error (nth I L []) i.
Proof.
  induction L as [|l L IH]; intros I i H.
  - unfold sizes in H. destruct I; cbn in H; lia.
  - destruct I as [|I].
    + cbn [nsum concat nth]. rewrite Nat.add_0_l. unfold sizes in H. cbn [nth] in H. now apply nth_error_app1.
    + rewrite nsum_cons. cbn [concat]. unfold sizes at 1. cbn [nth].
      rewrite nth_error_app2 by lia.
      replace (length l + nsum I (fun k => sizes (l :: L) (S k)) + i - length l) with (nsum I (sizes L) + i).
      * apply IH. exact H.
      * unfold sizes. cbn [nth]. lia.
Qed.
Lemma concat_position {X} : forall (L : list (list X)) i, i < length (concat L) ->
  exists I i', i = nsum I (sizes L) + i' /\ I < length L /\ i' < sizes L I.
Proof.
  induction L as [|l L IH]; intros i H; [cbn in H; lia|].
  cbn [concat] in H. rewrite app_length in H.
  destruct (Nat.lt_ge_cases i (length l)) as [C|C].
  - exists 0, i. cbn. unfold sizes. cbn. lia.
  - destruct (IH (i - length l)) as (I & i' & E & HI & Hi'); [lia|].
    exists (S I), i'. rewrite nsum_cons. unfold sizes at 1. cbn [nth length].
    split; [|split; [lia|exact Hi']].
    change (fun k => sizes (l :: L) (S k)) with (sizes L). lia.
Qed.
Lemma nsum_lt f : forall I J, I < J -> nsum I f + f I <= nsum J f.
Proof.
  intros I J H. induction J as [|J IH]; [lia|]. cbn.
  destruct (Nat.eq_dec I J) as [->|]; [lia|]. specialize (IH ltac:(lia)). lia.
Qed.
Lemma position_unique f I J i j : i < f I -> j < f J ->
  (nsum I f + i =? nsum J f + j) = (I =? J) && (i =? j).
Proof.
  intros Hi Hj. destruct (Nat.lt_trichotomy I J) as [C|[C|C]].
  - pose proof (nsum_lt f I J C). rewrite (proj2 (Nat.eqb_neq I J)) by lia.
    apply Nat.eqb_neq. lia.
  - subst J. rewrite Nat.eqb_refl. cbn [andb]. destruct (Nat.eqb_spec i j); [subst; apply Nat.eqb_refl|apply Nat.eqb_neq; lia].
  - pose proof (nsum_lt f J I C). rewrite (proj2 (Nat.eqb_neq I J)) by lia.
    apply Nat.eqb_neq. lia.
Qed.
Lemma nsum_const n f h : (forall k, k < n -> f k = h) -> nsum n f = n * h.
Proof. induction n as [|n IH]; intros H; cbn; [reflexivity|]. rewrite IH, H by auto. lia. Qed.

Section Engine.
Context {A : coeffs}.
Variable G : bool -> panel -> panel -> A * A.
Variable rel : A -> A -> Prop.
Hypothesis rel_refl : forall x, rel x x.
Notation coefficient := (coefficient G).

Definition approx (proj : A * A -> A) (same : bool) (ps1 ps2 : list panel) (M : mat A) : Prop :=
  wf M /\ shape M = (length ps1, length ps2) /\
  forall F, represents M F -> forall i j x, coefficient same ps1 ps2 i j = Some x -> rel (F i j) (proj x).

Lemma coefficient_some same ps1 ps2 i j x : coefficient same ps1 ps2 i j = Some x -> i < length ps1 /\ j < length ps2.
Proof.
  unfold coefficient. destruct (nth_error ps1 i) eqn:E; [|discriminate]. destruct (nth_error ps2 j) eqn:E'; [|discriminate].
  intros _. split; apply nth_error_Some; congruence.
Qed.
Lemma coefficient_exists same ps1 ps2 i j : i < length ps1 -> j < length ps2 -> exists x, coefficient same ps1 ps2 i j = Some x.
Proof.
  intros H H'. apply nth_error_Some in H. apply nth_error_Some in H'. unfold coefficient.
  destruct (nth_error ps1 i); [|congruence]. destruct (nth_error ps2 j); [|congruence]. eauto.
Qed.

Lemma dense_approx proj same ps1 ps2 : approx proj same ps1 ps2 (dense G same ps1 ps2 proj).
Proof.
  split; [exact I|]. split; [reflexivity|].
  intros F HF i j x Hx. cbn in HF. destruct (coefficient_some _ _ _ _ _ _ Hx) as [Hi Hj].
  rewrite (HF i j Hi Hj), Hx. apply rel_refl.
Qed.

Lemma approx_transfer proj same ps1 ps2 same' ps1' ps2' M : approx proj same ps1 ps2 M ->
  length ps1' = length ps1 -> length ps2' = length ps2 ->
  (forall i j, coefficient same' ps1' ps2' i j = coefficient same ps1 ps2 i j) -> approx proj same' ps1' ps2' M.
Proof.
  intros (W & Sh & E) E1 E2 H. split; [exact W|]. split; [now rewrite E1, E2|].
  intros F HF i j x Hx. rewrite H in Hx. exact (E F HF i j x Hx).
Qed.

(** The coefficients of a collection are those of its parts. *)
Lemma coefficient_concat same L1 L2 I J i j : (same = true -> forall k, sizes L1 k = sizes L2 k) ->
  i < sizes L1 I -> j < sizes L2 J ->
  coefficient same (concat L1) (concat L2) (nsum I (sizes L1) + i) (nsum J (sizes L2) + j)
  = coefficient (same && (I =? J)) (nth I L1 []) (nth J L2 []) i j.
Proof.
  intros HS Hi Hj. unfold coefficient. rewrite (concat_nth L1 I i Hi), (concat_nth L2 J j Hj).
  destruct (nth_error (nth I L1 []) i); [|reflexivity]. destruct (nth_error (nth J L2 []) j); [|reflexivity].
  do 2 f_equal. destruct same; [|reflexivity]. cbn [andb].
  rewrite (nsum_ext J (sizes L2) (sizes L1)) by (intros; symmetry; now apply HS).
  apply position_unique; [exact Hi|]. now rewrite HS.
Qed.

Lemma structured_approx proj same c nc (Ms : nat -> mat A) L1 L2 h w :
  c <> Model_Block.Plain -> valid_number c nc -> 1 <= nc ->
  length L1 = nblocks c nc -> length L2 = nblocks c nc ->
  (forall l, In l L1 -> length l = h) -> (forall l, In l L2 -> length l = w) ->
  (same = true -> h = w) ->
  (forall k, k < nc -> exists I J, I < nblocks c nc /\ J < nblocks c nc /\ stored_index c (nblocks c nc) I J = k) ->
  (forall I J, I < nblocks c nc -> J < nblocks c nc ->
     approx proj (same && (I =? J)) (nth I L1 []) (nth J L2 []) (Ms (stored_index c (nblocks c nc) I J))) ->
  approx proj same (concat L1) (concat L2) (mk c 1 nc (fun _ => Ms)).
Proof.
  intros Hc Hv Hnc HL1 HL2 Hh Hw HS Hsurj HB. set (n := nblocks c nc) in *.
  assert (S1 : forall k, k < n -> sizes L1 k = h) by (intros k Hk; apply Hh, nth_In; lia).
  assert (S2 : forall k, k < n -> sizes L2 k = w) by (intros k Hk; apply Hw, nth_In; lia).
  assert (SS : same = true -> forall k, sizes L1 k = sizes L2 k).
  { intros HT k. destruct (Nat.lt_ge_cases k n) as [C|C].
    - rewrite S1, S2 by lia. auto.
    - unfold sizes. now rewrite !nth_overflow by lia. }
  assert (Hshape : forall k, k < nc -> wf (Ms k) /\ shape (Ms k) = (h, w)).
  { intros k Hk. destruct (Hsurj k Hk) as (I & J & HI & HJ & E). destruct (HB I J HI HJ) as (W & Sh & _).
    rewrite E in W, Sh. split; [exact W|]. rewrite Sh. f_equal; [now apply S1|now apply S2]. }
  assert (Hn : nb_blocks c 1 nc = (n, n)) by (apply nb_square; exact Hc).
  destruct (Hshape 0 ltac:(lia)) as [_ Sh0].
  assert (E0 : mk c 1 nc (fun _ => Ms) = Blk c 1 nc (fun _ => height (Ms 0)) (fun j => width (Ms j)) (fun _ => Ms)).
  { unfold mk, mk_with_shapes. destruct c; try reflexivity. unfold valid_number in Hv. now rewrite Hv. }
  rewrite E0.
  assert (H0 : height (Ms 0) = h) by (unfold height; now rewrite Sh0).
  assert (W0 : width (Ms 0) = w) by (unfold width; now rewrite Sh0).
  split; [|split].
  - assert (1 = 1 /\ valid_number c nc /\ forall k, k < nc -> wf (Ms k) /\ shape (Ms k) = (height (Ms 0), width (Ms 0))).
    { split; [reflexivity|]. split; [exact Hv|]. intros k Hk. rewrite H0, W0. now apply Hshape. }
    destruct c; [congruence|exact H..].
  - assert (shape (Blk c 1 nc (fun _ : nat => height (Ms 0)) (fun j : nat => width (Ms j)) (fun _ : nat => Ms)) = (n * h, n * w)).
    { transitivity (fst (nb_blocks c 1 nc) * height (Ms 0), snd (nb_blocks c 1 nc) * width (Ms 0)).
      - destruct c; [congruence|reflexivity..].
      - now rewrite Hn, H0, W0. }
    rewrite H, !concat_length_nsum, HL1, HL2.
    now rewrite (nsum_const n (sizes L1) h), (nsum_const n (sizes L2) w).
  - intros F HF i j x Hx.
    destruct (coefficient_some _ _ _ _ _ _ Hx) as [Hi Hj].
    destruct (concat_position L1 i Hi) as (I & i' & -> & HI & Hi').
    destruct (concat_position L2 j Hj) as (J & j' & -> & HJ & Hj').
    rewrite coefficient_concat in Hx by assumption. rewrite HL1 in HI. rewrite HL2 in HJ.
    assert (HF' : represents (Ms (stored_index c n I J)) (fun i j => F (I * h + i) (J * w + j))).
    { assert (HF' : forall I J, I < fst (nb_blocks c 1 nc) -> J < fst (nb_blocks c 1 nc) ->
          represents (Ms (stored_index c (fst (nb_blocks c 1 nc)) I J))
            (fun i j => F (I * height (Ms 0) + i) (J * width (Ms 0) + j))) by (destruct c; [congruence|exact HF..]).
      rewrite Hn in HF'. cbn [fst] in HF'. rewrite H0, W0 in HF'. now apply HF'. }
    destruct (HB I J HI HJ) as (_ & _ & E). specialize (E _ HF' i' j' x Hx). cbn beta in E.
    rewrite (nsum_const I (sizes L1) h), (nsum_const J (sizes L2) w) by (intros; first [apply S1|apply S2]; lia).
    exact E.
Qed.

Lemma plain_approx proj same nr nc (b : nat -> nat -> mat A) L1 L2 :
  0 < nr -> 0 < nc -> length L1 = nr -> length L2 = nc ->
  (same = true -> forall k, sizes L1 k = sizes L2 k) ->
  (forall I J, I < nr -> J < nc -> approx proj (same && (I =? J)) (nth I L1 []) (nth J L2 []) (b I J)) ->
  approx proj same (concat L1) (concat L2) (mk Model_Block.Plain nr nc b).
Proof.
  intros Hr Hc HL1 HL2 SS HB.
  assert (Hh : forall I J, I < nr -> J < nc -> shape (b I J) = (sizes L1 I, sizes L2 J)).
  { intros I J HI HJ. exact (proj1 (proj2 (HB I J HI HJ))). }
  unfold mk, mk_with_shapes. split; [|split].
  - split; [split; lia|]. intros i j Hi Hj. split; [exact (proj1 (HB i j Hi Hj))|].
    unfold height, width. rewrite !Hh by lia. reflexivity.
  - cbn [shape]. f_equal; rewrite concat_length_nsum; [rewrite HL1|rewrite HL2]; apply nsum_ext; intros k Hk;
      unfold height, width; now rewrite Hh by lia.
  - intros F HF i j x Hx.
    destruct (coefficient_some _ _ _ _ _ _ Hx) as [Hi Hj].
    destruct (concat_position L1 i Hi) as (I & i' & -> & HI & Hi').
    destruct (concat_position L2 j Hj) as (J & j' & -> & HJ & Hj').
    rewrite coefficient_concat in Hx by assumption. rewrite HL1 in HI. rewrite HL2 in HJ.
    destruct (HB I J HI HJ) as (_ & _ & E). specialize (HF I J HI HJ).
    specialize (E _ HF i' j' x Hx). cbn beta in E.
    rewrite (nsum_ext I _ (sizes L1)) in E by (intros k Hk; unfold height; now rewrite Hh by lia).
    rewrite (nsum_ext J _ (sizes L2)) in E by (intros k Hk; unfold width; now rewrite Hh by lia).
    exact E.
Qed.

(** ** Faces of the parts and of their images *)
Definition raw := (bool * quad)%type.
Definition panel_raw (r : raw) : panel := panel_of (fst r) (snd r).
Definition img (f : quad -> quad) (r : raw) : raw := (fst r, f (snd r)).
Definition mesh_raw (m : mesh) : result (list raw) :=
  mapM (fun f => bind (face_points (m_vertices m) f) (fun q => Ok (is_tri f, q))) (m_faces m).
Fixpoint t_raw (t : tree) : result (list raw) :=
  match t with
  | Leaf m => mesh_raw m
  | Node _ l => bind (sequence (map t_raw l)) concatenate
  end.
End Engine.
