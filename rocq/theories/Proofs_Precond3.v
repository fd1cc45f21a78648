(** Setting the blocks of the diagonal to zero. *)
From Coq Require Import List Arith Bool Lia Ring_theory Ring.
From Verif Require Import Model_Base Model_Ring Spec_Ring Proofs_Ring Model_Block Spec_Block Proofs_Block2 Proofs_Block4
  Model_LinSolve Spec_LinSolve Model_Mesh Model_Engine Model_Tree Spec_Tree Model_Precond Spec_Precond Proofs_Precond2.
Import ListNotations.
Open Scope nat_scope.

Section Zero.
Context {A : coeffs}.
Notation vec := (nat -> K A).
Notation entries := (nat -> nat -> K A).

Definition zero_in (o s : nat) (F : entries) : entries :=
  fun i j => if (o <=? i) && (i <? o + s) && ((o <=? j) && (j <? o + s)) then k0 else F i j.
Definition zeroed (m : mat A) (p : list nat) : mat A := match p with [] => zero_matrix m | _ :: _ => zero_leaf m p end.
Lemma zero_leaf_cons nr nc hs ws (b : nat -> nat -> mat A) i p :
  zero_leaf (Blk Model_Block.Plain nr nc hs ws b) (i :: p) = Blk Model_Block.Plain nr nc hs ws (replace_block b i i (zeroed (b i i) p)).
Proof. now destruct p. Qed.
Definition good (d : nat) (m : mat A) : Prop := wf m /\ fft_ready m /\ depth_le d m.
Lemma two_cases (P : nat -> nat -> Prop) : P 0 0 -> P 0 1 -> P 1 0 -> P 1 1 -> forall i j, i < 2 -> j < 2 -> P i j.
Proof. intros H1 H2 H3 H4 i j Hi Hj. destruct i as [|[|i]], j as [|[|j]]; try assumption; lia. Qed.
Lemma zero_in_out o s (F : entries) i j : ~ (o <= i < o + s) \/ ~ (o <= j < o + s) -> zero_in o s F i j = F i j.
Proof.
  intros H. unfold zero_in.
  destruct (Nat.leb_spec o i), (Nat.ltb_spec i (o + s)), (Nat.leb_spec o j), (Nat.ltb_spec j (o + s)); cbn [andb]; try reflexivity; lia.
Qed.
Lemma zero_in_in o s (F : entries) i j : o <= i < o + s -> o <= j < o + s -> zero_in o s F i j = k0.
Proof.
  intros H1 H2. unfold zero_in.
  destruct (Nat.leb_spec o i), (Nat.ltb_spec i (o + s)), (Nat.leb_spec o j), (Nat.ltb_spec j (o + s)); cbn [andb]; try reflexivity; lia.
Qed.
Lemma zero_in_shift a o s (F : entries) i j : zero_in (a + o) s F (a + i) (a + j) = zero_in o s (fun i j => F (a + i) (a + j)) i j.
Proof.
  unfold zero_in.
  destruct (Nat.leb_spec (a + o) (a + i)), (Nat.leb_spec o i), (Nat.ltb_spec (a + i) (a + o + s)), (Nat.ltb_spec i (o + s)),
    (Nat.leb_spec (a + o) (a + j)), (Nat.leb_spec o j), (Nat.ltb_spec (a + j) (a + o + s)), (Nat.ltb_spec j (o + s)); cbn [andb]; try reflexivity; lia.
Qed.

Lemma zeroed_ok t p o s : leaf_at t p o s -> forall d (m : mat A) F, paired m t -> good d m -> represents m F ->
  paired (zeroed m p) t /\ good d (zeroed m p) /\ represents (zeroed m p) (zero_in o s F).
Proof.
  induction 1 as [m0|k a b p o s L IH|k a b p o s L IH]; intros d m F P G R.
  - inversion P; subst. cbn. split; [constructor|]. split; [split; [exact I|]; split; [exact I|]; now destruct d|]. intros i j Hi Hj. cbn in Hi, Hj. apply zero_in_in; lia.
  - destruct (paired_inv _ _ _ _ P) as (hs & ws & bl & -> & Pa & Pb). destruct G as (W & Fr & Dp).
    destruct d as [|d]; [destruct Dp|]. pose proof W as [Wn W'].
    destruct (W' 0 0) as [W0 S0]; [lia|lia|].
    destruct (IH d (bl 0 0) _ Pa (conj W0 (conj (Fr 0 0 ltac:(lia) ltac:(lia)) (Dp 0 0 ltac:(lia) ltac:(lia)))) (R 0 0 ltac:(lia) ltac:(lia))) as (P1 & (W1 & F1 & D1) & R1).
    pose proof (paired_shape _ _ Pa W0) as Sa. pose proof (paired_shape _ _ P1 W1) as Sa1.
    pose proof (leaf_at_bound _ _ _ _ L) as Lb.
    assert (Hh : hs 0 = t_nb_faces a /\ ws 0 = t_nb_faces a) by (rewrite Sa in S0; injection S0; auto). destruct Hh as [Hh Hw].
    change (zeroed (Blk Model_Block.Plain 2 2 hs ws bl) (0 :: p)) with (zero_leaf (Blk Model_Block.Plain 2 2 hs ws bl) (0 :: p)).
    rewrite zero_leaf_cons. split; [constructor; assumption|]. split; [split; [|split]|].
    + split; [exact Wn|]. apply two_cases; cbn [replace_block Nat.eqb andb]; try (apply W'; lia).
      split; [exact W1|]. rewrite Sa1. congruence.
    + change (forall i j, i < 2 -> j < 2 -> fft_ready (replace_block bl 0 0 (zeroed (bl 0 0) p) i j)).
      apply two_cases; cbn [replace_block Nat.eqb andb]; try (apply Fr; lia). exact F1.
    + change (forall i j, i < 2 -> j < 2 -> depth_le d (replace_block bl 0 0 (zeroed (bl 0 0) p) i j)).
      apply two_cases; cbn [replace_block Nat.eqb andb]; try (apply Dp; lia). exact D1.
    + assert (X : forall I J, I < 2 -> J < 2 -> represents (replace_block bl 0 0 (zeroed (bl 0 0) p) I J)
          (fun i j => zero_in o s F (nsum I hs + i) (nsum J ws + j))); [|exact X].
      apply two_cases; cbn [replace_block Nat.eqb andb].
      * refine (represents_ext _ W1 _ _ _ R1). intros i j _ _. reflexivity.
      * refine (represents_ext _ (proj1 (W' 0 1 ltac:(lia) ltac:(lia))) _ _ _ (R 0 1 ltac:(lia) ltac:(lia))). intros i j _ _.
        symmetry. apply zero_in_out. cbn [nsum]. lia.
      * refine (represents_ext _ (proj1 (W' 1 0 ltac:(lia) ltac:(lia))) _ _ _ (R 1 0 ltac:(lia) ltac:(lia))). intros i j _ _.
        symmetry. apply zero_in_out. cbn [nsum]. lia.
      * refine (represents_ext _ (proj1 (W' 1 1 ltac:(lia) ltac:(lia))) _ _ _ (R 1 1 ltac:(lia) ltac:(lia))). intros i j _ _.
        symmetry. apply zero_in_out. cbn [nsum]. lia.
  - destruct (paired_inv _ _ _ _ P) as (hs & ws & bl & -> & Pa & Pb). destruct G as (W & Fr & Dp).
    destruct d as [|d]; [destruct Dp|]. pose proof W as [Wn W'].
    destruct (W' 0 0) as [W0 S0]; [lia|lia|]. destruct (W' 1 1) as [Wb Sb]; [lia|lia|].
    destruct (IH d (bl 1 1) _ Pb (conj Wb (conj (Fr 1 1 ltac:(lia) ltac:(lia)) (Dp 1 1 ltac:(lia) ltac:(lia)))) (R 1 1 ltac:(lia) ltac:(lia))) as (P1 & (W1 & F1 & D1) & R1).
    pose proof (paired_shape _ _ Pa W0) as Sa. pose proof (paired_shape _ _ Pb Wb) as Sb0. pose proof (paired_shape _ _ P1 W1) as Sb1.
    pose proof (leaf_at_bound _ _ _ _ L) as Lb.
    assert (Hh : hs 0 = t_nb_faces a /\ ws 0 = t_nb_faces a) by (rewrite Sa in S0; injection S0; auto). destruct Hh as [Hh Hw].
    assert (N1 : nsum 1 hs = t_nb_faces a) by (cbn [nsum]; lia). assert (N2 : nsum 1 ws = t_nb_faces a) by (cbn [nsum]; lia).
    change (zeroed (Blk Model_Block.Plain 2 2 hs ws bl) (1 :: p)) with (zero_leaf (Blk Model_Block.Plain 2 2 hs ws bl) (1 :: p)).
    rewrite zero_leaf_cons. split; [constructor; assumption|]. split; [split; [|split]|].
    + split; [exact Wn|]. apply two_cases; cbn [replace_block Nat.eqb andb]; try (apply W'; lia).
      split; [exact W1|]. rewrite Sb1. congruence.
    + change (forall i j, i < 2 -> j < 2 -> fft_ready (replace_block bl 1 1 (zeroed (bl 1 1) p) i j)).
      apply two_cases; cbn [replace_block Nat.eqb andb]; try (apply Fr; lia). exact F1.
    + change (forall i j, i < 2 -> j < 2 -> depth_le d (replace_block bl 1 1 (zeroed (bl 1 1) p) i j)).
      apply two_cases; cbn [replace_block Nat.eqb andb]; try (apply Dp; lia). exact D1.
    + assert (X : forall I J, I < 2 -> J < 2 -> represents (replace_block bl 1 1 (zeroed (bl 1 1) p) I J)
          (fun i j => zero_in (t_nb_faces a + o) s F (nsum I hs + i) (nsum J ws + j))); [|exact X].
      apply two_cases; cbn [replace_block Nat.eqb andb].
      * refine (represents_ext _ (proj1 (W' 0 0 ltac:(lia) ltac:(lia))) _ _ _ (R 0 0 ltac:(lia) ltac:(lia))). intros i j Hi Hj.
        symmetry. apply zero_in_out. unfold height, width in *. rewrite Sa in *. cbn [nsum fst snd] in *. lia.
      * destruct (W' 0 1 ltac:(lia) ltac:(lia)) as [W01 S01].
        refine (represents_ext _ W01 _ _ _ (R 0 1 ltac:(lia) ltac:(lia))). intros i j Hi Hj.
        symmetry. apply zero_in_out. unfold height, width in *. rewrite S01 in *. cbn [nsum fst snd] in *. lia.
      * destruct (W' 1 0 ltac:(lia) ltac:(lia)) as [W10 S10].
        refine (represents_ext _ W10 _ _ _ (R 1 0 ltac:(lia) ltac:(lia))). intros i j Hi Hj.
        symmetry. apply zero_in_out. unfold height, width in *. rewrite S10 in *. cbn [nsum fst snd] in *. lia.
      * refine (represents_ext _ W1 _ _ _ R1). intros i j _ _. rewrite N1, N2. now rewrite zero_in_shift.
Qed.
Lemma leaf_at_unique t p o s : leaf_at t p o s -> forall o' s', leaf_at t p o' s' -> o' = o /\ s' = s.
Proof.
  induction 1 as [m0|k a b p o s L IH|k a b p o s L IH]; intros o' s' L'; inversion L'; subst; [auto| |];
    match goal with H : leaf_at _ p _ _ |- _ => destruct (IH _ _ H); subst; auto end.
Qed.
(** All the blocks. *)
Lemma zero_all t (m : mat A) : forall ps d F, (forall p, In p ps -> p <> [] /\ exists o s, leaf_at t p o s) ->
  paired m t -> good d m -> represents m F ->
  exists G, paired (fold_left zero_leaf ps m) t /\ good d (fold_left zero_leaf ps m) /\ represents (fold_left zero_leaf ps m) G
    /\ (forall i j, F i j = k0 -> G i j = k0)
    /\ (forall i j, (exists p o s, In p ps /\ leaf_at t p o s /\ o <= i < o + s /\ o <= j < o + s) -> G i j = k0)
    /\ (forall i j, (forall p o s, In p ps -> leaf_at t p o s -> ~ (o <= i < o + s) \/ ~ (o <= j < o + s)) -> G i j = F i j).
Proof.
  intros ps. revert m. induction ps as [|p ps IH]; intros m d F H P G R; cbn [fold_left].
  - exists F. do 3 (split; [assumption|]). split; [auto|]. split; [intros i j (p & o & s & [] & _)|reflexivity].
  - destruct (H p (or_introl eq_refl)) as (Hp & o & s & L). destruct (zeroed_ok t p o s L d m F P G R) as (P1 & G1 & R1).
    assert (E : zeroed m p = zero_leaf m p) by (destruct p; [congruence|reflexivity]). rewrite E in *.
    destruct (IH (zero_leaf m p) d _ ltac:(intros q Hq; apply H; now right) P1 G1 R1) as (G' & P2 & G2 & R2 & Z0 & Z1 & Z2).
    exists G'. do 3 (split; [assumption|]). split; [intros i j Hz; apply Z0; unfold zero_in; now destruct (_ && _)|]. split.
    + intros i j (q & o' & s' & [<-|Hq] & L' & Hi & Hj); [|apply Z1; now exists q, o', s'].
      destruct (leaf_at_unique _ _ _ _ L _ _ L') as [-> ->]. apply Z0. now apply zero_in_in.
    + intros i j Hn. rewrite Z2 by (intros q o' s' Hq; apply Hn; now right). apply zero_in_out. exact (Hn p o s (or_introl eq_refl) L).
Qed.
End Zero.
