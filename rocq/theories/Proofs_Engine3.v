From Coq Require Import Reals List Bool ZArith Arith Lia Lra.
From Verif Require Import Model_Base Model_Ring Model_Block Spec_Block Proofs_Block Proofs_Block2 Model_Geometry Proofs_Geometry
  Model_Mesh Spec_Mesh Proofs_Mesh Model_Quality Model_Tree Spec_Tree Proofs_Tree Proofs_Symmetry Model_Engine Spec_Engine
  Proofs_Engine Proofs_Engine2.
Import ListNotations.
Open Scope nat_scope.

Lemma nth_map_seq {X} (f : nat -> X) n I d : I < n -> nth I (map f (seq 0 n)) d = f I.
Proof.
  intros H. rewrite (nth_indep _ d (f 0)) by (rewrite map_length, seq_length; exact H).
  rewrite map_nth, seq_nth by exact H. reflexivity.
Qed.

Section Cases.
Context {A : coeffs}.
Variable P : bool -> quad -> Prop.
Variable G : bool -> panel -> panel -> A * A.
Variable rel : A -> A -> Prop.
Hypothesis rel_refl : forall x, rel x x.

Definition sel {X} (pr : bool) (p : X * X) : X := if pr then fst p else snd p.
Definition good (pr same : bool) (r1 r2 : list raw) (sk : mat A * mat A) : Prop :=
  approx G rel (sel pr) same (map panel_raw r1) (map panel_raw r2) (sel pr sk).

Lemma good_transfer pr same r1 r2 same' r1' r2' sk : good pr same r1 r2 sk ->
  length r1' = length r1 -> length r2' = length r2 ->
  (forall i j, coef G same' r1' r2' i j = coef G same r1 r2 i j) -> good pr same' r1' r2' sk.
Proof. intros H E1 E2 HC. eapply approx_transfer; [exact H| | |exact HC]; rewrite !map_length; assumption. Qed.

Lemma sel_structured pr c (l : list (mat A * mat A)) : sel pr (structured c l) = mk c 1 (length l) (line (map (sel pr) l)).
Proof. destruct pr; reflexivity. Qed.
Lemma sel_block pr (ls : list (list (mat A * mat A))) : sel pr (block_matrix ls) = mk Model_Block.Plain (length ls) (width_of ls) (array (map (map (sel pr)) ls)).
Proof. destruct pr; reflexivity. Qed.
Lemma map_panel_concat (rs : list (list raw)) : map panel_raw (concat rs) = concat (map (map panel_raw) rs).
Proof. now rewrite concat_map. Qed.

(** One structured matrix from the interactions of regular families of faces. *)
Lemma structured_good pr same c sks (R1 R2 : nat -> list raw) h w :
  c <> Model_Block.Plain -> valid_number c (length sks) -> 1 <= length sks ->
  (forall i, length (R1 i) = h) -> (forall i, length (R2 i) = w) -> (same = true -> h = w) ->
  (forall k, k < length sks -> exists I J, I < nblocks c (length sks) /\ J < nblocks c (length sks)
     /\ stored_index c (nblocks c (length sks)) I J = k) ->
  (forall I J, I < nblocks c (length sks) -> J < nblocks c (length sks) -> exists sk,
     nth_error sks (stored_index c (nblocks c (length sks)) I J) = Some sk /\ good pr (same && (I =? J)) (R1 I) (R2 J) sk) ->
  good pr same (concat (map R1 (seq 0 (nblocks c (length sks))))) (concat (map R2 (seq 0 (nblocks c (length sks)))))
    (structured c sks).
Proof.
  intros Hc Hv Hn H1 H2 HS Hsurj HB. unfold good. rewrite sel_structured, !map_panel_concat, !map_map.
  set (n := nblocks c (length sks)) in *.
  apply (structured_approx G rel (sel pr) same c (length sks) (fun k => line (map (sel pr) sks) 0 k) _ _ h w);
    fold n; try assumption.
  - now rewrite map_length, seq_length.
  - now rewrite map_length, seq_length.
  - intros l Hl. apply in_map_iff in Hl. destruct Hl as (i & <- & _). rewrite map_length. apply H1.
  - intros l Hl. apply in_map_iff in Hl. destruct Hl as (i & <- & _). rewrite map_length. apply H2.
  - intros I J HI HJ. destruct (HB I J HI HJ) as (sk & E & Hg).
    rewrite !nth_map_seq by assumption. unfold line.
    assert (E' : nth (stored_index c n I J) (map (sel pr) sks) (Bad IndexError) = sel pr sk).
    { apply nth_error_nth. rewrite nth_error_map, E. reflexivity. }
    rewrite E'. exact Hg.
Qed.

(** Families of images. *)
Section Family.
  Variable f : nat -> quad -> quad.
  Hypothesis f0 : forall q, f 0 q = q.
  Hypothesis fplus : forall a b q, f a (f b q) = f (a + b) q.
  Hypothesis finv : forall a, invariant_under P G (f a).
  Variables r1 r2 : list raw.
  Hypothesis W1 : within P r1.
  Hypothesis W2 : within P r2.
  Let R1 (i : nat) := map (img (f i)) r1.
  Let R2 (i : nat) := map (img (f i)) r2.

  Lemma upward I J i j same : I <= J -> coef G same (R1 I) (R2 J) i j = coef G same r1 (R2 (J - I)) i j.
  Proof.
    intros H. unfold R1, R2. apply (coef_move P); [apply finv|apply (finv (J - I))|exact W1|exact W2|]. intros q. rewrite fplus. f_equal. lia.
  Qed.
  Lemma downward I J i j same : J <= I -> coef G same (R1 I) (R2 J) i j = coef G same (R1 (I - J)) r2 i j.
  Proof.
    intros H. unfold R1, R2. apply (coef_move_back P); [apply finv|apply (finv (I - J))|exact W1|exact W2|]. intros q. rewrite fplus. f_equal. lia.
  Qed.

  Lemma toeplitz_good pr same n (upper lower : list (mat A * mat A)) :
    (same = true -> length r1 = length r2) ->
    length upper = S n -> length lower = n ->
    (forall j sk, nth_error upper j = Some sk -> good pr (same && (0 =? j)) r1 (R2 j) sk) ->
    (forall m sk, nth_error lower m = Some sk -> good pr false (R1 (n - m)) r2 sk) ->
    good pr same (concat (map R1 (seq 0 (S n)))) (concat (map R2 (seq 0 (S n)))) (structured Toeplitz (upper ++ lower)).
  Proof.
    intros HS Hu Hl HU HL.
    assert (Elen : length (upper ++ lower) = 2 * n + 1) by (rewrite app_length; lia).
    assert (En : nblocks Toeplitz (length (upper ++ lower)) = S n).
    { rewrite Elen. unfold nblocks. cbn [nb_blocks fst]. replace (2 * n + 1 + 1) with (S n * 2) by lia. apply Nat.div_mul. lia. }
    rewrite <- En. apply (structured_good pr same Toeplitz (upper ++ lower) R1 R2 (length r1) (length r2)).
    - discriminate.
    - unfold valid_number. rewrite Elen. rewrite Nat.even_add, Nat.even_mul. reflexivity.
    - lia.
    - intros. unfold R1. apply map_length.
    - intros. unfold R2. apply map_length.
    - exact HS.
    - rewrite En, Elen. intros k Hk. destruct (Nat.lt_ge_cases k (S n)) as [C|C].
      + exists 0, k. cbn [stored_index]. cbn. split; [lia|]. split; [lia|]. lia.
      + exists (2 * n + 1 - k), 0. split; [lia|]. split; [lia|]. cbn [stored_index].
        rewrite (proj2 (Nat.leb_gt _ _)) by lia. lia.
    - rewrite En. intros I J HI HJ. cbn [stored_index]. destruct (Nat.leb_spec I J) as [C|C].
      + destruct (nth_error upper (J - I)) as [sk|] eqn:E; [|apply nth_error_None in E; lia].
        exists sk. split; [rewrite nth_error_app1 by lia; exact E|].
        eapply good_transfer; [exact (HU _ _ E)|unfold R1; apply map_length|unfold R2; now rewrite !map_length|].
        intros i j. rewrite upward by exact C. do 2 f_equal.
        destruct (Nat.eqb_spec I J) as [->|N]; [now rewrite Nat.sub_diag|].
        rewrite (proj2 (Nat.eqb_neq 0 (J - I))) by lia. reflexivity.
      + destruct (nth_error lower (n - (I - J))) as [sk|] eqn:E; [|apply nth_error_None in E; lia].
        exists sk. split; [rewrite nth_error_app2 by lia; rewrite <- E; f_equal; lia|].
        specialize (HL _ _ E). replace (n - (n - (I - J))) with (I - J) in HL by lia.
        eapply good_transfer; [exact HL|unfold R1; now rewrite !map_length|unfold R2; apply map_length|].
        intros i j. rewrite (proj2 (Nat.eqb_neq I J)) by lia. rewrite andb_false_r. apply downward. lia.
  Qed.

  Lemma circulant_good pr same n (blocks : list (mat A * mat A)) :
    (forall q, f (S n) q = q) ->
    (same = true -> length r1 = length r2) ->
    length blocks = S n ->
    (forall j sk, nth_error blocks j = Some sk -> good pr (same && (0 =? j)) r1 (R2 j) sk) ->
    good pr same (concat (map R1 (seq 0 (S n)))) (concat (map R2 (seq 0 (S n)))) (structured Circulant blocks).
  Proof.
    intros Hper HS Hl HU.
    assert (En : nblocks Circulant (length blocks) = S n) by (rewrite Hl; reflexivity).
    rewrite <- En. apply (structured_good pr same Circulant blocks R1 R2 (length r1) (length r2)).
    - discriminate.
    - cbn. lia.
    - lia.
    - intros. unfold R1. apply map_length.
    - intros. unfold R2. apply map_length.
    - exact HS.
    - rewrite En, Hl. intros k Hk. exists 0, k. split; [lia|]. split; [exact Hk|]. cbn [stored_index].
      rewrite cyclic_difference by lia. cbn [Nat.leb]. lia.
    - rewrite En. intros I J HI HJ. cbn [stored_index].
      set (d := (J + S n - I) mod S n). assert (Hd : d < S n) by (apply Nat.mod_upper_bound; lia).
      destruct (nth_error blocks d) as [sk|] eqn:E; [|apply nth_error_None in E; lia].
      exists sk. split; [reflexivity|].
      eapply good_transfer; [exact (HU _ _ E)|unfold R1; apply map_length|unfold R2; now rewrite !map_length|].
      intros i j. unfold d. rewrite cyclic_difference by assumption.
      destruct (Nat.leb_spec I J) as [C|C].
      + rewrite upward by exact C. do 2 f_equal. destruct (Nat.eqb_spec I J) as [->|N]; [now rewrite Nat.sub_diag|].
        rewrite (proj2 (Nat.eqb_neq 0 (J - I))) by lia. reflexivity.
      + rewrite (proj2 (Nat.eqb_neq I J)) by lia. rewrite (proj2 (Nat.eqb_neq 0 (J + S n - I))) by lia.
        unfold R1, R2. apply (coef_move P); [apply finv|apply (finv (J + S n - I))|exact W1|exact W2|]. intros q. rewrite fplus.
        replace (I + (J + S n - I)) with (J + S n) by lia. rewrite <- fplus. now rewrite Hper.
  Qed.
End Family.

(** Two parts exchanged by a reflection. *)
Lemma reflection_good pr same f r1 r2 a b :
  (forall q, f (f q) = q) -> invariant_under P G f -> within P r1 -> within P r2 -> (same = true -> length r1 = length r2) ->
  good pr same r1 r2 a -> good pr false r1 (map (img f) r2) b ->
  good pr same (r1 ++ map (img f) r1) (r2 ++ map (img f) r2) (structured SymToeplitz [a; b]).
Proof.
  intros Hf HI W1 W2 HS Ha Hb.
  pose (R (r : list raw) (i : nat) := match i with 0 => r | _ => map (img f) r end).
  pose proof (structured_good pr same SymToeplitz [a; b] (R r1) (R r2) (length r1) (length r2)) as H.
  cbn [length nblocks nb_blocks fst seq map concat R] in H. unfold nblocks in H. cbn [nb_blocks fst seq map concat R] in H.
  rewrite !app_nil_r in H. apply H; clear H.
  - discriminate.
  - cbn. lia.
  - lia.
  - intros [|i]; cbn; [reflexivity|apply map_length].
  - intros [|i]; cbn; [reflexivity|apply map_length].
  - exact HS.
  - intros k Hk. exists 0, k. cbn. lia.
  - assert (Hff : forall r, map (img f) (map (img f) r) = r) by (intros r; rewrite img_compose; now apply img_id).
    intros I J HI' HJ. destruct I as [|[|I]]; [| |lia]; (destruct J as [|[|J]]; [| |lia]); cbn [stored_index Nat.add Nat.sub nth_error Nat.eqb].
    + exists a. split; [reflexivity|]. now rewrite andb_true_r.
    + exists b. split; [reflexivity|]. now rewrite andb_false_r.
    + exists b. split; [reflexivity|]. rewrite andb_false_r.
      eapply good_transfer; [exact Hb|cbn; apply map_length|cbn; now rewrite map_length|].
      intros i j. cbn [R]. rewrite <- (coef_invariant P G f false r1 (map (img f) r2) i j HI W1 (within_img P f _ (proj1 HI) W2)). now rewrite Hff.
    + exists a. split; [reflexivity|]. rewrite andb_true_r.
      eapply good_transfer; [exact Ha|cbn; apply map_length|cbn; apply map_length|].
      intros i j. cbn [R]. now apply (coef_invariant P).
Qed.

(** All the pairs of parts. *)
Lemma block_good pr same rs1 rs2 (ls : list (list (mat A * mat A))) :
  0 < length rs1 -> 0 < length rs2 -> length ls = length rs1 -> (same = true -> rs1 = rs2) ->
  (forall I l, nth_error ls I = Some l -> length l = length rs2) ->
  (forall I J l sk a b, nth_error ls I = Some l -> nth_error l J = Some sk -> nth_error rs1 I = Some a -> nth_error rs2 J = Some b ->
     good pr (same && (I =? J)) a b sk) ->
  good pr same (concat rs1) (concat rs2) (block_matrix ls).
Proof.
  intros H1 H2 HL HS HW HB. unfold good. rewrite sel_block, !map_panel_concat.
  assert (EW : width_of ls = length rs2).
  { destruct ls as [|l ls]; [cbn in HL; lia|]. cbn. apply (HW 0). reflexivity. }
  rewrite EW, HL. apply plain_approx.
  - exact H1.
  - exact H2.
  - now rewrite map_length.
  - now rewrite map_length.
  - intros HT. rewrite (HS HT). reflexivity.
  - intros I J HI HJ.
    destruct (nth_error ls I) as [l|] eqn:El; [|apply nth_error_None in El; lia].
    destruct (nth_error l J) as [sk|] eqn:Es; [|apply nth_error_None in Es; rewrite (HW _ _ El) in Es; lia].
    destruct (nth_error rs1 I) as [a|] eqn:Ea; [|apply nth_error_None in Ea; lia].
    destruct (nth_error rs2 J) as [b|] eqn:Eb; [|apply nth_error_None in Eb; lia].
    specialize (HB I J l sk a b El Es Ea Eb). unfold good in HB.
    assert (E1 : nth I (map (map panel_raw) rs1) [] = map panel_raw a).
    { apply nth_error_nth. rewrite nth_error_map, Ea. reflexivity. }
    assert (E2 : nth J (map (map panel_raw) rs2) [] = map panel_raw b).
    { apply nth_error_nth. rewrite nth_error_map, Eb. reflexivity. }
    rewrite E1, E2. unfold array.
    assert (E3 : nth I (map (map (sel pr)) ls) [] = map (sel pr) l).
    { apply nth_error_nth. rewrite nth_error_map, El. reflexivity. }
    rewrite E3. assert (E4 : nth J (map (sel pr) l) (Bad IndexError) = sel pr sk).
    { apply nth_error_nth. rewrite nth_error_map, Es. reflexivity. }
    rewrite E4. exact HB.
Qed.
End Cases.
