(** The assembled full matrix is the one the structure stands for. *)
From Coq Require Import List Arith Bool Lia.
From Verif Require Import Model_Base Model_Ring Spec_Ring Proofs_Ring Model_Block Spec_Block Proofs_Block.
Import ListNotations.
Open Scope nat_scope.

Lemma nsum_locate n hs i : i < nsum n hs -> exists I a, I < n /\ a < hs I /\ i = nsum I hs + a.
Proof.
  induction n; cbn; intros H; [lia|].
  destruct (Nat.lt_ge_cases i (nsum n hs)) as [H1|H1].
  - destruct (IHn H1) as (I & a & ? & ? & ?). exists I, a. repeat split; auto.
  - exists n, (i - nsum n hs). lia.
Qed.
Lemma nsum_le n m hs : n <= m -> nsum n hs <= nsum m hs.
Proof. induction 1; cbn; lia. Qed.
Lemma nsum_inside n hs I a : I < n -> a < hs I -> nsum I hs + a < nsum n hs.
Proof. intros H Ha. pose proof (nsum_le (S I) n hs H). cbn in *. lia. Qed.
Lemma nsum_unique hs I a I' a' : a < hs I -> a' < hs I' -> nsum I hs + a = nsum I' hs + a' -> I = I' /\ a = a'.
Proof.
  intros Ha Ha' E. destruct (Nat.lt_trichotomy I I') as [H|[->|H]].
  - pose proof (nsum_inside I' hs I a H Ha). lia.
  - lia.
  - pose proof (nsum_inside I hs I' a' H Ha'). lia.
Qed.
Lemma nsum_ext n f g : (forall i, i < n -> f i = g i) -> nsum n f = nsum n g.
Proof. induction n; cbn; intros H; [reflexivity|]. rewrite IHn by (intros; apply H; lia). rewrite H by lia. reflexivity. Qed.

Section Full.
Context {A : coeffs}.
Implicit Types (m : mat A) (F G : nat -> nat -> K A).

Definition gr c nr nc := fst (nb_blocks c nr nc).
Definition gc c nr nc := snd (nb_blocks c nr nc).
Definition gblk c nr nc (b : nat -> nat -> mat A) I J : mat A :=
  match c with Plain => b I J | _ => b 0 (stored_index c (fst (nb_blocks c nr nc)) I J) end.

Lemma represents_blk c nr nc hs ws (b : nat -> nat -> mat A) F :
  represents (Blk c nr nc hs ws b) F <->
  forall I J, I < gr c nr nc -> J < gc c nr nc ->
    represents (gblk c nr nc b I J)
      (fun i j => F (nsum I (block_heights c hs) + i) (nsum J (block_widths c ws) + j)).
Proof.
  destruct c; cbn [represents gblk block_heights block_widths]; unfold gr, gc; [reflexivity|..];
    cbn [nb_blocks fst snd]; split; intros H I J HI HJ; specialize (H I J HI HJ); cbn [nb_blocks fst snd] in *;
    rewrite !nsum_const in *; exact H.
Qed.
Lemma shape_blk c nr nc hs ws (b : nat -> nat -> mat A) :
  shape (Blk c nr nc hs ws b)
  = (nsum (gr c nr nc) (block_heights c hs), nsum (gc c nr nc) (block_widths c ws)).
Proof. destruct c; cbn [shape block_heights block_widths]; unfold gr, gc; rewrite ?nsum_const; reflexivity. Qed.
Lemma gr_nblocks c nr nc : c <> Plain -> gr c nr nc = nblocks c nc /\ gc c nr nc = nblocks c nc.
Proof. intros H. unfold gr, gc. now rewrite nb_square. Qed.
Lemma wf_structured c nr nc hs ws (b : nat -> nat -> mat A) : c <> Plain ->
  wf (Blk c nr nc hs ws b) <->
  nr = 1 /\ valid_number c nc /\ forall k, k < nc -> wf (b 0 k) /\ shape (b 0 k) = (hs 0, ws 0).
Proof. intros H. destruct c; try reflexivity. congruence. Qed.
Lemma wf_blk c nr nc hs ws (b : nat -> nat -> mat A) : wf (Blk c nr nc hs ws b) ->
  forall I J, I < gr c nr nc -> J < gc c nr nc ->
    wf (gblk c nr nc b I J) /\
    shape (gblk c nr nc b I J) = (block_heights c hs I, block_widths c ws J).
Proof.
  intros Hwf I J HI HJ. destruct c eqn:Ec; [exact (proj2 Hwf I J HI HJ)|..]; rewrite <- Ec in *;
    (assert (Hc : c <> Plain) by congruence;
     apply wf_structured in Hwf; [|exact Hc]; destruct Hwf as (-> & Hv & Hb);
     destruct (gr_nblocks c 1 nc Hc) as [E1 E2]; rewrite E1 in HI; rewrite E2 in HJ;
     pose proof (stored_index_lt c nc I J Hc Hv HI HJ) as Hk;
     replace (gblk c 1 nc b I J) with (b 0 (stored_index c (nblocks c nc) I J)) by (now rewrite Ec);
     destruct (Hb _ Hk) as [H1 H2]; split; [exact H1|]; rewrite H2, Ec; reflexivity).
Qed.
Lemma all_blocks_gblk c nr nc hs ws (b : nat -> nat -> mat A) : wf (Blk c nr nc hs ws b) ->
  forall I J, I < gr c nr nc -> J < gc c nr nc -> all_blocks c nr nc b I J = gblk c nr nc b I J.
Proof.
  intros Hwf I J HI HJ. destruct c eqn:Ec; [reflexivity|..]; rewrite <- Ec in *;
    (assert (Hc : c <> Plain) by congruence;
     apply wf_structured in Hwf; [|exact Hc]; destruct Hwf as (-> & Hv & Hb);
     destruct (gr_nblocks c 1 nc Hc) as [E1 E2]; rewrite E1 in HI; rewrite E2 in HJ;
     unfold all_blocks, gblk; fold (nblocks c nc);
     rewrite (indices_are_defined c nc Hc Hv), (block_at_spec c nc I J Hc Hv HI HJ);
     rewrite Ec; reflexivity).
Qed.

Lemma grid_nonempty c nr nc hs ws (b : nat -> nat -> mat A) : wf (Blk c nr nc hs ws b) ->
  0 < gr c nr nc /\ 0 < gc c nr nc.
Proof.
  intros Hwf. destruct c; [exact (proj1 Hwf)|..]; destruct Hwf as (_ & Hv & _); unfold gr, gc;
    cbn [valid_number nb_blocks fst snd] in *; try lia.
  pose proof (odd_half nc Hv). set (n := (nc + 1) / 2) in *. lia.
Qed.

(** Only the entries inside of the shape matter. *)
Lemma represents_ext m : wf m -> forall F G,
  (forall i j, i < height m -> j < width m -> F i j = G i j) -> represents m F -> represents m G.
Proof.
  induction m as [e|h w f|h w r l rr|c nr nc hs ws b IH]; intros Hwf F G H HF.
  - exact HF.
  - cbn in *. intros i j Hi Hj. rewrite <- H by auto. auto.
  - cbn in *. intros i j Hi Hj. rewrite <- H by auto. auto.
  - apply represents_blk. intros I J HI HJ. pose proof (proj1 (represents_blk _ _ _ _ _ _ _) HF I J HI HJ) as HB.
    destruct (wf_blk _ _ _ _ _ _ Hwf I J HI HJ) as [HwB HsB].
    assert (IHB : forall F G, (forall i j, i < height (gblk c nr nc b I J) -> j < width (gblk c nr nc b I J) -> F i j = G i j) ->
       represents (gblk c nr nc b I J) F -> represents (gblk c nr nc b I J) G).
    { destruct c; apply IH; exact HwB. }
    refine (IHB _ _ _ HB). intros i j Hi Hj. unfold height, width in *. rewrite HsB in *. cbn [fst snd] in *.
    apply H; rewrite shape_blk; cbn [fst snd]; now apply nsum_inside.
Qed.
Lemma represents_unique m : wf m -> forall F G, represents m F -> represents m G ->
  forall i j, i < height m -> j < width m -> F i j = G i j.
Proof.
  induction m as [e|h w f|h w r l rr|c nr nc hs ws b IH]; intros Hwf F G HF HG i j Hi Hj.
  - destruct HF.
  - cbn in *. rewrite HF, HG by auto. reflexivity.
  - cbn in *. rewrite HF, HG by auto. reflexivity.
  - unfold height, width in Hi, Hj. rewrite shape_blk in Hi, Hj. cbn [fst snd] in *.
    destruct (nsum_locate _ _ _ Hi) as (I & a & HI & Ha & ->).
    destruct (nsum_locate _ _ _ Hj) as (J & d & HJ & Hd & ->).
    pose proof (proj1 (represents_blk _ _ _ _ _ _ _) HF I J HI HJ) as HB.
    pose proof (proj1 (represents_blk _ _ _ _ _ _ _) HG I J HI HJ) as HB'.
    destruct (wf_blk _ _ _ _ _ _ Hwf I J HI HJ) as [HwB HsB].
    assert (IHB : forall F G, represents (gblk c nr nc b I J) F -> represents (gblk c nr nc b I J) G ->
        forall i j, i < height (gblk c nr nc b I J) -> j < width (gblk c nr nc b I J) -> F i j = G i j).
    { destruct c; apply IH; exact HwB. }
    apply (IHB _ _ HB HB' a d); unfold height, width; rewrite HsB; cbn [fst snd]; auto.
Qed.

(** Existence of the full matrix. *)
Fixpoint which (n : nat) (hs : nat -> nat) (i : nat) : nat :=
  match n with O => 0 | S n => if nsum n hs <=? i then n else which n hs i end.
Lemma which_spec n hs I a : I < n -> a < hs I -> which n hs (nsum I hs + a) = I.
Proof.
  induction n; intros HI Ha; [lia|]. cbn [which].
  destruct (Nat.leb_spec (nsum n hs) (nsum I hs + a)) as [H|H].
  - destruct (Nat.eq_dec I n); [auto|]. pose proof (nsum_inside n hs I a). lia.
  - apply IHn; auto. destruct (Nat.eq_dec I n); [subst; lia|lia].
Qed.
Fixpoint entry (m : mat A) (i j : nat) : A :=
  match m with
  | Bad _ => k0
  | Dense h w f => f i j
  | Low h w r l rr => ksum r (fun p => kmul (l i p) (rr p j))
  | Blk c nr nc hs ws b =>
      let H := block_heights c hs in let W := block_widths c ws in
      let I := which (gr c nr nc) H i in let J := which (gc c nr nc) W j in
      match c with
      | Plain => entry (b I J) (i - nsum I H) (j - nsum J W)
      | _ => entry (b 0 (stored_index c (fst (nb_blocks c nr nc)) I J)) (i - nsum I H) (j - nsum J W)
      end
  end.
Lemma represents_entry m : wf m -> represents m (entry m).
Proof.
  induction m as [e|h w f|h w r l rr|c nr nc hs ws b IH]; intros Hwf.
  - exact Hwf.
  - cbn. auto.
  - cbn. auto.
  - apply represents_blk. intros I J HI HJ.
    destruct (wf_blk _ _ _ _ _ _ Hwf I J HI HJ) as [HwB HsB].
    assert (HB : represents (gblk c nr nc b I J) (entry (gblk c nr nc b I J))).
    { destruct c; apply IH; exact HwB. }
    refine (represents_ext _ HwB _ _ _ HB). intros i j Hi Hj.
    unfold height, width in *. rewrite HsB in *. cbn [fst snd] in *.
    cbn [entry]. rewrite !which_spec by auto.
    replace (nsum I (block_heights c hs) + i - nsum I (block_heights c hs)) with i by lia.
    replace (nsum J (block_widths c ws) + j - nsum J (block_widths c ws)) with j by lia.
    unfold gblk. destruct c; reflexivity.
Qed.

(** * Writing in the array *)

Definition frame (x y : nat) (s : nat * nat) (i j : nat) : Prop :=
  (x <= i < x + fst s) /\ (y <= j < y + snd s).
(** From array a to array a', exactly the cells of W are written, with the values of F. *)
Definition written F (a a' : @arr A) (W : nat -> nat -> Prop) : Prop :=
  forall i j, (a' i j = a i j \/ a' i j = Some (F i j)) /\
              (W i j -> a' i j = Some (F i j)) /\ (~ W i j -> a' i j = a i j).

Lemma written_trans F a a1 a2 W1 W2 :
  written F a a1 W1 -> written F a1 a2 W2 -> written F a a2 (fun i j => W1 i j \/ W2 i j).
Proof.
  intros H1 H2 i j. destruct (H1 i j) as (A1 & B1 & C1). destruct (H2 i j) as (A2 & B2 & C2).
  split; [|split].
  - destruct A2 as [->|]; auto.
  - intros [H|H]; [|auto]. destruct A2 as [->|]; auto.
  - intros H. rewrite C2 by tauto. apply C1. tauto.
Qed.
Lemma written_iff F a a' (W W' : nat -> nat -> Prop) :
  (forall i j, W i j <-> W' i j) -> written F a a' W -> written F a a' W'.
Proof.
  intros E H i j. destruct (H i j) as (A1 & B1 & C1). specialize (E i j).
  split; [exact A1|]. split; [intros; apply B1; tauto|intros; apply C1; tauto].
Qed.
Lemma written_refl F a : written F a a (fun _ _ => False).
Proof. intros i j. split; [auto|]. split; [intros []|auto]. Qed.

Lemma blit_written F a x y h w f :
  (forall i j, i < h -> j < w -> f i j = Some (F (x + i) (y + j))) ->
  written F a (blit a x y h w f) (frame x y (h, w)).
Proof.
  intros H i j. unfold blit, frame. cbn [fst snd].
  destruct (Nat.leb_spec x i); cbn [andb]; [|split; [auto|split; [lia|auto]]].
  destruct (Nat.ltb_spec i (x + h)); cbn [andb]; [|split; [auto|split; [lia|auto]]].
  destruct (Nat.leb_spec y j); cbn [andb]; [|split; [auto|split; [lia|auto]]].
  destruct (Nat.ltb_spec j (y + w)); cbn [andb]; [|split; [auto|split; [lia|auto]]].
  rewrite H by lia. replace (x + (i - x)) with i by lia. replace (y + (j - y)) with j by lia.
  split; [auto|]. split; [auto|]. intros Hn; exfalso; apply Hn; lia.
Qed.

Lemma in_insert_pos p q l : In p (insert_pos q l) <-> p = q \/ In p l.
Proof.
  induction l; cbn; [intuition congruence|].
  destruct (pos_leb q a); cbn; [intuition congruence|]. rewrite IHl. intuition congruence.
Qed.
Lemma in_sort_pos p l : In p (sort_pos l) <-> In p l.
Proof. induction l; cbn; [reflexivity|]. rewrite in_insert_pos, IHl. intuition congruence. Qed.

Lemma in_rect nr nc i j : In (i, j) (rect nr nc) <-> i < nr /\ j < nc.
Proof.
  unfold rect. rewrite in_flat_map. split.
  - intros (i' & Hi & Hj). apply in_map_iff in Hj. destruct Hj as (j' & E & Hj).
    injection E as -> ->. apply in_seq in Hi. apply in_seq in Hj. lia.
  - intros [Hi Hj]. exists i. split; [apply in_seq; lia|]. apply in_map_iff. exists j.
    split; [reflexivity|]. apply in_seq; lia.
Qed.

(** Index pairs of the grid at which the stored block (i, j) is found. *)
Definition at_index c nr nc (ij : nat * nat) (I J : nat) : Prop :=
  match c with
  | Plain => (I, J) = ij
  | _ => I < gr c nr nc /\ J < gc c nr nc /\ snd ij = stored_index c (fst (nb_blocks c nr nc)) I J
  end.

Lemma plain_dec c : c = Plain \/ c <> Plain.
Proof. destruct c; auto; right; discriminate. Qed.
Lemma stored_positions_structured c nr nc hs ws x y i j : c <> Plain ->
  stored_positions c nr nc hs ws x y i j
  = match block_indices c (nblocks c nc) j with
    | Some l => Some (sort_pos (map (fun p => (x + fst p * hs 0, y + snd p * ws 0)) l))
    | None => None
    end.
Proof. intros H. destruct c; try reflexivity. congruence. Qed.
Lemma at_index_structured c nr nc ij I J : c <> Plain ->
  at_index c nr nc ij I J <-> I < nblocks c nc /\ J < nblocks c nc /\ snd ij = stored_index c (nblocks c nc) I J.
Proof. intros H. destruct c; try reflexivity. congruence. Qed.
Lemma heights_structured c hs I : c <> Plain -> nsum I (block_heights c hs) = I * hs 0.
Proof. intros H. destruct c; [congruence|exact (nsum_const _ _)..]. Qed.
Lemma widths_structured c ws I : c <> Plain -> nsum I (block_widths c ws) = I * ws 0.
Proof. intros H. destruct c; [congruence|exact (nsum_const _ _)..]. Qed.

Lemma stored_positions_spec c nr nc hs ws (b : nat -> nat -> mat A) x y i j :
  wf (Blk c nr nc hs ws b) -> i < nr -> j < nc ->
  exists ps, stored_positions c nr nc hs ws x y i j = Some ps /\
    forall q, In q ps <-> exists I J, at_index c nr nc (i, j) I J /\
        q = (x + nsum I (block_heights c hs), y + nsum J (block_widths c ws)).
Proof.
  intros Hwf Hi Hj. destruct (plain_dec c) as [->|Hc].
  - eexists; split; [reflexivity|]. intros q. cbn [In at_index block_heights block_widths]. split.
    + intros [<-|[]]. exists i, j. auto.
    + intros (I & J & E & ->). injection E as -> ->. auto.
  - apply wf_structured in Hwf; [|exact Hc]. destruct Hwf as (-> & Hv & Hb).
    destruct (block_indices_spec c nc j Hc Hv Hj) as (l & El & Hl).
    rewrite stored_positions_structured, El by exact Hc.
    eexists; split; [reflexivity|]. intros q. rewrite in_sort_pos, in_map_iff. split.
    + intros ([I J] & <- & HIJ). exists I, J.
      rewrite at_index_structured, heights_structured, widths_structured by exact Hc.
      apply Hl in HIJ. auto.
    + intros (I & J & HIJ & ->). exists (I, J).
      rewrite at_index_structured in HIJ by exact Hc.
      rewrite heights_structured, widths_structured by exact Hc. split; [reflexivity|]. now apply Hl.
Qed.

(** Every stored block is used somewhere. *)
Lemma at_index_exists c nr nc hs ws (b : nat -> nat -> mat A) i j :
  wf (Blk c nr nc hs ws b) -> i < nr -> j < nc -> exists I J, at_index c nr nc (i, j) I J.
Proof.
  intros Hwf Hi Hj. destruct (plain_dec c) as [->|Hc].
  - exists i, j. reflexivity.
  - apply wf_structured in Hwf; [|exact Hc]. destruct Hwf as (-> & Hv & Hb).
    assert (H : exists I J, I < nblocks c nc /\ J < nblocks c nc /\ j = stored_index c (nblocks c nc) I J).
    { clear Hb. destruct c; [congruence| | | | |]; cbn [valid_number] in Hv; unfold nblocks; cbn [nb_blocks fst stored_index].
      - pose proof (odd_half nc Hv). set (n := (nc + 1) / 2) in *.
        destruct (Nat.lt_ge_cases j n).
        + exists 0, j. cbn [Nat.leb]. lia.
        + exists (2 * n - 1 - j), 0. destruct (Nat.leb_spec (2 * n - 1 - j) 0); lia.
      - exists 0, j. lia.
      - exists 0, j. rewrite cyclic_difference by lia. cbn [Nat.leb]. lia.
      - exists 0, j. split; [lia|]. split; [lia|]. rewrite cyclic_difference by lia. cbn [Nat.leb]. lia.
      - exists 0, j. split; [lia|]. split; [lia|]. rewrite cyclic_difference by lia. cbn [Nat.leb]. lia. }
    destruct H as (I & J & H). exists I, J. now rewrite at_index_structured.
Qed.
Lemma at_index_grid c nr nc hs ws (b : nat -> nat -> mat A) i j I J :
  wf (Blk c nr nc hs ws b) -> i < nr -> j < nc -> at_index c nr nc (i, j) I J ->
  I < gr c nr nc /\ J < gc c nr nc /\ gblk c nr nc b I J = b i j.
Proof.
  intros Hwf Hi Hj Hat. destruct (plain_dec c) as [->|Hc].
  - injection Hat as -> ->. auto.
  - apply wf_structured in Hwf; [|exact Hc]. destruct Hwf as (-> & Hv & Hb).
    pose proof (proj1 (at_index_structured _ _ _ _ _ _ Hc) Hat) as (H1 & H2 & H3).
    destruct (gr_nblocks c 1 nc Hc) as [-> ->]. split; [exact H1|]. split; [exact H2|].
    replace i with 0 by lia. cbn [snd] in H3. rewrite H3. destruct c; try reflexivity. congruence.
Qed.
Lemma grid_at_index c nr nc hs ws (b : nat -> nat -> mat A) I J :
  wf (Blk c nr nc hs ws b) -> I < gr c nr nc -> J < gc c nr nc ->
  exists i j, i < nr /\ j < nc /\ at_index c nr nc (i, j) I J.
Proof.
  intros Hwf HI HJ. destruct (plain_dec c) as [->|Hc].
  - exists I, J. split; [exact HI|]. split; [exact HJ|]. reflexivity.
  - apply wf_structured in Hwf; [|exact Hc]. destruct Hwf as (-> & Hv & Hb).
    destruct (gr_nblocks c 1 nc Hc) as [E1 E2]. rewrite E1 in HI. rewrite E2 in HJ.
    exists 0, (stored_index c (nblocks c nc) I J).
    split; [lia|]. split; [now apply stored_index_lt|]. rewrite at_index_structured by exact Hc. auto.
Qed.

(** Writing the copies of a block. *)
Lemma copies_written F p h w (rest : list (nat * nat)) :
  (forall q, In q rest -> forall i j, i < h -> j < w ->
      F (fst q + i) (snd q + j) = F (fst p + i) (snd p + j)) ->
  forall a, (forall i j, i < h -> j < w -> a (fst p + i) (snd p + j) = Some (F (fst p + i) (snd p + j))) ->
  written F a (fold_left (fun a q => blit a (fst q) (snd q) h w (fun i j => a (fst p + i) (snd p + j))) rest a)
    (fun i j => exists q, In q rest /\ frame (fst q) (snd q) (h, w) i j).
Proof.
  induction rest as [|q rest IH]; intros Hq a Ha.
  - cbn [fold_left]. eapply written_iff; [|apply written_refl]. intros i j; split; [intros []|intros (? & [] & _)].
  - cbn [fold_left].
    set (a1 := blit a (fst q) (snd q) h w (fun i j => a (fst p + i) (snd p + j))).
    assert (W1 : written F a a1 (frame (fst q) (snd q) (h, w))).
    { apply blit_written. intros i j Hi Hj. rewrite Ha by auto. f_equal. symmetry. apply Hq; cbn; auto. }
    assert (W2 := IH (fun q' H => Hq q' (or_intror H)) a1).
    eapply written_iff; [|eapply written_trans; [exact W1|apply W2]].
    + intros i j. cbn [In]. split.
      * intros [H|(q' & H & Hf)]; [exists q; auto|exists q'; auto].
      * intros (q' & [->|H] & Hf); [auto|right; exists q'; auto].
    + intros i j Hi Hj. destruct (W1 (fst p + i) (snd p + j)) as ([->|H] & _); auto.
Qed.

Definition put_correct m : Prop := wf m -> forall a x y F,
  represents m (fun i j => F (x + i) (y + j)) ->
  exists a', put m a x y = Some a' /\ written F a a' (frame x y (shape m)).

(** Writing a leaf at several positions. *)
Lemma leaf_written m F (ps : list (nat * nat)) : put_correct m -> wf m ->
  (forall q, In q ps -> represents m (fun i j => F (fst q + i) (snd q + j))) ->
  forall a, exists a',
    fold_left (fun oa q => match oa with None => None | Some a => put m a (fst q) (snd q) end) ps (Some a) = Some a' /\
    written F a a' (fun i j => exists q, In q ps /\ frame (fst q) (snd q) (shape m) i j).
Proof.
  intros Hput Hwf. induction ps as [|q ps IH]; intros Hq a.
  - exists a. split; [reflexivity|].
    eapply written_iff; [|apply written_refl]. intros i j; split; [intros []|intros (? & [] & _)].
  - cbn [fold_left].
    destruct (Hput Hwf a (fst q) (snd q) F (Hq q (or_introl eq_refl))) as (a1 & E1 & W1). rewrite E1.
    destruct (IH (fun q' H => Hq q' (or_intror H)) a1) as (a2 & E2 & W2).
    exists a2. split; [exact E2|].
    eapply written_iff; [|eapply written_trans; [exact W1|exact W2]].
    intros i j. cbn [In]. split.
    + intros [H|(q' & H & Hf)]; [exists q; auto|exists q'; auto].
    + intros (q' & [->|H] & Hf); [auto|right; exists q'; auto].
Qed.

Lemma put_ok m : put_correct m.
Proof.
  induction m as [e|h w f|h w r l rr|c nr nc hs ws b IH]; intros Hwf a x y F HF.
  - destruct Hwf.
  - cbn [put]. eexists; split; [reflexivity|]. cbn [shape].
    apply blit_written. intros i j Hi Hj. f_equal. symmetry. cbn in HF. now apply HF.
  - cbn [put]. eexists; split; [reflexivity|]. cbn [shape].
    apply blit_written. intros i j Hi Hj. f_equal. symmetry. cbn in HF. now apply HF.
  - cbn [put].
    set (step := fun (oa : option arr) (ij : nat * nat) => _).
    assert (Hnr : (match c with Plain => nr | _ => 1 end) = nr).
    { destruct (plain_dec c) as [->|Hc]; [reflexivity|].
      pose proof (proj1 (wf_structured _ _ _ _ _ _ Hc) Hwf) as (-> & _). now destruct c. }
    rewrite Hnr.
    set (HS := block_heights c hs). set (WS := block_widths c ws).
    (* one stored block *)
    assert (Hone : forall i j, i < nr -> j < nc -> forall a,
      exists a', step (Some a) (i, j) = Some a' /\
        written F a a' (fun i' j' => exists I J, at_index c nr nc (i, j) I J /\
            frame (x + nsum I HS) (y + nsum J WS) (HS I, WS J) i' j')).
    { intros i j Hi Hj a0. unfold step. cbn [fst snd].
      destruct (stored_positions_spec c nr nc hs ws b x y i j Hwf Hi Hj) as (ps & Eps & Hps).
      rewrite Eps.
      assert (Hrep : forall q, In q ps -> represents (b i j) (fun i' j' => F (fst q + i') (snd q + j'))).
      { intros q Hq. apply Hps in Hq. destruct Hq as (I & J & Hat & ->). cbn [fst snd].
        destruct (at_index_grid _ _ _ _ _ _ _ _ _ _ Hwf Hi Hj Hat) as (HI & HJ & Eb).
        pose proof (proj1 (represents_blk _ _ _ _ _ _ _) HF I J HI HJ) as HB. rewrite Eb in HB.
        fold HS WS in HB |- *.
        refine (represents_ext _ _ _ _ _ HB).
        - rewrite <- Eb. apply (wf_blk _ _ _ _ _ _ Hwf I J HI HJ).
        - intros i' j' _ _. f_equal; lia. }
      destruct (at_index_exists c nr nc hs ws b i j Hwf Hi Hj) as (I0 & J0 & Hat0).
      destruct (at_index_grid _ _ _ _ _ _ _ _ _ _ Hwf Hi Hj Hat0) as (HI0 & HJ0 & Eb0).
      destruct (wf_blk _ _ _ _ _ _ Hwf I0 J0 HI0 HJ0) as [HwB HsB]. rewrite Eb0 in HwB, HsB.
      assert (Hsame : forall I J, at_index c nr nc (i, j) I J -> shape (b i j) = (HS I, WS J)).
      { intros I J Hat. destruct (at_index_grid _ _ _ _ _ _ _ _ _ _ Hwf Hi Hj Hat) as (HI & HJ & Eb).
        destruct (wf_blk _ _ _ _ _ _ Hwf I J HI HJ) as [_ Hs]. rewrite Eb in Hs. exact Hs. }
      assert (Hset : forall i' j', (exists q, In q ps /\ frame (fst q) (snd q) (shape (b i j)) i' j') <->
         (exists I J, at_index c nr nc (i, j) I J /\ frame (x + nsum I HS) (y + nsum J WS) (HS I, WS J) i' j')).
      { intros i' j'. split.
        - intros (q & Hq & Hf). apply Hps in Hq. destruct Hq as (I & J & Hat & ->). cbn [fst snd] in Hf.
          exists I, J. split; [exact Hat|]. rewrite (Hsame I J Hat) in Hf. exact Hf.
        - intros (I & J & Hat & Hf). exists (x + nsum I HS, y + nsum J WS). split.
          + apply Hps. exists I, J. auto.
          + cbn [fst snd]. rewrite (Hsame I J Hat). exact Hf. }
      destruct (is_block (b i j)) eqn:Eblk.
      - (* nested block matrix *)
        destruct ps as [|p rest].
        { exfalso. destruct (proj2 (Hps _) (ex_intro _ I0 (ex_intro _ J0 (conj Hat0 eq_refl)))). }
        destruct (IH i j HwB a0 (fst p) (snd p) F (Hrep p (or_introl eq_refl))) as (a1 & E1 & W1).
        rewrite E1. eexists. split; [reflexivity|].
        eapply written_iff; [exact Hset|].
        eapply written_iff; [|eapply written_trans; [exact W1|apply copies_written]].
        + intros i' j'. cbn [In]. unfold height, width. rewrite <- surjective_pairing. split.
          * intros [H|(q' & H & Hf)]; [exists p; auto|exists q'; auto].
          * intros (q' & [->|H] & Hf); [auto|right; exists q'; auto].
        + intros q Hq i' j' Hi' Hj'.
          apply (represents_unique (b i j) HwB _ _ (Hrep q (or_intror Hq)) (Hrep p (or_introl eq_refl))); auto.
        + intros i' j' Hi' Hj'. apply (W1 (fst p + i') (snd p + j')).
          unfold frame, height, width in *. lia.
      - (* leaf *)
        destruct (leaf_written (b i j) F ps (IH i j) HwB Hrep a0) as (a1 & E1 & W1).
        exists a1. split; [exact E1|]. eapply written_iff; [exact Hset|exact W1]. }
    (* the loop *)
    assert (Hloop : forall L, (forall p, In p L -> fst p < nr /\ snd p < nc) -> forall a,
      exists a', fold_left step L (Some a) = Some a' /\
        written F a a' (fun i' j' => exists p I J, In p L /\ at_index c nr nc p I J /\
            frame (x + nsum I HS) (y + nsum J WS) (HS I, WS J) i' j')).
    { induction L as [|[i j] L IHL]; intros HL a0.
      - exists a0. split; [reflexivity|]. eapply written_iff; [|apply written_refl].
        intros i' j'; split; [intros []|intros (? & ? & ? & [] & _)].
      - cbn [fold_left]. destruct (HL (i, j) (or_introl eq_refl)) as [Hi Hj]. cbn [fst snd] in *.
        destruct (Hone i j Hi Hj a0) as (a1 & E1 & W1). rewrite E1.
        destruct (IHL (fun p H => HL p (or_intror H)) a1) as (a2 & E2 & W2).
        exists a2. split; [exact E2|].
        eapply written_iff; [|eapply written_trans; [exact W1|exact W2]].
        intros i' j'. split.
        + intros [(I & J & H1 & H2)|(p & I & J & H0 & H1 & H2)].
          * exists (i, j), I, J. cbn [In]. auto.
          * exists p, I, J. cbn [In]. auto.
        + intros (p & I & J & [<-|H0] & H1 & H2); [left; exists I, J; auto|right; exists p, I, J; auto]. }
    destruct (Hloop (rect nr nc)) with (a := a) as (a' & E' & W').
    { intros [i j] H. now apply in_rect in H. }
    exists a'. split; [exact E'|]. eapply written_iff; [|exact W'].
    intros i' j'. rewrite shape_blk. fold HS WS. unfold frame. cbn [fst snd]. split.
    + intros ([i j] & I & J & Hin & Hat & Hf). apply in_rect in Hin. destruct Hin as [Hi Hj].
      destruct (at_index_grid _ _ _ _ _ _ _ _ _ _ Hwf Hi Hj Hat) as (HI & HJ & _).
      pose proof (nsum_le (S I) _ HS HI). pose proof (nsum_le (S J) _ WS HJ). cbn [nsum] in *. lia.
    + intros [Hi' Hj'].
      destruct (nsum_locate (gr c nr nc) HS (i' - x)) as (I & a1 & HI & Ha1 & E1); [lia|].
      destruct (nsum_locate (gc c nr nc) WS (j' - y)) as (J & a2 & HJ & Ha2 & E2); [lia|].
      destruct (grid_at_index c nr nc hs ws b I J Hwf HI HJ) as (i & j & Hi & Hj & Hat).
      exists (i, j), I, J. split; [now apply in_rect|]. split; [exact Hat|]. lia.
Qed.

(** full_matrix() succeeds, initialises every entry, and returns the matrix denoted. *)
Lemma full_matrix_ok m F : wf m -> represents m F ->
  exists a, full_matrix m = Ok a /\
    forall i j, i < height m -> j < width m -> a i j = Some (F i j).
Proof.
  intros Hwf HF. destruct (put_ok m Hwf (fun _ _ => None) 0 0 F HF) as (a & E & W).
  exists a. unfold full_matrix. rewrite E. split; [reflexivity|].
  intros i j Hi Hj. apply (W i j). unfold frame, height, width in *. lia.
Qed.
Lemma full_entries_ok m F i j : wf m -> represents m F -> i < height m -> j < width m ->
  full_entries m i j = F i j.
Proof.
  intros Hwf HF Hi Hj. destruct (full_matrix_ok m F Hwf HF) as (a & E & H).
  unfold full_entries. now rewrite E, H.
Qed.
End Full.
