(** Entrywise operations, conversions and cuts. *)
From Coq Require Import List Arith Bool Lia Ring.
From Verif Require Import Model_Base Model_Ring Spec_Ring Proofs_Ring Model_Block Spec_Block Proofs_Block Proofs_Block2.
Import ListNotations.
Open Scope nat_scope.

Section Ops.
Context {A : coeffs}.
Implicit Types (m : mat A) (F G : nat -> nat -> K A).

Lemma stored_lt_grid c nr nc hs ws (b : nat -> nat -> mat A) I J :
  wf (Blk c nr nc hs ws b) -> I < gr c nr nc -> J < gc c nr nc ->
  exists i j, i < nr /\ j < nc /\ forall b' : nat -> nat -> mat A, gblk c nr nc b' I J = b' i j.
Proof.
  intros Hwf HI HJ. destruct (plain_dec c) as [->|Hc].
  - exists I, J. split; [exact HI|]. split; [exact HJ|]. reflexivity.
  - apply wf_structured in Hwf; [|exact Hc]. destruct Hwf as (-> & Hv & Hb).
    destruct (gr_nblocks c 1 nc Hc) as [E1 E2]. rewrite E1 in HI. rewrite E2 in HJ.
    exists 0, (stored_index c (nblocks c nc) I J).
    split; [lia|]. split; [now apply stored_index_lt|]. intros b'. destruct c; try reflexivity. congruence.
Qed.

(** Rebuilding a block matrix with a transformed matrix at each stored block. *)
Lemma wf_map c nr nc hs ws (b b' : nat -> nat -> mat A) :
  wf (Blk c nr nc hs ws b) ->
  (forall i j, i < nr -> j < nc -> wf (b i j) -> wf (b' i j) /\ shape (b' i j) = shape (b i j)) ->
  wf (Blk c nr nc hs ws b').
Proof.
  intros Hwf H. destruct (plain_dec c) as [->|Hc].
  - split; [exact (proj1 Hwf)|]. intros i j Hi Hj. destruct (proj2 Hwf i j Hi Hj) as [H1 H2]. destruct (H i j Hi Hj H1) as [H3 H4].
    split; [exact H3|congruence].
  - apply wf_structured in Hwf; [|exact Hc]. apply wf_structured; [exact Hc|]. destruct Hwf as (-> & Hv & Hb).
    split; [reflexivity|]. split; [exact Hv|]. intros k Hk. destruct (Hb k Hk) as [H1 H2].
    destruct (H 0 k Nat.lt_0_1 Hk H1) as [H3 H4]. split; [exact H3|congruence].
Qed.
Lemma wf_stored c nr nc hs ws (b : nat -> nat -> mat A) i j :
  wf (Blk c nr nc hs ws b) -> i < nr -> j < nc ->
  wf (b i j) /\ shape (b i j) = (block_heights c hs i, block_widths c ws j).
Proof.
  intros Hwf Hi Hj. destruct (plain_dec c) as [->|Hc]; [exact (proj2 Hwf i j Hi Hj)|].
  apply wf_structured in Hwf; [|exact Hc]. destruct Hwf as (-> & Hv & Hb).
  replace i with 0 by lia. destruct (Hb j Hj) as [H1 H2]. split; [exact H1|]. rewrite H2.
  destruct c; try reflexivity. congruence.
Qed.
Lemma shape_same c nr nc hs ws (b b' : nat -> nat -> mat A) :
  shape (Blk c nr nc hs ws b) = shape (Blk c nr nc hs ws b').
Proof. now rewrite !shape_blk. Qed.

(** ** Scaling and negation *)
Lemma scale_ok s m : wf m -> no_low_rank m ->
  wf (scale s m) /\ shape (scale s m) = shape m /\
  forall F, represents m F -> represents (scale s m) (fun i j => kmul s (F i j)).
Proof.
  induction m as [e|h w f|h w r l rr|c nr nc hs ws b IH]; intros Hwf Hnl.
  - destruct Hwf.
  - cbn. split; [auto|]. split; [reflexivity|]. intros F HF i j Hi Hj. now rewrite HF.
  - destruct Hnl.
  - cbn [scale]. split; [|split].
    + apply wf_map with (1 := Hwf). intros i j Hi Hj Hw.
      destruct (IH i j Hw (Hnl i j Hi Hj)) as (H1 & H2 & _). auto.
    + apply shape_same.
    + intros F HF. apply represents_blk. intros I J HI HJ.
      pose proof (proj1 (represents_blk _ _ _ _ _ _ _) HF I J HI HJ) as HB.
      destruct (stored_lt_grid _ _ _ _ _ _ _ _ Hwf HI HJ) as (i & j & Hi & Hj & E).
      rewrite E in HB |- *. destruct (wf_stored _ _ _ _ _ _ _ _ Hwf Hi Hj) as [Hw _].
      exact (proj2 (proj2 (IH i j Hw (Hnl i j Hi Hj))) _ HB).
Qed.

Hypothesis HA : ring_laws A.
Let HA' : ring_theory (@k0 A) k1 kadd kmul ksub kopp eq := HA.
Add Ring Aring : HA'.

Lemma neg_ok m : wf m ->
  wf (neg m) /\ shape (neg m) = shape m /\
  forall F, represents m F -> represents (neg m) (fun i j => kopp (F i j)).
Proof.
  induction m as [e|h w f|h w r l rr|c nr nc hs ws b IH]; intros Hwf.
  - destruct Hwf.
  - cbn. split; [auto|]. split; [reflexivity|]. intros F HF i j Hi Hj. now rewrite HF.
  - cbn. split; [auto|]. split; [reflexivity|]. intros F HF i j Hi Hj. rewrite HF by auto.
    transitivity (kmul (kopp k1) (ksum r (fun p => kmul (l i p) (rr p j)))); [ring|].
    rewrite <- ksum_mul_l by exact HA. apply ksum_ext. intros; ring.
  - cbn [neg]. split; [|split].
    + apply wf_map with (1 := Hwf). intros i j Hi Hj Hw.
      destruct (IH i j Hw) as (H1 & H2 & _). auto.
    + apply shape_same.
    + intros F HF. apply represents_blk. intros I J HI HJ.
      pose proof (proj1 (represents_blk _ _ _ _ _ _ _) HF I J HI HJ) as HB.
      destruct (stored_lt_grid _ _ _ _ _ _ _ _ Hwf HI HJ) as (i & j & Hi & Hj & E).
      rewrite E in HB |- *. destruct (wf_stored _ _ _ _ _ _ _ _ Hwf Hi Hj) as [Hw _].
      exact (proj2 (proj2 (IH i j Hw)) _ HB).
Qed.

(** ** Binary operations *)
Lemma subclass_refl c : is_subclass c c = true.
Proof. destruct c; reflexivity. Qed.
Lemma mk_valid c nr nc hs ws hs' ws' (b b' : nat -> nat -> mat A) : wf (Blk c nr nc hs ws b) ->
  mk_with_shapes c nr nc hs' ws' b' = Blk c nr nc hs' ws' b'.
Proof.
  intros Hwf. destruct c; try reflexivity. destruct Hwf as (_ & Hv & _). cbn in Hv.
  cbn [mk_with_shapes]. now rewrite Hv.
Qed.

Lemma binary_op_ok op m : forall m', wf m -> wf m' -> no_low_rank m -> no_low_rank m' ->
  alike m m' -> shape m = shape m' ->
  wf (binary_op op m m') /\ shape (binary_op op m m') = shape m /\
  forall F F', represents m F -> represents m' F' ->
    represents (binary_op op m m') (fun i j => op (F i j) (F' i j)).
Proof.
  induction m as [e|h w f|h w r l rr|c nr nc hs ws b IH]; intros m' Hwf Hwf' Hnl Hnl' Hal Hsh.
  - destruct Hwf.
  - destruct m' as [e'|h' w' f'|h' w' r' l' rr'|c' nr' nc' hs' ws' b']; [destruct Hwf'| |destruct Hnl'|destruct Hal].
    cbn in Hsh. injection Hsh as <- <-. cbn [binary_op]. rewrite !Nat.eqb_refl. cbn [andb].
    split; [exact I|]. split; [reflexivity|]. intros F F' HF HF' i j Hi Hj. cbn in HF, HF'.
    now rewrite HF, HF'.
  - destruct Hnl.
  - destruct m' as [e'|h' w' f'|h' w' r' l' rr'|c' nr' nc' hs' ws' b']; [destruct Hwf'|destruct Hal|destruct Hal|].
    destruct Hal as (<- & <- & <- & Ehs & Ews & Hal).
    cbn [binary_op]. rewrite subclass_refl.
    replace (pair_eqb (nb_blocks c nr nc) (nb_blocks c nr nc)) with true
      by (destruct (pair_eqb_spec (nb_blocks c nr nc) (nb_blocks c nr nc)); congruence).
    cbn [andb]. rewrite !Nat.min_id. rewrite (mk_valid _ _ _ _ _ _ _ _ _ Hwf).
    assert (Hrec : forall i j, i < nr -> j < nc ->
       wf (binary_op op (b i j) (b' i j)) /\ shape (binary_op op (b i j) (b' i j)) = shape (b i j) /\
       forall F F', represents (b i j) F -> represents (b' i j) F' ->
          represents (binary_op op (b i j) (b' i j)) (fun i' j' => op (F i' j') (F' i' j'))).
    { intros i j Hi Hj. destruct (wf_stored _ _ _ _ _ _ _ _ Hwf Hi Hj) as [Hw Hs].
      destruct (wf_stored _ _ _ _ _ _ _ _ Hwf' Hi Hj) as [Hw' Hs'].
      apply IH; auto. rewrite Hs, Hs'. f_equal.
      - destruct c; cbn; auto.
      - destruct c; cbn; auto. }
    split; [|split].
    + apply wf_map with (1 := Hwf). intros i j Hi Hj Hw.
      destruct (Hrec i j Hi Hj) as (H1 & H2 & _). auto.
    + apply shape_same.
    + intros F F' HF HF'. apply represents_blk. intros I J HI HJ.
      pose proof (proj1 (represents_blk _ _ _ _ _ _ _) HF I J HI HJ) as HB.
      pose proof (proj1 (represents_blk _ _ _ _ _ _ _) HF' I J HI HJ) as HB'.
      destruct (stored_lt_grid _ _ _ _ _ _ _ _ Hwf HI HJ) as (i & j & Hi & Hj & E).
      rewrite E in HB, HB' |- *.
      replace (nsum I (block_heights c hs')) with (nsum I (block_heights c hs)) in HB'
        by (apply nsum_ext; intros; destruct c; cbn; auto).
      replace (nsum J (block_widths c ws')) with (nsum J (block_widths c ws)) in HB'
        by (apply nsum_ext; intros; destruct c; cbn; auto).
      exact (proj2 (proj2 (Hrec i j Hi Hj)) _ _ HB HB').
Qed.

(** ** no_toeplitz *)
Lemma no_toeplitz_structured c nr nc hs ws (b : nat -> nat -> mat A) :
  wf (Blk c nr nc hs ws b) ->
  exists b', no_toeplitz (Blk c nr nc hs ws b) = mk Plain (gr c nr nc) (gc c nr nc) b' /\
    forall I J, I < gr c nr nc -> J < gc c nr nc -> b' I J = no_toeplitz (gblk c nr nc b I J).
Proof.
  intros Hwf. cbn [no_toeplitz]. eexists. split; [reflexivity|]. intros I J HI HJ.
  destruct (plain_dec c) as [->|Hc]; [reflexivity|].
  apply wf_structured in Hwf; [|exact Hc]. destruct Hwf as (-> & Hv & Hb).
  destruct (gr_nblocks c 1 nc Hc) as [E1 E2]. rewrite E1 in HI. rewrite E2 in HJ.
  fold (nblocks c nc).
  destruct c; [congruence| | | | |];
  cbv beta iota;
  rewrite indices_are_defined by auto; rewrite block_at_spec by auto; reflexivity.
Qed.

Lemma no_toeplitz_ok m : wf m ->
  wf (no_toeplitz m) /\ shape (no_toeplitz m) = shape m /\ plain_tree (no_toeplitz m) /\
  forall F, represents m F -> represents (no_toeplitz m) F.
Proof.
  induction m as [e|h w f|h w r l rr|c nr nc hs ws b IH]; intros Hwf.
  - destruct Hwf.
  - cbn. auto.
  - cbn. auto.
  - destruct (no_toeplitz_structured c nr nc hs ws b Hwf) as (b' & -> & Hb').
    destruct (grid_nonempty _ _ _ _ _ _ Hwf) as [Hr Hc].
    set (H := block_heights c hs). set (W := block_widths c ws).
    assert (Hrec : forall I J, I < gr c nr nc -> J < gc c nr nc ->
      wf (b' I J) /\ shape (b' I J) = (H I, W J) /\ plain_tree (b' I J) /\
      forall F, represents (gblk c nr nc b I J) F -> represents (b' I J) F).
    { intros I J HI HJ. rewrite Hb' by auto.
      destruct (wf_blk _ _ _ _ _ _ Hwf I J HI HJ) as [Hw Hs].
      assert (G : wf (no_toeplitz (gblk c nr nc b I J)) /\
        shape (no_toeplitz (gblk c nr nc b I J)) = shape (gblk c nr nc b I J) /\
        plain_tree (no_toeplitz (gblk c nr nc b I J)) /\
        forall F, represents (gblk c nr nc b I J) F -> represents (no_toeplitz (gblk c nr nc b I J)) F).
      { destruct c; apply IH; exact Hw. }
      rewrite Hs in G. exact G. }
    assert (EH : forall I, I < gr c nr nc -> height (b' I 0) = H I).
    { intros I HI. destruct (Hrec I 0 HI Hc) as (_ & E & _). unfold height. now rewrite E. }
    assert (EW : forall J, J < gc c nr nc -> width (b' 0 J) = W J).
    { intros J HJ. destruct (Hrec 0 J Hr HJ) as (_ & E & _). unfold width. now rewrite E. }
    unfold mk, mk_with_shapes. split; [|split; [|split]].
    + split; [auto|]. intros I J HI HJ. rewrite EH, EW by auto.
      destruct (Hrec I J HI HJ) as (H1 & H2 & _). auto.
    + rewrite (shape_blk c). cbn [shape]. f_equal; apply nsum_ext; auto.
    + cbn [plain_tree]. split; [reflexivity|]. intros I J HI HJ. apply (Hrec I J HI HJ).
    + intros F HF. cbn [represents]. intros I J HI HJ.
      replace (nsum I (fun i => height (b' i 0))) with (nsum I H) by (symmetry; apply nsum_ext; intros; apply EH; lia).
      replace (nsum J (fun j => width (b' 0 j))) with (nsum J W) by (symmetry; apply nsum_ext; intros; apply EW; lia).
      apply (Hrec I J HI HJ). apply (proj1 (represents_blk _ _ _ _ _ _ _) HF I J HI HJ).
Qed.

(** ** cut_matrix *)

(** The full matrix of the cut, when the rows and the columns are cut in the same way (the only
    offsets the code accumulates are those of the rows), or when there is a single column block. *)
Lemma cut_matrix_ok H W (f : nat -> nat -> A) nx ny xs ys :
  0 < nx -> 0 < ny -> ny <= nx ->
  nsum nx xs = H -> nsum ny ys = W ->
  (forall j, j < ny -> nsum j xs = nsum j ys) ->
  wf (cut_matrix H W f nx ny xs ys) /\ shape (cut_matrix H W f nx ny xs ys) = (H, W) /\
  represents (cut_matrix H W f nx ny xs ys) f.
Proof.
  intros Hnx Hny Hle EH EW Hoff. unfold cut_matrix. rewrite Nat.min_r by lia.
  assert (Eh : forall i, i < nx -> Nat.min (xs i) (H - nsum i xs) = xs i).
  { intros i Hi. pose proof (nsum_le (S i) nx xs Hi). cbn [nsum] in *. lia. }
  assert (Ew : forall j, j < ny -> Nat.min (ys j) (W - nsum j xs) = ys j).
  { intros j Hj. rewrite Hoff by auto. pose proof (nsum_le (S j) ny ys Hj). cbn [nsum] in *. lia. }
  unfold mk, mk_with_shapes, height, width. cbn [shape fst snd]. split; [|split].
  - split; [auto|]. intros i j Hi Hj. split; [exact I|]. reflexivity.
  - f_equal; [transitivity (nsum nx xs)|transitivity (nsum ny ys)]; auto; apply nsum_ext; auto.
  - intros i j Hi Hj p q Hp Hq.
    replace (nsum i (fun i0 => Nat.min (xs i0) (H - nsum i0 xs))) with (nsum i xs)
      by (symmetry; apply nsum_ext; intros; apply Eh; lia).
    replace (nsum j (fun i0 => Nat.min (ys i0) (W - nsum i0 xs))) with (nsum j ys)
      by (symmetry; apply nsum_ext; intros; apply Ew; lia).
    now rewrite (Hoff j Hj).
Qed.

(** ** full_like and identity_like *)
Lemma mk_shapes_ok c nr nc hs ws (b b' : nat -> nat -> mat A) :
  wf (Blk c nr nc hs ws b) ->
  (forall i j, i < nr -> j < nc -> wf (b' i j) /\ shape (b' i j) = shape (b i j)) ->
  exists hs' ws', mk c nr nc b' = Blk c nr nc hs' ws' b' /\ wf (Blk c nr nc hs' ws' b') /\
    (forall i, i < gr c nr nc -> block_heights c hs' i = block_heights c hs i) /\
    (forall j, j < gc c nr nc -> block_widths c ws' j = block_widths c ws j).
Proof.
  intros Hwf Hb. unfold mk. rewrite (mk_valid _ _ _ _ _ _ _ _ _ Hwf).
  eexists _, _. split; [reflexivity|].
  destruct (plain_dec c) as [->|Hc].
  - destruct Hwf as [[Hr Hcn] Hw].
    assert (Hs : forall i j, i < nr -> j < nc -> wf (b' i j) /\ shape (b' i j) = (hs i, ws j)).
    { intros i j Hi Hj. destruct (Hb i j Hi Hj) as [H1 H2]. split; [exact H1|].
      rewrite H2. apply (Hw i j Hi Hj). }
    split; [|split].
    + split; [auto|]. intros i j Hi Hj. unfold height, width.
      destruct (Hs i j Hi Hj) as [H1 H2]. destruct (Hs i 0 Hi Hcn) as [_ H3]. destruct (Hs 0 j Hr Hj) as [_ H4].
      split; [exact H1|]. now rewrite H2, H3, H4.
    + intros i Hi. cbn. unfold height. destruct (Hs i 0 Hi Hcn) as [_ ->]. reflexivity.
    + intros j Hj. cbn. unfold width. destruct (Hs 0 j Hr Hj) as [_ ->]. reflexivity.
  - pose proof (proj1 (wf_structured _ _ _ _ _ _ Hc) Hwf) as (-> & Hv & Hw).
    assert (Hnc : 0 < nc).
    { clear - Hv Hc. destruct c; cbn in Hv; try lia; [congruence|]. destruct nc; [discriminate Hv|lia]. }
    assert (Hs : forall k, k < nc -> wf (b' 0 k) /\ shape (b' 0 k) = (hs 0, ws 0)).
    { intros k Hk. destruct (Hb 0 k Nat.lt_0_1 Hk) as [H1 H2]. split; [exact H1|]. rewrite H2. apply (Hw k Hk). }
    split; [|split].
    + apply wf_structured; [exact Hc|]. split; [reflexivity|]. split; [exact Hv|]. intros k Hk.
      destruct (Hs k Hk) as [H1 H2]. split; [exact H1|].
      unfold height, width. destruct (Hs 0 Hnc) as [_ ->]. exact H2.
    + intros i Hi. unfold height. destruct (Hs 0 Hnc) as [_ E]. destruct c; cbn; rewrite ?E; try reflexivity. congruence.
    + intros i Hi. unfold width. destruct (Hs 0 Hnc) as [_ E]. destruct c; cbn; rewrite ?E; try reflexivity. congruence.
Qed.

Lemma full_like_ok m x : wf m ->
  wf (full_like m x) /\ shape (full_like m x) = shape m /\ represents (full_like m x) (fun _ _ => x).
Proof.
  induction m as [e|h w f|h w r l rr|c nr nc hs ws b IH]; intros Hwf.
  - destruct Hwf.
  - cbn. auto.
  - cbn. split; [auto|]. split; [reflexivity|]. intros. ring.
  - cbn [full_like].
    destruct (mk_shapes_ok c nr nc hs ws b (fun i j => full_like (b i j) x) Hwf) as (hs' & ws' & -> & Hw' & Eh & Ew).
    { intros i j Hi Hj. destruct (wf_stored _ _ _ _ _ _ _ _ Hwf Hi Hj) as [Hw _].
      destruct (IH i j Hw) as (H1 & H2 & _). auto. }
    split; [exact Hw'|]. split.
    + rewrite !shape_blk. f_equal; apply nsum_ext; auto.
    + apply represents_blk. intros I J HI HJ.
      destruct (stored_lt_grid _ _ _ _ _ _ _ _ Hwf HI HJ) as (i & j & Hi & Hj & E). rewrite E.
      destruct (wf_stored _ _ _ _ _ _ _ _ Hwf Hi Hj) as [Hw _]. apply (IH i j Hw).
Qed.

(** The identity: 1 on the diagonal, 0 elsewhere. For plain block matrices the diagonal blocks
    should be square. *)
Fixpoint square_diagonal m : Prop :=
  match m with
  | Blk c nr nc hs ws b =>
      nr <= nc /\ nc <= match c with Plain => nr | _ => nc end /\
      (forall i, i < nr -> i < nc -> hs i = ws i /\ square_diagonal (b i i))
  | _ => True
  end.
Definition delta (i j : nat) : A := if i =? j then k1 else k0.
Lemma identity_like_ok m : wf m -> no_low_rank m -> square_diagonal m ->
  wf (identity_like m) /\ shape (identity_like m) = shape m /\ represents (identity_like m) delta.
Proof.
  induction m as [e|h w f|h w r l rr|c nr nc hs ws b IH]; intros Hwf Hnl Hsq.
  - destruct Hwf.
  - cbn. auto.
  - destruct Hnl.
  - cbn [identity_like]. destruct Hsq as (Hle & Hle' & Hsq).
    assert (Hblk : forall i j, i < nr -> j < nc ->
       wf (if i =? j then identity_like (b i j) else full_like (b i j) k0) /\
       shape (if i =? j then identity_like (b i j) else full_like (b i j) k0) = shape (b i j)).
    { intros i j Hi Hj. destruct (wf_stored _ _ _ _ _ _ _ _ Hwf Hi Hj) as [Hw _].
      destruct (Nat.eqb_spec i j) as [<-|Hne].
      - destruct (IH i i Hw (Hnl i i Hi Hj)) as (H1 & H2 & _); [apply (Hsq i Hi Hj)|]. auto.
      - destruct (full_like_ok (b i j) k0 Hw) as (H1 & H2 & _). auto. }
    destruct (mk_shapes_ok c nr nc hs ws b _ Hwf Hblk) as (hs' & ws' & -> & Hw' & Eh & Ew).
    split; [exact Hw'|]. split; [rewrite !shape_blk; f_equal; apply nsum_ext; auto|].
    apply represents_blk. intros I J HI HJ.
    replace (nsum I (block_heights c hs')) with (nsum I (block_heights c hs))
      by (symmetry; apply nsum_ext; intros; apply Eh; lia).
    replace (nsum J (block_widths c ws')) with (nsum J (block_widths c ws))
      by (symmetry; apply nsum_ext; intros; apply Ew; lia).
    set (b' := fun i j => if i =? j then identity_like (b i j) else full_like (b i j) k0) in *.
    (* the offsets of the rows and of the columns are the same *)
    assert (Hoff : forall k, k <= gr c nr nc -> nsum k (block_widths c ws) = nsum k (block_heights c hs)).
    { intros k Hk. apply nsum_ext. intros i Hi. destruct (plain_dec c) as [->|Hc].
      - cbn in *. unfold gr in Hk. cbn in Hk. symmetry. apply Hsq; lia.
      - pose proof (proj1 (wf_structured _ _ _ _ _ _ Hc) Hwf) as (-> & Hv & _).
        assert (hs 0 = ws 0) by (apply Hsq; lia). destruct c; cbn; auto. congruence. }
    assert (Hgrid : gc c nr nc = gr c nr nc).
    { destruct (plain_dec c) as [->|Hc]; [cbn in *; unfold gc, gr; cbn; lia|].
      destruct (gr_nblocks c nr nc Hc) as [-> ->]. reflexivity. }
    rewrite Hgrid in HJ.
    destruct (Nat.eq_dec I J) as [<-|HIJ].
    + (* diagonal blocks *)
      assert (E : gblk c nr nc b' I I = identity_like (gblk c nr nc b I I) /\
                  represents (identity_like (gblk c nr nc b I I)) delta).
      { destruct (plain_dec c) as [->|Hc].
        - cbn [gblk]. unfold b'. rewrite Nat.eqb_refl. split; [reflexivity|].
          unfold gr in HI. cbn in HI. assert (HIc : I < nc) by lia.
          destruct (wf_stored _ _ _ _ _ _ I I Hwf HI HIc) as [Hw _].
          apply (IH I I Hw (Hnl I I HI HIc)). apply Hsq; auto.
        - pose proof (proj1 (wf_structured _ _ _ _ _ _ Hc) Hwf) as (-> & Hv & Hw).
          assert (E0 : forall x : nat -> nat -> mat A, gblk c 1 nc x I I = x 0 0).
          { intros x. assert (stored_index c (nblocks c nc) I I = 0) as Ei.
            { destruct (gr_nblocks c 1 nc Hc) as [E1 _]. rewrite E1 in HI.
              destruct c; cbn [stored_index]; rewrite ?cyclic_difference, ?Nat.leb_refl by auto; lia. }
            unfold gblk. fold (nblocks c nc). rewrite Ei. destruct c; try reflexivity. congruence. }
          rewrite !E0. unfold b'. cbn [Nat.eqb]. split; [reflexivity|].
          apply IH; [apply Hw; lia|apply Hnl; lia|apply Hsq; lia]. }
      destruct E as [-> HR]. rewrite Hoff by lia.
      assert (Hwg : wf (identity_like (gblk c nr nc b I I))).
      { destruct (stored_lt_grid _ _ _ _ _ _ I I Hwf HI) as (i & j & Hi & Hj & E); [now rewrite Hgrid|].
        destruct (plain_dec c) as [->|Hc].
        - cbn [gblk] in *. unfold gr in HI. cbn in HI. assert (HIc : I < nc) by lia.
          destruct (Hblk I I HI HIc) as [H _]. now rewrite Nat.eqb_refl in H.
        - pose proof (proj1 (wf_structured _ _ _ _ _ _ Hc) Hwf) as (-> & Hv & Hw).
          rewrite E. assert (i = 0) as -> by lia.
          assert (stored_index c (nblocks c nc) I I = 0) as Ei.
            { destruct (gr_nblocks c 1 nc Hc) as [E1 _]. rewrite E1 in HI.
              destruct c; cbn [stored_index]; rewrite ?cyclic_difference, ?Nat.leb_refl by auto; lia. }
          assert (b 0 j = b 0 0) as ->.
          { rewrite <- E. unfold gblk. fold (nblocks c nc). rewrite Ei. destruct c; try reflexivity. congruence. }
          destruct (Hblk 0 0) as [H _]; [lia|lia|exact H]. }
      refine (represents_ext _ Hwg _ _ _ HR). intros i j _ _. unfold delta.
      destruct (Nat.eqb_spec i j), (Nat.eqb_spec (nsum I (block_heights c hs) + i) (nsum I (block_heights c hs) + j)); try reflexivity; lia.
    + (* other blocks *)
      assert (E : exists i j, i < nr /\ j < nc /\ i <> j /\ gblk c nr nc b I J = b i j /\ gblk c nr nc b' I J = full_like (b i j) k0).
      { destruct (plain_dec c) as [->|Hc].
        - exists I, J. unfold gr in *. cbn in *. unfold b'. destruct (Nat.eqb_spec I J); [congruence|].
          repeat (split; [lia|]). auto.
        - pose proof (proj1 (wf_structured _ _ _ _ _ _ Hc) Hwf) as (-> & Hv & Hw).
          exists 0, (stored_index c (nblocks c nc) I J).
          destruct (gr_nblocks c 1 nc Hc) as [E1 E2]. rewrite E1 in HI, HJ.
          assert (Hk : stored_index c (nblocks c nc) I J < nc) by (now apply stored_index_lt).
          assert (Hk0 : 0 <> stored_index c (nblocks c nc) I J).
          { clear - HIJ HI HJ Hv Hc. destruct c; [congruence| | | | |]; unfold nblocks in *; cbn [stored_index nb_blocks fst valid_number] in *.
            - set (n := (nc + 1) / 2) in *. destruct (Nat.leb_spec I J); lia.
            - lia.
            - rewrite cyclic_difference by auto. destruct (Nat.leb_spec I J); lia.
            - rewrite cyclic_difference by auto. destruct (Nat.leb_spec I J); lia.
            - rewrite cyclic_difference by auto. destruct (Nat.leb_spec I J); lia. }
          split; [lia|]. split; [exact Hk|]. split; [exact Hk0|].
          assert (E : forall x : nat -> nat -> mat A, gblk c 1 nc x I J = x 0 (stored_index c (nblocks c nc) I J))
            by (intros; destruct c; try reflexivity; congruence).
          rewrite !E. split; [reflexivity|]. unfold b'. now rewrite (proj2 (Nat.eqb_neq _ _) Hk0). }
      destruct E as (i & j & Hi & Hj & Hij & Eb & ->).
      destruct (wf_stored _ _ _ _ _ _ _ _ Hwf Hi Hj) as [Hw Hs].
      destruct (full_like_ok (b i j) k0 Hw) as (H1 & H2 & H3).
      refine (represents_ext _ H1 _ _ _ H3). intros p q Hp Hq.
      unfold height, width in Hp, Hq. rewrite H2 in Hp, Hq.
      destruct (wf_blk _ _ _ _ _ _ Hwf I J HI) as [_ HsB]; [now rewrite Hgrid|]. rewrite Eb in HsB. rewrite HsB in Hp, Hq.
      cbn [fst snd] in Hp, Hq. unfold delta.
      destruct (Nat.eqb_spec (nsum I (block_heights c hs) + p) (nsum J (block_widths c ws) + q)) as [E0|]; [|reflexivity].
      exfalso. rewrite Hoff in E0 by lia.
      assert (Hq' : q < block_heights c hs J).
      { destruct (plain_dec c) as [->|Hc].
        - cbn in *. unfold gr in HJ. cbn in HJ. assert (hs J = ws J) by (apply Hsq; lia). lia.
        - pose proof (proj1 (wf_structured _ _ _ _ _ _ Hc) Hwf) as (-> & Hv & _).
          assert (hs 0 = ws 0) by (apply Hsq; lia). destruct c; cbn in *; lia. }
      destruct (nsum_unique _ _ _ _ _ Hp Hq' E0). congruence.
Qed.
End Ops.
