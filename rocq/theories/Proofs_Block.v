(** Placement of the blocks and assembly of the full matrix. *)
From Coq Require Import List Arith Bool Lia.
From Verif Require Import Model_Base Model_Ring Spec_Ring Proofs_Ring Model_Block Spec_Block.
Import ListNotations.
Open Scope nat_scope.

(** * Placement *)

Lemma in_diagonal n i j I J :
  In (I, J) (diagonal n i j) <-> exists t, I = i + t /\ J = j + t /\ I < n /\ J < n.
Proof.
  unfold diagonal. rewrite in_map_iff. split.
  - intros (t & E & Ht). apply in_seq in Ht. injection E as E1 E2. exists t. lia.
  - intros (t & -> & -> & H1 & H2). exists t. split; [reflexivity|]. apply in_seq. lia.
Qed.

Lemma toeplitz_indices_spec n k : k < 2 * n ->
  exists l, toeplitz_indices n k = Some l /\
    forall I J, In (I, J) l <-> I < n /\ J < n /\ (k < n /\ J = I + k \/ n <= k /\ I = J + (2 * n - 1 - k)).
Proof.
  intros Hk. unfold toeplitz_indices.
  destruct (Nat.ltb_spec k n) as [H|H].
  - eexists; split; [reflexivity|]. intros I J. rewrite in_diagonal. split.
    + intros (t & -> & -> & H1 & H2). lia.
    + intros (H1 & H2 & [[_ ->]|[? _]]); [|lia]. exists I. lia.
  - rewrite (proj2 (Nat.leb_le n k)) by lia. rewrite (proj2 (Nat.ltb_lt k (2 * n))) by lia. cbn [andb].
    eexists; split; [reflexivity|]. intros I J. rewrite in_diagonal. split.
    + intros (t & -> & -> & H1 & H2). lia.
    + intros (H1 & H2 & [[? _]|[_ ->]]); [lia|]. exists J. lia.
Qed.

Lemma cyclic_difference n I J : I < n -> J < n ->
  (J + n - I) mod n = if I <=? J then J - I else J + n - I.
Proof.
  intros HI HJ. destruct (Nat.leb_spec I J).
  - replace (J + n - I) with (J - I + 1 * n) by lia. rewrite Nat.mod_add by lia. apply Nat.mod_small. lia.
  - apply Nat.mod_small. lia.
Qed.

Definition nblocks (c : cls) (nc : nat) : nat := fst (nb_blocks c 1 nc).

Lemma nb_square c nr nc : c <> Plain -> nb_blocks c nr nc = (nblocks c nc, nblocks c nc).
Proof. destruct c; intros H; try reflexivity. congruence. Qed.

Lemma odd_half nc : Nat.even nc = false -> 2 * ((nc + 1) / 2) = nc + 1.
Proof.
  intros H. assert (Ho : Nat.odd nc = true) by (unfold Nat.odd; now rewrite H).
  apply Nat.odd_spec in Ho. destruct Ho as [m ->].
  replace (2 * m + 1 + 1) with ((m + 1) * 2) by lia. rewrite Nat.div_mul by lia. lia.
Qed.

(** The sets of indices of the five structures, for every number of blocks. *)
Lemma block_indices_spec c nc k : c <> Plain -> valid_number c nc -> k < nc ->
  exists l, block_indices c (nblocks c nc) k = Some l /\
    forall I J, In (I, J) l <->
      I < nblocks c nc /\ J < nblocks c nc /\ k = stored_index c (nblocks c nc) I J.
Proof.
  intros Hc Hv Hk. destruct c; [congruence| | | | |]; cbn [valid_number] in Hv.
  - (* Toeplitz *)
    unfold nblocks. cbn [nb_blocks fst]. pose proof (odd_half nc Hv) as Hn. set (n := (nc + 1) / 2) in *.
    cbn [block_indices].
    destruct (toeplitz_indices_spec n k) as (l & El & Hl); [lia|].
    exists l. split; [exact El|]. intros I J. rewrite Hl. cbn [stored_index].
    destruct (Nat.leb_spec I J); lia.
  - (* SymToeplitz *)
    unfold nblocks. cbn [nb_blocks fst block_indices].
    rewrite (proj2 (Nat.ltb_lt k nc)) by lia.
    destruct (Nat.eqb_spec k 0) as [->|Hk0].
    + destruct (toeplitz_indices_spec nc 0) as (l & El & Hl); [lia|].
      exists l. split; [exact El|]. intros I J. rewrite Hl. cbn [stored_index]. lia.
    + destruct (toeplitz_indices_spec nc k) as (l1 & E1 & H1); [lia|].
      destruct (toeplitz_indices_spec nc (2 * nc - k - 1)) as (l2 & E2 & H2); [lia|].
      exists (l1 ++ l2). rewrite E1, E2. split; [reflexivity|].
      intros I J. rewrite in_app_iff, H1, H2. cbn [stored_index]. lia.
  - (* Circulant *)
    unfold nblocks. cbn [nb_blocks fst block_indices].
    rewrite (proj2 (Nat.ltb_lt k nc)) by lia.
    assert (Hidx : forall I J, I < nc -> J < nc ->
       stored_index Circulant nc I J = if I <=? J then J - I else J + nc - I)
      by (intros; cbn [stored_index]; now apply cyclic_difference).
    destruct (Nat.eqb_spec k 0) as [->|Hk0].
    + destruct (toeplitz_indices_spec nc 0) as (l & El & Hl); [lia|].
      exists l. split; [exact El|]. intros I J. rewrite Hl. split.
      * intros (H1 & H2 & H). rewrite Hidx by auto. destruct (Nat.leb_spec I J); lia.
      * intros (H1 & H2 & H). rewrite Hidx in H by auto. destruct (Nat.leb_spec I J); lia.
    + destruct (toeplitz_indices_spec nc k) as (l1 & E1 & H1); [lia|].
      destruct (toeplitz_indices_spec nc (nc + k - 1)) as (l2 & E2 & H2); [lia|].
      exists (l1 ++ l2). rewrite E1, E2. split; [reflexivity|].
      intros I J. rewrite in_app_iff, H1, H2. split.
      * intros H. assert (I < nc /\ J < nc) as [Ha Hb] by lia. rewrite Hidx by auto.
        destruct (Nat.leb_spec I J); lia.
      * intros (Ha & Hb & H). rewrite Hidx in H by auto. destruct (Nat.leb_spec I J); lia.
  - (* EvenCirculant *)
    unfold nblocks. cbn [nb_blocks fst block_indices]. set (n := (nc - 1) * 2) in *.
    assert (Hn : n = 2 * nc - 2) by (unfold n; lia). clearbody n.
    rewrite (proj2 (Nat.ltb_lt (2 * k) (n + 2))) by lia.
    assert (Hidx : forall I J, I < n -> J < n ->
       stored_index EvenCirculant n I J =
       let d := if I <=? J then J - I else J + n - I in Nat.min d (n - d))
      by (intros; cbn [stored_index]; now rewrite cyclic_difference by auto).
    destruct (Nat.eqb_spec k 0) as [->|Hk0].
    + destruct (toeplitz_indices_spec n 0) as (l & El & Hl); [lia|].
      exists l. split; [exact El|]. intros I J. rewrite Hl. split.
      * intros (H1 & H2 & H). rewrite Hidx by auto. cbn zeta. destruct (Nat.leb_spec I J); lia.
      * intros (H1 & H2 & H). rewrite Hidx in H by auto. cbn zeta in H. destruct (Nat.leb_spec I J); lia.
    + destruct (toeplitz_indices_spec n k) as (l1 & E1 & H1); [lia|].
      destruct (toeplitz_indices_spec n (n + k - 1)) as (l2 & E2 & H2); [lia|].
      destruct (toeplitz_indices_spec n (n - k)) as (l3 & E3 & H3); [lia|].
      destruct (toeplitz_indices_spec n (2 * n - k - 1)) as (l4 & E4 & H4); [lia|].
      exists (((l1 ++ l2) ++ l3) ++ l4). rewrite E1, E2, E3, E4. split; [reflexivity|].
      intros I J. rewrite !in_app_iff, H1, H2, H3, H4. split.
      * intros H.
        assert (I < n /\ J < n) as [Ha Hb] by (destruct H as [[[H|H]|H]|H]; split; apply H).
        split; [exact Ha|]. split; [exact Hb|]. rewrite Hidx by auto. cbn zeta. clear - H Ha Hb Hn Hk Hk0.
        destruct H as [[[(_ & _ & H)|(_ & _ & H)]|(_ & _ & H)]|(_ & _ & H)]; destruct H as [[? ?]|[? ?]];
          destruct (Nat.leb_spec I J); lia.
      * intros (Ha & Hb & H). rewrite Hidx in H by auto. cbn zeta in H. clear - H Ha Hb Hn Hk Hk0.
        destruct (Nat.leb_spec I J) as [HIJ|HIJ].
        -- destruct (Nat.min_spec (J - I) (n - (J - I))) as [[? E]|[? E]]; rewrite E in H.
           ++ do 3 left. split; [exact Ha|]. split; [exact Hb|]. lia.
           ++ left; right. split; [exact Ha|]. split; [exact Hb|]. lia.
        -- destruct (Nat.min_spec (J + n - I) (n - (J + n - I))) as [[? E]|[? E]]; rewrite E in H.
           ++ do 2 left; right. split; [exact Ha|]. split; [exact Hb|]. lia.
           ++ right. split; [exact Ha|]. split; [exact Hb|]. lia.
  - (* OddCirculant *)
    unfold nblocks. cbn [nb_blocks fst block_indices]. set (n := nc * 2 - 1) in *.
    assert (Hn : n = 2 * nc - 1) by (unfold n; lia). clearbody n.
    rewrite (proj2 (Nat.ltb_lt (2 * k) (n + 1))) by lia.
    assert (Hidx : forall I J, I < n -> J < n ->
       stored_index OddCirculant n I J =
       let d := if I <=? J then J - I else J + n - I in Nat.min d (n - d))
      by (intros; cbn [stored_index]; now rewrite cyclic_difference by auto).
    destruct (Nat.eqb_spec k 0) as [->|Hk0].
    + destruct (toeplitz_indices_spec n 0) as (l & El & Hl); [lia|].
      exists l. split; [exact El|]. intros I J. rewrite Hl. split.
      * intros (H1 & H2 & H). rewrite Hidx by auto. cbn zeta. destruct (Nat.leb_spec I J); lia.
      * intros (H1 & H2 & H). rewrite Hidx in H by auto. cbn zeta in H. destruct (Nat.leb_spec I J); lia.
    + destruct (toeplitz_indices_spec n k) as (l1 & E1 & H1); [lia|].
      destruct (toeplitz_indices_spec n (n + k - 1)) as (l2 & E2 & H2); [lia|].
      destruct (toeplitz_indices_spec n (n - k)) as (l3 & E3 & H3); [lia|].
      destruct (toeplitz_indices_spec n (2 * n - k - 1)) as (l4 & E4 & H4); [lia|].
      exists (((l1 ++ l2) ++ l3) ++ l4). rewrite E1, E2, E3, E4. split; [reflexivity|].
      intros I J. rewrite !in_app_iff, H1, H2, H3, H4. split.
      * intros H.
        assert (I < n /\ J < n) as [Ha Hb] by (destruct H as [[[H|H]|H]|H]; split; apply H).
        split; [exact Ha|]. split; [exact Hb|]. rewrite Hidx by auto. cbn zeta. clear - H Ha Hb Hn Hk Hk0.
        destruct H as [[[(_ & _ & H)|(_ & _ & H)]|(_ & _ & H)]|(_ & _ & H)]; destruct H as [[? ?]|[? ?]];
          destruct (Nat.leb_spec I J); lia.
      * intros (Ha & Hb & H). rewrite Hidx in H by auto. cbn zeta in H. clear - H Ha Hb Hn Hk Hk0.
        destruct (Nat.leb_spec I J) as [HIJ|HIJ].
        -- destruct (Nat.min_spec (J - I) (n - (J - I))) as [[? E]|[? E]]; rewrite E in H.
           ++ do 3 left. split; [exact Ha|]. split; [exact Hb|]. lia.
           ++ left; right. split; [exact Ha|]. split; [exact Hb|]. lia.
        -- destruct (Nat.min_spec (J + n - I) (n - (J + n - I))) as [[? E]|[? E]]; rewrite E in H.
           ++ do 2 left; right. split; [exact Ha|]. split; [exact Hb|]. lia.
           ++ right. split; [exact Ha|]. split; [exact Hb|]. lia.
Qed.

Lemma stored_index_lt c nc I J : c <> Plain -> valid_number c nc ->
  I < nblocks c nc -> J < nblocks c nc -> stored_index c (nblocks c nc) I J < nc.
Proof.
  intros Hc Hv HI HJ. destruct c; [congruence| | | | |]; cbn [valid_number] in Hv; unfold nblocks in *;
    cbn [nb_blocks fst stored_index] in *.
  - pose proof (odd_half nc Hv). set (n := (nc + 1) / 2) in *. destruct (Nat.leb_spec I J); lia.
  - lia.
  - apply Nat.mod_upper_bound. lia.
  - rewrite cyclic_difference by auto. destruct (Nat.leb_spec I J); lia.
  - rewrite cyclic_difference by auto. destruct (Nat.leb_spec I J); lia.
Qed.

Lemma pair_eqb_spec p q : reflect (p = q) (pair_eqb p q).
Proof.
  destruct p as [a b], q as [c d]. unfold pair_eqb. cbn [fst snd].
  destruct (Nat.eqb_spec a c), (Nat.eqb_spec b d); cbn [andb]; constructor; congruence.
Qed.
Lemma mem_pair_spec p l : mem_pair p l = true <-> In p l.
Proof.
  unfold mem_pair. rewrite existsb_exists. split.
  - intros (q & Hq & E). destruct (pair_eqb_spec p q); congruence.
  - intros H. exists p. split; auto. destruct (pair_eqb_spec p p); congruence.
Qed.

Lemma indices_are_defined c nc : c <> Plain -> valid_number c nc ->
  indices_defined c (nblocks c nc) nc = true.
Proof.
  intros Hc Hv. apply forallb_forall. intros k Hk. apply in_seq in Hk.
  destruct (block_indices_spec c nc k Hc Hv) as (l & -> & _); [lia|reflexivity].
Qed.

(** Every position receives the block prescribed by the structure. *)
Lemma block_at_spec c nc I J : c <> Plain -> valid_number c nc ->
  I < nblocks c nc -> J < nblocks c nc ->
  block_at c (nblocks c nc) nc I J = Some (stored_index c (nblocks c nc) I J).
Proof.
  intros Hc Hv HI HJ. unfold block_at.
  set (k0 := stored_index c (nblocks c nc) I J).
  assert (Hk0 : k0 < nc) by (now apply stored_index_lt).
  assert (G : forall m, m <= nc ->
    fold_left (fun acc k => match block_indices c (nblocks c nc) k with
                            | Some l => if mem_pair (I, J) l then Some k else acc
                            | None => acc end) (seq 0 m) None = if k0 <? m then Some k0 else None).
  { induction m; intros Hm; [reflexivity|].
    rewrite seq_S, fold_left_app, IHm by lia. cbn [fold_left Nat.add].
    destruct (block_indices_spec c nc m Hc Hv) as (l & -> & Hl); [lia|].
    destruct (mem_pair (I, J) l) eqn:E.
    - apply mem_pair_spec, Hl in E. destruct E as (_ & _ & E). fold k0 in E. subst m.
      now rewrite (proj2 (Nat.ltb_lt k0 (S k0))) by lia.
    - assert (k0 <> m).
      { intros H. assert (In (I, J) l) by (apply Hl; auto). apply mem_pair_spec in H0. congruence. }
      destruct (Nat.ltb_spec k0 m), (Nat.ltb_spec k0 (S m)); try reflexivity; lia. }
  rewrite G by lia. now rewrite (proj2 (Nat.ltb_lt k0 nc) Hk0).
Qed.
