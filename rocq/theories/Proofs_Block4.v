(** Products of structured matrices with vectors and arrays. *)
From Coq Require Import List Arith Bool Lia Ring.
From Verif Require Import Model_Base Model_Ring Spec_Ring Proofs_Ring Model_Block Spec_Block
  Proofs_Block Proofs_Block2 Proofs_Block3.
Import ListNotations.
Open Scope nat_scope.

Lemma collect_ok {B} n (f : nat -> result B) (P : nat -> B -> Prop) d :
  (forall k, k < n -> exists x, f k = Ok x /\ P k x) ->
  exists l, collect n f = Ok l /\ length l = n /\ forall k, k < n -> P k (nth k l d).
Proof.
  induction n; intros H.
  - exists []. cbn. split; [reflexivity|]. split; [reflexivity|]. intros; lia.
  - destruct IHn as (l & E & El & Hl); [intros; apply H; lia|].
    destruct (H n) as (x & Ex & Px); [lia|].
    exists (l ++ [x]). cbn [collect]. rewrite E. cbn [bind]. rewrite Ex. cbn [bind].
    split; [reflexivity|]. split; [rewrite app_length; cbn; lia|].
    intros k Hk. destruct (Nat.lt_ge_cases k n).
    + rewrite app_nth1 by lia. auto.
    + replace k with n by lia. rewrite app_nth2 by lia. rewrite El, Nat.sub_diag. exact Px.
Qed.

Section Alike.
Context {A : coeffs}.
Implicit Types m : mat A.

Lemma alike_refl m : alike m m.
Proof. induction m; cbn; auto. repeat (split; auto). Qed.
Lemma alike_sym m : forall m', alike m m' -> alike m' m.
Proof.
  induction m as [e|h w f|h w r l rr|c nr nc hs ws b IH]; intros m'; destruct m'; cbn; auto.
  intros (-> & -> & -> & H1 & H2 & H3). repeat (split; auto).
Qed.
Lemma alike_trans m : forall m' m'', alike m m' -> alike m' m'' -> alike m m''.
Proof.
  induction m as [e|h w f|h w r l rr|c nr nc hs ws b IH]; intros m' m''; destruct m'; destruct m''; cbn; auto; try tauto.
  intros (-> & -> & -> & H1 & H2 & H3) (-> & -> & -> & H4 & H5 & H6).
  split; [auto|]. split; [auto|]. split; [auto|]. split; [intros; now rewrite H1|].
  split; [intros; now rewrite H2|]. intros i j Hi Hj. eapply IH; eauto.
Qed.
Lemma alike_is_block m m' : alike m m' -> is_block m = is_block m'.
Proof. destruct m, m'; cbn; tauto. Qed.
Lemma alike_depth d : forall m m', alike m m' -> depth_le d m -> depth_le d m'.
Proof.
  induction d; intros m m'; destruct m, m'; cbn; auto; try tauto.
  intros (-> & -> & -> & H1 & H2 & H3) H i j Hi Hj. eapply IHd; eauto.
Qed.
Lemma alike_plain m : forall m', alike m m' -> plain_tree m -> plain_tree m'.
Proof.
  induction m as [e|h w f|h w r l rr|c nr nc hs ws b IH]; intros m'; destruct m'; cbn; auto; try tauto.
  intros (-> & -> & -> & H1 & H2 & H3) [-> H]. split; [auto|]. intros i j Hi Hj. eapply IH; eauto.
Qed.
Lemma fft_ready_structured c nr nc hs ws (b : nat -> nat -> mat A) : c <> Plain ->
  fft_ready (Blk c nr nc hs ws b) <->
  (c = SymToeplitz -> 2 <= nc) /\ uniform nc (b 0) /\ (forall k, k < nc -> fft_ready (b 0 k)).
Proof. intros H. destruct c; try reflexivity. congruence. Qed.
Lemma alike_ready m : wf m -> forall m', alike m m' -> fft_ready m -> fft_ready m'.
Proof.
  induction m as [e|h w f|h w r l rr|c nr nc hs ws b IH]; intros Hwf m'; destruct m' as [| | |c' nr' nc' hs' ws' b'];
    try (cbn [alike]; tauto); try exact (fun _ _ => I).
  intros (<- & <- & <- & H1 & H2 & H3) Hr.
  destruct (plain_dec c) as [->|Hc].
  - cbn [fft_ready] in *. intros i j Hi Hj. eapply IH; eauto. apply (wf_stored _ _ _ _ _ _ _ _ Hwf Hi Hj).
  - pose proof (proj1 (wf_structured _ _ _ _ _ _ Hc) Hwf) as (-> & Hv & Hw).
    apply fft_ready_structured in Hr; [|exact Hc]. apply fft_ready_structured; [exact Hc|].
    destruct Hr as (Hs & Hu & Hr). split; [exact Hs|]. split.
    + destruct Hu as [(k & Hk & Hl)|Hu].
      * left. exists k. split; [exact Hk|]. rewrite <- Hl. symmetry. apply alike_is_block. auto.
      * right. intros k Hk. eapply alike_trans; [apply alike_sym, H3; lia|].
        eapply alike_trans; [apply Hu; exact Hk|]. apply H3; lia.
    + intros k Hk. eapply IH; [|apply H3; lia|auto]. apply Hw; auto.
Qed.
Lemma fft_ready_stored c nr nc hs ws (b : nat -> nat -> mat A) i j :
  wf (Blk c nr nc hs ws b) -> fft_ready (Blk c nr nc hs ws b) -> i < nr -> j < nc -> fft_ready (b i j).
Proof.
  intros Hwf Hr Hi Hj. destruct (plain_dec c) as [->|Hc]; [apply Hr; auto|].
  pose proof (proj1 (wf_structured _ _ _ _ _ _ Hc) Hwf) as (-> & _).
  apply fft_ready_structured in Hr; [|exact Hc]. replace i with 0 by lia. now apply Hr.
Qed.
End Alike.

Section Products.
Context {A : coeffs}.
Implicit Types (m : mat A) (F G : nat -> nat -> K A).
Hypothesis HA : ring_laws A.
Let HA' : ring_theory (@k0 A) k1 kadd kmul ksub kopp eq := HA.
Add Ring Aring : HA'.

(** ** The loop of BlockMatrix.matvec and rmatvec *)
Lemma rect_S nr nc : rect (S nr) nc = rect nr nc ++ map (fun j => (nr, j)) (seq 0 nc).
Proof. unfold rect. rewrite seq_S, flat_map_app. cbn [flat_map Nat.add]. now rewrite app_nil_r. Qed.

Lemma add_slice_in (res : nat -> A) hs I a x : a < hs I ->
  add_slice res (nsum I hs) (hs I) x (nsum I hs + a) = kadd (res (nsum I hs + a)) (x a).
Proof.
  intros Ha. unfold add_slice. rewrite (proj2 (Nat.leb_le _ _)) by lia. rewrite (proj2 (Nat.ltb_lt _ _)) by lia.
  cbn [andb]. now replace (nsum I hs + a - nsum I hs) with a by lia.
Qed.
Lemma add_slice_out (res : nat -> A) hs I I' a x : I <> I' -> a < hs I' ->
  add_slice res (nsum I hs) (hs I) x (nsum I' hs + a) = res (nsum I' hs + a).
Proof.
  intros Hne Ha. unfold add_slice.
  destruct (Nat.leb_spec (nsum I hs) (nsum I' hs + a)); cbn [andb]; [|reflexivity].
  destruct (Nat.ltb_spec (nsum I' hs + a) (nsum I hs + hs I)); [|reflexivity].
  exfalso. destruct (nsum_unique hs I (nsum I' hs + a - nsum I hs) I' a); try lia.
Qed.

Lemma plain_loop nr nc hs (f : nat * nat -> result (nat -> A)) (T : nat -> nat -> nat -> A) :
  (forall I J, I < nr -> J < nc -> exists x, f (I, J) = Ok x /\ forall a, a < hs I -> x a = T I J a) ->
  exists res, fold_left (fun acc ij => bind acc (fun res => bind (f ij) (fun x =>
      Ok (add_slice res (nsum (fst ij) hs) (hs (fst ij)) x)))) (rect nr nc) (Ok zeros) = Ok res /\
    forall I a, I < nr -> a < hs I -> res (nsum I hs + a) = ksum nc (fun J => T I J a).
Proof.
  set (step := fun acc ij => _). intros Hf.
  assert (Hrow : forall n, n < nr -> forall m : nat, m <= nc -> forall res0,
    exists res, fold_left step (map (fun j => (n, j)) (seq 0 m)) (Ok res0) = Ok res /\
      (forall a, a < hs n -> res (nsum n hs + a) = kadd (res0 (nsum n hs + a)) (ksum m (fun J => T n J a))) /\
      (forall I a, I <> n -> a < hs I -> res (nsum I hs + a) = res0 (nsum I hs + a))).
  { intros n Hn. induction m; intros Hm res0.
    - exists res0. split; [reflexivity|]. split; [intros; cbn; ring|auto].
    - destruct (IHm ltac:(lia) res0) as (res & E & H1 & H2).
      destruct (Hf n m Hn) as (x & Ex & Hx); [lia|].
      rewrite seq_S, map_app, fold_left_app, E. cbn [map fold_left Nat.add]. unfold step at 1. cbn [bind fst].
      rewrite Ex. cbn [bind]. eexists. split; [reflexivity|]. split.
      + intros a Ha. rewrite add_slice_in, H1, Hx by auto. cbn [ksum]. ring.
      + intros I a HI Ha. rewrite add_slice_out by auto. auto. }
  assert (Hall : forall n, n <= nr -> exists res, fold_left step (rect n nc) (Ok zeros) = Ok res /\
     forall I a, a < hs I -> res (nsum I hs + a) = if I <? n then ksum nc (fun J => T I J a) else k0).
  { induction n; intros Hn.
    - exists zeros. split; reflexivity.
    - destruct (IHn ltac:(lia)) as (res & E & H).
      destruct (Hrow n Hn nc (Nat.le_refl _) res) as (res' & E' & H1 & H2).
      exists res'. rewrite rect_S, fold_left_app, E. split; [exact E'|].
      intros I a Ha. destruct (Nat.eq_dec I n) as [->|Hne].
      + rewrite H1, H by auto. rewrite Nat.ltb_irrefl, (proj2 (Nat.ltb_lt n (S n))) by lia. ring.
      + rewrite H2, H by auto. destruct (Nat.ltb_spec I n), (Nat.ltb_spec I (S n)); try reflexivity; lia. }
  destruct (Hall nr (Nat.le_refl _)) as (res & E & H). exists res. split; [exact E|].
  intros I a HI Ha. rewrite H by auto. now rewrite (proj2 (Nat.ltb_lt I nr) HI).
Qed.

(** ** matmat with an array *)
Lemma sum_loop n h wv (f : nat -> result (nat -> nat -> A)) (T : nat -> nat -> nat -> A) :
  (forall j, j < n -> exists x, f j = Ok x /\ forall p q, p < h -> q < wv -> x p q = T j p q) ->
  exists res, fold_left (fun acc j => bind acc (fun res : nat -> nat -> A => bind (f j) (fun x =>
      Ok (fun p q => kadd (res p q) (x p q))))) (seq 0 n) (Ok (fun _ _ => k0)) = Ok res /\
    forall p q, p < h -> q < wv -> res p q = ksum n (fun j => T j p q).
Proof.
  induction n; intros H.
  - eexists; split; [reflexivity|]. reflexivity.
  - destruct IHn as (res & E & Hr); [intros; apply H; lia|].
    destruct (H n) as (x & Ex & Hx); [lia|].
    rewrite seq_S, fold_left_app, E. cbn [fold_left bind Nat.add]. rewrite Ex. cbn [bind].
    eexists; split; [reflexivity|]. intros p q Hp Hq. cbn [ksum]. now rewrite Hr, Hx.
Qed.

Lemma matmat_dense_ok m wv : wf m -> no_low_rank m -> forall V F, represents m F ->
  exists R, matmat_dense m wv V = Ok R /\
    forall i q, i < height m -> q < wv -> R i q = ksum (width m) (fun p => kmul (F i p) (V p q)).
Proof.
  induction m as [e|h w f|h w r l rr|c nr nc hs ws b IH]; intros Hwf Hnl V F HF.
  - destruct Hwf.
  - cbn in *. eexists; split; [reflexivity|]. intros i q Hi Hq. apply ksum_ext. intros j Hj. now rewrite HF.
  - destruct Hnl.
  - set (H := block_heights c hs). set (W := block_widths c ws).
    set (prod := fun (i j : nat) =>
      match c with
      | Plain => matmat_dense (b i j) wv (fun p q => V (nsum j W + p) q)
      | _ => if indices_defined c (gr c nr nc) nc then
               match block_at c (gr c nr nc) nc i j with
               | Some k => matmat_dense (b 0 k) wv (fun p q => V (nsum j W + p) q)
               | None => Err TypeError
               end
             else Err AttributeError
      end).
    change (matmat_dense (Blk c nr nc hs ws b) wv V) with
      (bind (collect (gr c nr nc) (fun i => fold_left (fun acc j => bind acc (fun res : nat -> nat -> A => bind (prod i j) (fun x =>
          Ok (fun p q => kadd (res p q) (x p q))))) (seq 0 (gc c nr nc)) (Ok (fun _ _ => k0))))
        (fun lines => Ok (full_entries (Blk Plain (gr c nr nc) 1 H (fun _ => wv)
                              (fun i _ => Dense (H i) wv (nth i lines (fun _ _ => k0))))))).
    assert (Hprod : forall I J, I < gr c nr nc -> J < gc c nr nc ->
      exists x, prod I J = Ok x /\ forall p q, p < H I -> q < wv ->
        x p q = ksum (W J) (fun j => kmul (F (nsum I H + p) (nsum J W + j)) (V (nsum J W + j) q))).
    { intros I J HI HJ.
      destruct (wf_blk _ _ _ _ _ _ Hwf I J HI HJ) as [HwB HsB].
      pose proof (proj1 (represents_blk _ _ _ _ _ _ _) HF I J HI HJ) as HB. fold H W in HB, HsB.
      assert (HnB : no_low_rank (gblk c nr nc b I J)).
      { destruct (stored_lt_grid _ _ _ _ _ _ _ _ Hwf HI HJ) as (i & j & Hi & Hj & E). rewrite E. auto. }
      assert (E : prod I J = matmat_dense (gblk c nr nc b I J) wv (fun p q => V (nsum J W + p) q)).
      { unfold prod. destruct (plain_dec c) as [->|Hc]; [reflexivity|].
        pose proof (proj1 (wf_structured _ _ _ _ _ _ Hc) Hwf) as (-> & Hv & _).
        destruct (gr_nblocks c 1 nc Hc) as [E1 E2].
        assert (HI' : I < nblocks c nc) by (now rewrite <- E1). assert (HJ' : J < nblocks c nc) by (now rewrite <- E2).
        rewrite E1. destruct c; [congruence| | | | |]; cbv beta iota;
          rewrite indices_are_defined by auto; rewrite block_at_spec by auto; reflexivity. }
      rewrite E.
      assert (IHB : exists R, matmat_dense (gblk c nr nc b I J) wv (fun p q => V (nsum J W + p) q) = Ok R /\
         forall i q, i < height (gblk c nr nc b I J) -> q < wv ->
           R i q = ksum (width (gblk c nr nc b I J)) (fun p => kmul (F (nsum I H + i) (nsum J W + p)) (V (nsum J W + p) q))).
      { destruct c; apply (IH _ _ HwB HnB _ _ HB). }
      destruct IHB as (R & ER & HR). unfold height, width in HR. rewrite HsB in HR. cbn [fst snd] in HR.
      exists R. auto. }
    clearbody prod.
    set (RES := fun i q => ksum (width (Blk c nr nc hs ws b)) (fun p => kmul (F i p) (V p q))).
    destruct (collect_ok (gr c nr nc)
       (fun i => fold_left (fun acc j => bind acc (fun res : nat -> nat -> A => bind (prod i j) (fun x =>
          Ok (fun p q => kadd (res p q) (x p q))))) (seq 0 (gc c nr nc)) (Ok (fun _ _ => k0)))
       (fun I x => forall p q, p < H I -> q < wv -> x p q = RES (nsum I H + p) q) (fun _ _ => k0))
      as (lines & El & Elen & Hl).
    { intros I HI. destruct (sum_loop (gc c nr nc) (H I) wv (prod I) _ (fun J HJ => Hprod I J HI HJ)) as (res & E & Hres).
      exists res. split; [exact E|]. intros p q Hp Hq. rewrite Hres by auto. unfold RES, width.
      rewrite shape_blk. cbn [snd]. fold W. now rewrite ksum_blocks. }
    rewrite El. cbn [bind]. eexists; split; [reflexivity|].
    intros i q Hi Hq. change (full_entries (Blk Plain (gr c nr nc) 1 H (fun _ => wv)
       (fun i _ => Dense (H i) wv (nth i lines (fun _ _ => k0)))) i q = RES i q).
    apply full_entries_ok.
    + split; [split; [apply (grid_nonempty _ _ _ _ _ _ Hwf)|lia]|]. intros; split; [exact I|reflexivity].
    + intros I J HI HJ p q' Hp Hq'. replace J with 0 by lia. cbn [nsum Nat.add]. symmetry. now apply Hl.
    + unfold height in *. rewrite shape_blk in Hi |- *. exact Hi.
    + unfold width. rewrite shape_blk. cbn. lia.
Qed.

(** ** Fourier transform of lists of matrices *)
Hypothesis HFo : fourier_laws A.

Lemma fft_dense_ok n ms (G : nat -> nat -> nat -> A) h w k : 0 < n ->
  (forall t, t < n -> wf (ms t) /\ shape (ms t) = (h, w) /\ represents (ms t) (G t)) ->
  exists f, fft_dense n ms k = Dense h w f /\
    forall i j, i < h -> j < w -> f i j = fft n (fun t => G t i j) k.
Proof.
  intros Hn H. destruct (H 0 Hn) as (_ & H0 & _).
  unfold fft_dense.
  replace (forallb _ _) with true.
  2:{ symmetry. apply forallb_forall. intros t Ht. apply in_seq in Ht.
      destruct (H t) as (_ & Ht' & _); [lia|]. rewrite Ht', H0.
      destruct (pair_eqb_spec (h, w) (h, w)); congruence. }
  unfold height, width. rewrite H0. cbn [fst snd]. eexists; split; [reflexivity|].
  intros i j Hi Hj. apply fft_ext. intros t Ht. destruct (H t Ht) as (H1 & H2 & H3).
  apply full_entries_ok; auto; unfold height, width; rewrite H2; cbn; auto.
Qed.

Lemma some_leaf_true n (ms : nat -> mat A) t : t < n -> is_block (ms t) = false -> some_leaf n ms = true.
Proof.
  intros Ht H. unfold some_leaf. apply existsb_exists. exists t. split; [apply in_seq; lia|]. now rewrite H.
Qed.
Lemma some_leaf_false n (ms : nat -> mat A) : (forall t, t < n -> is_block (ms t) = true) -> some_leaf n ms = false.
Proof.
  intros H. unfold some_leaf. destruct (existsb _ _) eqn:E; [|reflexivity].
  apply existsb_exists in E. destruct E as (t & Ht & E). apply in_seq in Ht. rewrite H in E by lia. discriminate.
Qed.

Lemma fft_of_list_ok d : forall fuel n ms (G : nat -> nat -> nat -> A) k, d <= fuel -> 0 < n ->
  is_block (ms 0) = true -> depth_le d (ms 0) ->
  (forall t, t < n -> wf (ms t) /\ shape (ms t) = shape (ms 0) /\ alike (ms 0) (ms t) /\ represents (ms t) (G t)) ->
  let D := fft_of_list fuel n ms k in
  wf D /\ shape D = shape (ms 0) /\ alike (ms 0) D /\
  represents D (fun i j => fft n (fun t => G t i j) k).
Proof.
  induction d; intros fuel n ms G k Hfuel Hn Hblk Hdep Hms.
  - destruct (ms 0); try discriminate Hblk. destruct Hdep.
  - destruct fuel as [|fuel]; [lia|]. cbn zeta.
    destruct (ms 0) as [| | |c nr nc hs ws b] eqn:E0; try discriminate Hblk.
    set (bl := fun i j t => stored_block (ms t) i j).
    set (B := fun i j => if some_leaf n (bl i j) then fft_dense n (bl i j) k else fft_of_list fuel n (bl i j) k).
    assert (ED : fft_of_list (S fuel) n ms k = Blk c nr nc hs ws B) by (cbn [fft_of_list]; rewrite E0; reflexivity).
    rewrite ED.
    destruct (Hms 0 Hn) as (Hwf0 & _ & _ & HF0). rewrite E0 in Hwf0, HF0.
    (* the stored blocks of each matrix *)
    assert (Hst : forall t, t < n -> exists hs' ws' b', ms t = Blk c nr nc hs' ws' b' /\
       (forall i, hs' i = hs i) /\ (forall j, ws' j = ws j) /\
       (forall i j, i < nr -> j < nc -> alike (b i j) (b' i j))).
    { intros t Ht. destruct (Hms t Ht) as (_ & _ & Hal & _).
      destruct (ms t) as [| | |c' nr' nc' hs' ws' b']; try destruct Hal.
      destruct H0 as (<- & <- & H1 & H2 & H3). subst c'. exists hs', ws', b'. repeat (split; auto). }
    assert (Hbl : forall i j, i < nr -> j < nc -> forall t, t < n ->
       wf (bl i j t) /\ shape (bl i j t) = (block_heights c hs i, block_widths c ws j) /\ alike (b i j) (bl i j t)).
    { intros i j Hi Hj t Ht. destruct (Hst t Ht) as (hs' & ws' & b' & Et & Eh & Ew & Hal).
      destruct (Hms t Ht) as (Hwt & _). unfold bl. rewrite Et in *. cbn [stored_block].
      rewrite (proj2 (Nat.ltb_lt i nr) Hi), (proj2 (Nat.ltb_lt j nc) Hj). cbn [andb].
      destruct (wf_stored _ _ _ _ _ _ _ _ Hwt Hi Hj) as [Hw Hs]. split; [exact Hw|]. split; [|auto].
      rewrite Hs. f_equal; destruct c; cbn; auto. }
    assert (HB : forall i j, i < nr -> j < nc -> forall (G' : nat -> nat -> nat -> A),
       (forall t, t < n -> represents (bl i j t) (G' t)) ->
       wf (B i j) /\ shape (B i j) = (block_heights c hs i, block_widths c ws j) /\ alike (b i j) (B i j) /\
       represents (B i j) (fun i' j' => fft n (fun t => G' t i' j') k)).
    { intros i j Hi Hj G' HG'. unfold B.
      destruct (is_block (b i j)) eqn:Eb.
      - assert (Hall : forall t, t < n -> is_block (bl i j t) = true).
        { intros t Ht. destruct (Hbl i j Hi Hj t Ht) as (_ & _ & Hal). now rewrite <- (alike_is_block _ _ Hal). }
        rewrite some_leaf_false by exact Hall.
        destruct (Hbl i j Hi Hj 0 Hn) as (Hw0 & Hs0 & Ha0).
        assert (Hrec := IHd fuel n (bl i j) G' k ltac:(lia) Hn (Hall 0 Hn)).
        cbn zeta in Hrec. destruct Hrec as (R1 & R2 & R3 & R4).
        + apply alike_depth with (1 := Ha0). apply (Hdep i j Hi Hj).
        + intros t Ht. destruct (Hbl i j Hi Hj t Ht) as (Hw & Hs & Ha).
          split; [exact Hw|]. split; [now rewrite Hs, Hs0|]. split; [|auto].
          eapply alike_trans; [apply alike_sym; exact Ha0|exact Ha].
        + split; [exact R1|]. split; [now rewrite R2, Hs0|]. split; [eapply alike_trans; eauto|exact R4].
      - rewrite (some_leaf_true n (bl i j) 0 Hn).
        2:{ destruct (Hbl i j Hi Hj 0 Hn) as (_ & _ & Hal). now rewrite <- (alike_is_block _ _ Hal). }
        destruct (fft_dense_ok n (bl i j) G' (block_heights c hs i) (block_widths c ws j) k Hn) as (f & -> & Hf).
        { intros t Ht. destruct (Hbl i j Hi Hj t Ht) as (Hw & Hs & _). auto. }
        split; [exact I|]. split; [reflexivity|]. split; [destruct (b i j); try discriminate Eb; exact I|].
        intros i' j' Hi' Hj'. now rewrite Hf. }
    (* some full matrices for the blocks *)
    assert (HB0 : forall i j, i < nr -> j < nc ->
       wf (B i j) /\ shape (B i j) = (block_heights c hs i, block_widths c ws j) /\ alike (b i j) (B i j)).
    { intros i j Hi Hj. destruct (HB i j Hi Hj (fun t => entry (bl i j t))) as (H1 & H2 & H3 & _); [|auto].
      intros t Ht. apply represents_entry. apply (Hbl i j Hi Hj t Ht). }
    split; [|split; [|split]].
    + apply wf_map with (1 := Hwf0). intros i j Hi Hj Hw. destruct (HB0 i j Hi Hj) as (H1 & H2 & _).
      split; [exact H1|]. rewrite H2. symmetry. apply (wf_stored _ _ _ _ _ _ _ _ Hwf0 Hi Hj).
    + apply shape_same.
    + cbn [alike]. repeat (split; [reflexivity|]). intros i j Hi Hj. apply (HB0 i j Hi Hj).
    + apply represents_blk. intros I J HI HJ.
      destruct (stored_lt_grid _ _ _ _ _ _ _ _ Hwf0 HI HJ) as (i & j & Hi & Hj & E). rewrite E.
      apply (HB i j Hi Hj). intros t Ht. destruct (Hst t Ht) as (hs' & ws' & b' & Et & Eh & Ew & Hal).
      destruct (Hms t Ht) as (Hwt & _ & _ & HFt). rewrite Et in HFt.
      pose proof (proj1 (represents_blk _ _ _ _ _ _ _) HFt I J HI HJ) as HBt. rewrite E in HBt.
      unfold bl. rewrite Et. cbn [stored_block].
      rewrite (proj2 (Nat.ltb_lt i nr) Hi), (proj2 (Nat.ltb_lt j nc) Hj). cbn [andb].
      replace (nsum I (block_heights c hs)) with (nsum I (block_heights c hs'))
        by (apply nsum_ext; intros; destruct c; cbn; auto).
      replace (nsum J (block_widths c ws)) with (nsum J (block_widths c ws'))
        by (apply nsum_ext; intros; destruct c; cbn; auto).
      exact HBt.
Qed.

(** The three circulant classes. *)
Definition circular (c : cls) : Prop := c = Circulant \/ c = EvenCirculant \/ c = OddCirculant.
Lemma circular_not_plain c : circular c -> c <> Plain.
Proof. intros [->|[->| ->]]; discriminate. Qed.

Lemma circular_shift c n I J : circular c -> I < n -> J < n ->
  stored_index c n ((I + (n - J)) mod n) 0 = stored_index c n I J.
Proof.
  intros Hc HI HJ.
  assert (E : (0 + n - (I + (n - J)) mod n) mod n = (J + n - I) mod n).
  { assert (Ht : (I + (n - J)) mod n = if J <=? I then I - J else I + n - J).
    { replace (I + (n - J)) with (I + n - J) by lia. now apply cyclic_difference. }
    assert ((I + (n - J)) mod n < n) by (apply Nat.mod_upper_bound; lia).
    rewrite cyclic_difference by lia. rewrite (cyclic_difference n I J) by auto. rewrite Ht in *.
    destruct (Nat.leb_spec J I), (Nat.leb_spec I J);
      match goal with |- context [?a <=? 0] => destruct (Nat.leb_spec a 0) end; lia. }
  destruct Hc as [->|[->| ->]]; cbn [stored_index]; now rewrite E.
Qed.

(** The blocks of the diagonalisation represent the transform of the first column. *)
Lemma block_diagonalize_ok d fuel c nc hs ws (b : nat -> nat -> mat A) F k :
  circular c -> d <= fuel -> wf (Blk c 1 nc hs ws b) -> represents (Blk c 1 nc hs ws b) F ->
  uniform nc (b 0) -> (forall j, j < nc -> depth_le d (b 0 j)) ->
  let n := nblocks c nc in
  let D := block_diagonalize fuel n nc (b 0) (fun i => all_blocks c 1 nc b i 0) k in
  wf D /\ shape D = (hs 0, ws 0) /\ (is_block D = true -> alike (b 0 0) D) /\
  represents D (fun a j => fft n (fun t => F (t * hs 0 + a) j) k).
Proof.
  intros Hcirc Hfuel Hwf HF Huni Hdep n D.
  pose proof (circular_not_plain c Hcirc) as Hc.
  destruct (gr_nblocks c 1 nc Hc) as [E1 E2]. fold n in E1, E2.
  destruct (grid_nonempty _ _ _ _ _ _ Hwf) as [Hn _]. rewrite E1 in Hn.
  pose proof (proj1 (wf_structured _ _ _ _ _ _ Hc) Hwf) as (_ & Hv & Hw).
  set (col := fun i => all_blocks c 1 nc b i 0) in *.
  assert (Ecol : forall t, t < n -> col t = b 0 (stored_index c n t 0) /\ stored_index c n t 0 < nc).
  { intros t Ht. unfold col. rewrite (all_blocks_gblk _ _ _ _ _ _ Hwf) by (rewrite ?E1, ?E2; auto).
    split; [destruct c; try reflexivity; congruence|]. now apply stored_index_lt. }
  assert (Hcol : forall t, t < n -> wf (col t) /\ shape (col t) = (hs 0, ws 0) /\
      represents (col t) (fun a j => F (t * hs 0 + a) j)).
  { intros t Ht. destruct (Ecol t Ht) as [E Hk]. rewrite E. destruct (Hw _ Hk) as [H1 H2].
    split; [exact H1|]. split; [exact H2|].
    assert (Ht1 : t < gr c 1 nc) by (now rewrite E1). assert (Ht2 : 0 < gc c 1 nc) by (now rewrite E2).
    pose proof (proj1 (represents_blk _ _ _ _ _ _ _) HF t 0 Ht1 Ht2) as HB.
    rewrite heights_structured, widths_structured in HB by exact Hc. cbn [Nat.mul Nat.add] in HB.
    replace (gblk c 1 nc b t 0) with (b 0 (stored_index c n t 0)) in HB
      by (destruct c; try reflexivity; congruence). exact HB. }
  assert (Hnc : 0 < nc).
  { destruct (Ecol 0 Hn) as [_ H]. lia. }
  unfold D, block_diagonalize.
  destruct (forallb (fun t => is_block (b 0 t)) (seq 0 nc)) eqn:Eall.
  - assert (Hblk : forall j, j < nc -> is_block (b 0 j) = true).
    { intros j Hj. rewrite forallb_forall in Eall. apply Eall. apply in_seq. lia. }
    assert (Hal : forall j, j < nc -> alike (b 0 0) (b 0 j)).
    { destruct Huni as [(j & Hj & E)|Hal]; [|exact Hal]. rewrite Hblk in E by auto. discriminate. }
    assert (H0 : col 0 = b 0 0).
    { destruct (Ecol 0 Hn) as [E _]. rewrite E. f_equal.
      destruct Hcirc as [->|[->| ->]]; cbn [stored_index]; rewrite ?cyclic_difference by auto; cbn; lia. }
    pose proof (fft_of_list_ok d fuel n col (fun t a j => F (t * hs 0 + a) j) k Hfuel Hn) as H.
    cbn zeta in H. rewrite H0 in H. destruct H as (R1 & R2 & R3 & R4).
    + apply Hblk; auto.
    + apply Hdep; auto.
    + intros t Ht. destruct (Hcol t Ht) as (H1 & H2 & H3). destruct (Ecol t Ht) as [E Hk].
      split; [exact H1|]. split; [rewrite H2; symmetry; apply Hw; auto|]. split; [|exact H3].
      rewrite E. auto.
    + split; [exact R1|]. split; [rewrite R2; apply Hw; auto|]. split; [intros _; exact R3|exact R4].
  - destruct (fft_dense_ok n col (fun t a j => F (t * hs 0 + a) j) (hs 0) (ws 0) k Hn Hcol) as (f & -> & Hf).
    split; [exact I|]. split; [reflexivity|]. split; [discriminate|].
    intros i j Hi Hj. now rewrite Hf.
Qed.

(** A block of a circulant matrix only depends on the difference of indices. *)
Lemma circular_entries c nc hs ws (b : nat -> nat -> mat A) F I J a j :
  circular c -> wf (Blk c 1 nc hs ws b) -> represents (Blk c 1 nc hs ws b) F ->
  I < nblocks c nc -> J < nblocks c nc -> a < hs 0 -> j < ws 0 ->
  F (((I + (nblocks c nc - J)) mod (nblocks c nc)) * hs 0 + a) j = F (I * hs 0 + a) (J * ws 0 + j).
Proof.
  intros Hcirc Hwf HF HI HJ Ha Hj. pose proof (circular_not_plain c Hcirc) as Hc.
  set (n := nblocks c nc) in *. set (t := (I + (n - J)) mod n).
  assert (Ht : t < n) by (apply Nat.mod_upper_bound; lia).
  destruct (gr_nblocks c 1 nc Hc) as [E1 E2]. fold n in E1, E2.
  pose proof (proj1 (wf_structured _ _ _ _ _ _ Hc) Hwf) as (_ & Hv & Hw).
  assert (G : forall p q, p < n -> q < n ->
     represents (b 0 (stored_index c n p q)) (fun i j => F (p * hs 0 + i) (q * ws 0 + j))).
  { intros p q Hp Hq.
    pose proof (proj1 (represents_blk _ _ _ _ _ _ _) HF p q) as HB. rewrite E1, E2 in HB.
    specialize (HB Hp Hq). rewrite heights_structured, widths_structured in HB by exact Hc.
    replace (gblk c 1 nc b p q) with (b 0 (stored_index c n p q)) in HB
      by (destruct c; try reflexivity; congruence). exact HB. }
  assert (Hk : stored_index c n I J < nc) by (now apply stored_index_lt).
  destruct (Hw _ Hk) as [Hwk Hsk].
  pose proof (G t 0 Ht ltac:(lia)) as G1. unfold t in G1 at 1. rewrite circular_shift in G1 by auto.
  pose proof (represents_unique _ Hwk _ _ G1 (G I J HI HJ) a j) as E. unfold height, width in E. rewrite Hsk in E.
  exact (E Ha Hj).
Qed.

(** ** matvec *)
Lemma depth_stored d c nr nc hs ws (b : nat -> nat -> mat A) i j :
  depth_le (S d) (Blk c nr nc hs ws b) -> i < nr -> j < nc -> depth_le d (b i j).
Proof. intros H Hi Hj. apply H; auto. Qed.

Definition circulant_matvec fuel c nc hs ws b (v : nat -> A) :=
  let n := fst (nb_blocks c 1 nc) in
  let h := hs 0 in let w := ws 0 in
  let D := block_diagonalize fuel n nc (b 0) (fun i => all_blocks c 1 nc b i 0) in
  bind (collect n (fun k => matvec fuel (D k) (fun j => fft n (fun i => v (i * w + j)) k)))
       (fun rs => Ok (fun i => ifft n (fun k => nth k rs zeros (i mod h)) (i / h))).

Definition matvec_correct fuel := forall d m F v, d < fuel -> wf m -> fft_ready m -> depth_le d m ->
  represents m F ->
  exists r, matvec fuel m v = Ok r /\ forall i, i < height m -> r i = times_vec (width m) F v i.

Lemma circulant_matvec_ok fuel d c nc hs ws (b : nat -> nat -> mat A) F v :
  matvec_correct fuel -> circular c -> d < fuel ->
  wf (Blk c 1 nc hs ws b) -> fft_ready (Blk c 1 nc hs ws b) -> (forall j, j < nc -> depth_le d (b 0 j)) ->
  represents (Blk c 1 nc hs ws b) F ->
  exists r, circulant_matvec fuel c nc hs ws b v = Ok r /\
    forall i, i < nblocks c nc * hs 0 -> r i = times_vec (nblocks c nc * ws 0) F v i.
Proof.
  intros IH Hcirc Hd Hwf Hrdy Hdep HF. pose proof (circular_not_plain c Hcirc) as Hc.
  unfold circulant_matvec. fold (nblocks c nc). set (n := nblocks c nc). set (h := hs 0). set (w := ws 0).
  pose proof (proj1 (fft_ready_structured _ _ _ _ _ _ Hc) Hrdy) as (_ & Huni & Hr).
  pose proof (proj1 (wf_structured _ _ _ _ _ _ Hc) Hwf) as (_ & Hv & Hw).
  assert (Hnc : 0 < nc).
  { clear - Hv Hcirc. destruct Hcirc as [->|[->| ->]]; cbn in Hv; lia. }
  set (D := block_diagonalize fuel n nc (b 0) (fun i => all_blocks c 1 nc b i 0)).
  assert (HD : forall k, k < n -> exists r,
     matvec fuel (D k) (fun j => fft n (fun i => v (i * w + j)) k) = Ok r /\
     forall a, a < h -> r a = ksum w (fun j => kmul (fft n (fun t => F (t * h + a) j) k) (fft n (fun i => v (i * w + j)) k))).
  { intros k Hk.
    destruct (block_diagonalize_ok d fuel c nc hs ws b F k Hcirc ltac:(lia) Hwf HF Huni Hdep) as (D1 & D2 & D3 & D4).
    fold n h w in D1, D2, D3, D4. fold D in D1, D2, D3, D4.
    assert (D5 : fft_ready (D k)).
    { destruct (is_block (D k)) eqn:Eb.
      - apply (alike_ready (b 0 0)); [apply Hw; auto|auto|auto].
      - destruct (D k); try discriminate Eb; exact I. }
    assert (D6 : depth_le d (D k)).
    { destruct (is_block (D k)) eqn:Eb.
      - eapply alike_depth; [apply D3; reflexivity|auto].
      - destruct (D k); try discriminate Eb; destruct d; exact I. }
    destruct (IH d (D k) _ (fun j => fft n (fun i => v (i * w + j)) k) Hd D1 D5 D6 D4) as (r & Er & Hr').
    exists r. split; [exact Er|]. intros a Ha. unfold height, width in Hr'. rewrite D2 in Hr'. apply Hr'. exact Ha. }
  destruct (collect_ok n _ _ zeros HD) as (rs & Ers & _ & Hrs). rewrite Ers. cbn [bind].
  eexists; split; [reflexivity|]. intros i Hi. cbv beta.
  assert (Hh : 0 < h) by (destruct h; [rewrite Nat.mul_0_r in Hi|]; lia).
  set (I := i / h). set (a := i mod h).
  assert (Ha : a < h) by (apply Nat.mod_upper_bound; lia).
  assert (HI : I < n) by (apply Nat.div_lt_upper_bound; lia).
  assert (Ei : i = I * h + a) by (unfold I, a; rewrite Nat.mul_comm; apply Nat.div_mod; lia).
  rewrite (ifft_ext A n _ (fun k => ksum w (fun j => kmul (fft n (fun t => F (t * h + a) j) k) (fft n (fun i => v (i * w + j)) k)))).
  2:{ intros k Hk. now rewrite Hrs. }
  rewrite (ifft_sum A HA n w (fun j k => kmul (fft n (fun t => F (t * h + a) j) k) (fft n (fun i => v (i * w + j)) k))).
  unfold times_vec. rewrite ksum_blocks_const, ksum_swap by exact HA.
  apply ksum_ext. intros j Hj. rewrite convolution by auto.
  apply ksum_ext. intros J HJ. f_equal. rewrite Ei.
  exact (circular_entries c nc hs ws b F I J a j Hcirc Hwf HF HI HJ Ha Hj).
Qed.

(** Toeplitz matrices are the top left corner of their circulant super matrix. *)
Lemma toeplitz_super c c' nc hs ws (b : nat -> nat -> mat A) F F' i j :
  c = Toeplitz /\ c' = Circulant \/ c = SymToeplitz /\ c' = EvenCirculant /\ 2 <= nc ->
  wf (Blk c 1 nc hs ws b) -> represents (Blk c 1 nc hs ws b) F -> represents (Blk c' 1 nc hs ws b) F' ->
  i < nblocks c nc * hs 0 -> j < nblocks c nc * ws 0 -> F' i j = F i j.
Proof.
  intros Hcc Hwf HF HF' Hi Hj.
  assert (Hc : c <> Plain) by (destruct Hcc as [[-> _]|[-> _]]; discriminate).
  assert (Hc' : c' <> Plain) by (destruct Hcc as [[_ ->]|(_ & -> & _)]; discriminate).
  pose proof (proj1 (wf_structured _ _ _ _ _ _ Hc) Hwf) as (_ & Hv & Hw).
  assert (Hle : nblocks c nc <= nblocks c' nc).
  { destruct Hcc as [[-> ->]|(-> & -> & H2)]; unfold nblocks; cbn [nb_blocks fst].
    - cbn in Hv. pose proof (odd_half nc Hv). set (n := (nc + 1) / 2) in *. lia.
    - lia. }
  rewrite <- (nsum_const (nblocks c nc)) in Hi, Hj.
  destruct (nsum_locate _ _ _ Hi) as (I & a & HI & Ha & ->).
  destruct (nsum_locate _ _ _ Hj) as (J & q & HJ & Hq & ->). cbv beta in Ha, Hq.
  destruct (gr_nblocks c 1 nc Hc) as [E1 E2]. destruct (gr_nblocks c' 1 nc Hc') as [E1' E2'].
  pose proof (proj1 (represents_blk _ _ _ _ _ _ _) HF I J) as HB. rewrite E1, E2 in HB. specialize (HB HI HJ).
  pose proof (proj1 (represents_blk _ _ _ _ _ _ _) HF' I J) as HB'. rewrite E1', E2' in HB'.
  specialize (HB' ltac:(lia) ltac:(lia)).
  rewrite heights_structured, widths_structured in HB by exact Hc.
  rewrite heights_structured, widths_structured in HB' by exact Hc'.
  rewrite !nsum_const.
  assert (Ei : stored_index c' (nblocks c' nc) I J = stored_index c (nblocks c nc) I J).
  { destruct Hcc as [[-> ->]|(-> & -> & H2)]; unfold nblocks in *; cbn [nb_blocks fst stored_index] in *.
    - cbn in Hv. pose proof (odd_half nc Hv). set (n := (nc + 1) / 2) in *.
      rewrite cyclic_difference by lia. destruct (Nat.leb_spec I J); lia.
    - rewrite cyclic_difference by lia. destruct (Nat.leb_spec I J); lia. }
  assert (Eg : gblk c 1 nc b I J = b 0 (stored_index c (nblocks c nc) I J))
    by (destruct c; try reflexivity; congruence).
  assert (Eg' : gblk c' 1 nc b I J = b 0 (stored_index c (nblocks c nc) I J))
    by (rewrite <- Ei; destruct c'; try reflexivity; congruence).
  rewrite Eg in HB. rewrite Eg' in HB'.
  destruct (Hw (stored_index c (nblocks c nc) I J)) as [Hwk Hsk]; [now apply stored_index_lt|].
  pose proof (represents_unique _ Hwk _ _ HB' HB a q) as E. unfold height, width in E. rewrite Hsk in E.
  exact (E Ha Hq).
Qed.

(** The super matrix is well-formed and ready. *)
Lemma super_wf c c' nc hs ws (b : nat -> nat -> mat A) :
  c = Toeplitz /\ c' = Circulant \/ c = SymToeplitz /\ c' = EvenCirculant /\ 2 <= nc ->
  wf (Blk c 1 nc hs ws b) -> wf (Blk c' 1 nc hs ws b) /\ nblocks c nc <= nblocks c' nc.
Proof.
  intros Hcc Hwf.
  assert (Hc : c <> Plain) by (destruct Hcc as [[-> _]|[-> _]]; discriminate).
  assert (Hc' : c' <> Plain) by (destruct Hcc as [[_ ->]|(_ & -> & _)]; discriminate).
  pose proof (proj1 (wf_structured _ _ _ _ _ _ Hc) Hwf) as (_ & Hv & Hw). split.
  - apply wf_structured; [exact Hc'|]. split; [reflexivity|]. split; [|exact Hw].
    destruct Hcc as [[-> ->]|(-> & -> & H2)]; cbn in *; [|exact H2]. destruct nc; [discriminate|lia].
  - destruct Hcc as [[-> ->]|(-> & -> & H2)]; unfold nblocks; cbn [nb_blocks fst].
    + cbn in Hv. pose proof (odd_half nc Hv). set (n := (nc + 1) / 2) in *. lia.
    + lia.
Qed.

Lemma sum_padded (n m : nat) (f : nat -> A) (v : nat -> A) : n <= m ->
  ksum m (fun j => kmul (f j) (if j <? n then v j else k0)) = ksum n (fun j => kmul (f j) (v j)).
Proof.
  intros H. replace m with (n + (m - n)) by lia. rewrite ksum_split by exact HA.
  rewrite (ksum_ext A (m - n) _ (fun _ => k0)).
  2:{ intros i Hi. destruct (Nat.ltb_spec (n + i) n); [lia|ring]. }
  rewrite ksum_zero by exact HA.
  rewrite (ksum_ext A n _ (fun j => kmul (f j) (v j))); [ring|].
  intros i Hi. now rewrite (proj2 (Nat.ltb_lt i n) Hi).
Qed.

Lemma matvec_ok fuel : matvec_correct fuel.
Proof.
  induction fuel as [|fuel IH]; intros d m F v Hd Hwf Hr Hdep HF; [lia|].
  destruct m as [e|h w f|h w r l rr|c nr nc hs ws b].
  - destruct Hwf.
  - cbn in *. eexists; split; [reflexivity|]. intros i Hi. apply ksum_ext. intros j Hj. now rewrite HF.
  - cbn in *. eexists; split; [reflexivity|]. intros i Hi. unfold times_vec.
    rewrite (ksum_ext A w _ (fun j => ksum r (fun p => kmul (l i p) (kmul (rr p j) (v j))))).
    2:{ intros j Hj. rewrite HF by auto. rewrite <- ksum_mul_r by exact HA. apply ksum_ext. intros; ring. }
    rewrite ksum_swap by exact HA. apply ksum_ext. intros p Hp. now rewrite ksum_mul_l.
  - destruct d as [|d]; [destruct Hdep|].
    assert (Hst : forall i j, i < nr -> j < nc -> wf (b i j) /\ fft_ready (b i j) /\ depth_le d (b i j)).
    { intros i j Hi Hj. split; [apply (wf_stored _ _ _ _ _ _ _ _ Hwf Hi Hj)|].
      split; [apply (fft_ready_stored _ _ _ _ _ _ _ _ Hwf Hr Hi Hj)|apply (Hdep i j Hi Hj)]. }
    destruct (plain_dec c) as [->|Hc].
    + (* plain *)
      cbn [matvec].
      destruct (plain_loop nr nc hs (fun ij => matvec fuel (b (fst ij) (snd ij)) (slice v (nsum (snd ij) ws)))
         (fun I J a => ksum (ws J) (fun j => kmul (F (nsum I hs + a) (nsum J ws + j)) (v (nsum J ws + j))))) as (res & E & Hres).
      { intros I J HI HJ. cbn [fst snd]. destruct (Hst I J HI HJ) as (H1 & H2 & H3).
        pose proof (HF I J HI HJ) as HB. destruct (proj2 Hwf I J HI HJ) as [_ Hs].
        destruct (IH d (b I J) _ (slice v (nsum J ws)) ltac:(lia) H1 H2 H3 HB) as (x & Ex & Hx).
        exists x. split; [exact Ex|]. intros a Ha. unfold height, width in Hx. rewrite Hs in Hx. apply Hx. exact Ha. }
      exists res. split; [exact E|]. intros i Hi. unfold height, width in *. cbn [shape fst snd] in *.
      destruct (nsum_locate _ _ _ Hi) as (I & a & HI & Ha & ->).
      rewrite Hres by auto. unfold times_vec. now rewrite ksum_blocks.
    + pose proof (proj1 (wf_structured _ _ _ _ _ _ Hc) Hwf) as (-> & Hv & Hw).
      assert (Hdep0 : forall j, j < nc -> depth_le d (b 0 j)) by (intros; apply Hdep; lia).
      assert (Ewid : width (Blk c 1 nc hs ws b) = nblocks c nc * ws 0).
      { unfold width. rewrite shape_blk. cbn [snd]. rewrite widths_structured by exact Hc.
        destruct (gr_nblocks c 1 nc Hc) as [_ ->]. reflexivity. }
      assert (Ehei : height (Blk c 1 nc hs ws b) = nblocks c nc * hs 0).
      { unfold height. rewrite shape_blk. cbn [fst]. rewrite heights_structured by exact Hc.
        destruct (gr_nblocks c 1 nc Hc) as [-> _]. reflexivity. }
      assert (Htop : forall c', c = Toeplitz /\ c' = Circulant \/ c = SymToeplitz /\ c' = EvenCirculant /\ 2 <= nc ->
        exists r, circulant_matvec fuel c' nc hs ws b (fun j => if j <? width (Blk c 1 nc hs ws b) then v j else k0) = Ok r /\
          forall i, i < height (Blk c 1 nc hs ws b) -> r i = times_vec (width (Blk c 1 nc hs ws b)) F v i).
      { intros c' Hcc. destruct (super_wf c c' nc hs ws b Hcc Hwf) as [Hwf' Hle].
        assert (Hcirc' : circular c') by (destruct Hcc as [[_ ->]|(_ & -> & _)]; unfold circular; auto).
        pose proof (represents_entry _ Hwf') as HF'.
        assert (Hr' : fft_ready (Blk c' 1 nc hs ws b)).
        { apply fft_ready_structured; [now apply circular_not_plain|].
          apply fft_ready_structured in Hr; [|exact Hc]. destruct Hr as (_ & H2 & H3).
          split; [|auto]. intros ->. destruct Hcc as [[_ H]|(_ & H & _)]; discriminate H. }
        destruct (circulant_matvec_ok fuel d c' nc hs ws b _
           (fun j => if j <? width (Blk c 1 nc hs ws b) then v j else k0) IH Hcirc' ltac:(lia) Hwf' Hr' Hdep0 HF') as (r & Er & Hres).
        exists r. split; [exact Er|]. rewrite Ehei, Ewid in *. intros i Hi.
        rewrite Hres by (eapply Nat.lt_le_trans; [exact Hi|]; now apply Nat.mul_le_mono_r).
        unfold times_vec. rewrite sum_padded by (now apply Nat.mul_le_mono_r).
        apply ksum_ext. intros j Hj. f_equal. now apply (toeplitz_super c c' nc hs ws b). }
      assert (Hcir : circular c -> exists r, circulant_matvec fuel c nc hs ws b v = Ok r /\
          forall i, i < height (Blk c 1 nc hs ws b) -> r i = times_vec (width (Blk c 1 nc hs ws b)) F v i).
      { intros Hcirc. rewrite Ehei, Ewid. apply (circulant_matvec_ok fuel d); auto. lia. }
      destruct c; [congruence| | | | |].
      * apply (Htop Circulant). auto.
      * apply fft_ready_structured in Hr; [|exact Hc]. destruct Hr as (H2 & _). specialize (H2 eq_refl).
        destruct (Htop EvenCirculant) as (r & Er & Hres); [auto|].
        exists r. split; [|exact Hres]. cbn [matvec].
        destruct (Nat.ltb_spec (snd (nb_blocks EvenCirculant 1 nc) * ws 0) (width (Blk SymToeplitz 1 nc hs ws b))) as [Hlt|Hge].
        { exfalso. rewrite Ewid in Hlt. unfold nblocks in Hlt. cbn [nb_blocks fst snd] in Hlt.
          assert (nc <= (nc - 1) * 2) by lia. apply (Nat.mul_le_mono_r _ _ (ws 0)) in H. lia. }
        exact Er.
      * apply Hcir. unfold circular; auto.
      * apply Hcir. unfold circular; auto.
      * apply Hcir. unfold circular; auto.
Qed.
End Products.
