(** Products of two block matrices, and histories where structured matrices go wrong. *)
From Coq Require Import List Arith Bool Lia Ring.
From Verif Require Import Model_Base Model_Ring Spec_Ring Proofs_Ring Model_Block Spec_Block
  Proofs_Block Proofs_Block2 Proofs_Block3 Proofs_Block4 Proofs_Block5.
Import ListNotations.
Open Scope nat_scope.

Section MatMat.
Context {A : coeffs}.
Hypothesis HA : ring_laws A.
Let HA' : ring_theory (@k0 A) k1 kadd kmul ksub kopp eq := HA.
Add Ring Aring2 : HA'.

Lemma block_sum_ok (n h w : nat) (f : nat -> mat A) (T : nat -> nat -> nat -> A) : 0 < n ->
  (forall p, p < n -> exists g, f p = Dense h w g /\ forall i j, i < h -> j < w -> g i j = T p i j) ->
  exists g, block_sum n f = Dense h w g /\ forall i j, i < h -> j < w -> g i j = ksum n (fun p => T p i j).
Proof.
  intros Hn Hf. destruct n as [|n]; [lia|]. clear Hn. induction n.
  - destruct (Hf 0) as (g & E & Hg); [lia|]. exists g. cbn [block_sum]. rewrite E. split; [reflexivity|].
    intros i j Hi Hj. cbn [ksum]. rewrite Hg by auto. ring.
  - destruct IHn as (g & E & Hg); [intros; apply Hf; lia|].
    destruct (Hf (S n)) as (g' & E' & Hg'); [lia|].
    exists (fun i j => kadd (g i j) (g' i j)).
    change (block_sum (S (S n)) f) with (binary_op kadd (block_sum (S n) f) (f (S n))).
    rewrite E, E'. cbn [binary_op]. rewrite !Nat.eqb_refl. split; [reflexivity|].
    intros i j Hi Hj. rewrite Hg, Hg' by auto. reflexivity.
Qed.

Lemma gblk_dense c nr nc hs ws (b : nat -> nat -> mat A) I J :
  wf (Blk c nr nc hs ws b) -> array_blocks (Blk c nr nc hs ws b) -> I < gr c nr nc -> J < gc c nr nc ->
  exists g, gblk c nr nc b I J = Dense (block_heights c hs I) (block_widths c ws J) g.
Proof.
  intros Hwf Ha HI HJ. destruct (stored_lt_grid c nr nc hs ws b I J Hwf HI HJ) as (i & j & Hi & Hj & E).
  pose proof (Ha i j Hi Hj) as Hd. destruct (wf_blk _ _ _ _ _ _ Hwf I J HI HJ) as [_ Hs].
  rewrite E in Hs |- *. destruct (b i j); try destruct Hd. cbn in Hs. injection Hs as -> ->. eauto.
Qed.

Lemma matmat_block_ok (x y : mat A) F G : wf x -> wf y -> array_blocks x -> array_blocks y -> compatible x y ->
  represents x F -> represents y G ->
  exists R, matmat_block x y = Some R /\ wf R /\ shape R = (height x, width y) /\
    represents R (fun i j => ksum (width x) (fun p => kmul (F i p) (G p j))).
Proof.
  intros Hx Hy Ax Ay Hc HF HG.
  destruct x as [|h w f|h w r l rr|c nr nc hs ws b]; try contradiction Ax.
  destruct y as [|h w f|h w r l rr|c' nr' nc' hs' ws' b']; try contradiction Ay.
  destruct Hc as [En Ew]. cbn [matmat_block].
  set (H := block_heights c hs) in *. set (W := block_widths c ws) in *.
  set (H' := block_heights c' hs') in *. set (W' := block_widths c' ws') in *.
  assert (Esame : same_partition (snd (nb_blocks c nr nc)) (fst (nb_blocks c' nr' nc')) W H' = true).
  { unfold same_partition. apply andb_true_intro. split; [now apply Nat.eqb_eq|].
    apply forallb_forall. intros j Hj. apply in_seq in Hj. apply Nat.eqb_eq, Ew. lia. }
  rewrite Esame.
  destruct (grid_nonempty _ _ _ _ _ _ Hx) as [N1 N2]. destruct (grid_nonempty _ _ _ _ _ _ Hy) as [N3 N4].
  fold (gr c nr nc) (gc c nr nc) (gr c' nr' nc') (gc c' nr' nc') in *.
  set (bl := fun I J => block_sum (gc c nr nc) (fun P => block_product (all_blocks c nr nc b I P) (all_blocks c' nr' nc' b' P J))).
  assert (Hbl : forall I J, I < gr c nr nc -> J < gc c' nr' nc' -> exists g, bl I J = Dense (H I) (W' J) g /\
     forall i j, i < H I -> j < W' J -> g i j =
       ksum (gc c nr nc) (fun P => ksum (W P) (fun p => kmul (F (nsum I H + i) (nsum P W + p)) (G (nsum P W + p) (nsum J W' + j))))).
  { intros I J HI HJ. apply block_sum_ok; [exact N2|]. intros P HP.
    assert (HP' : P < gr c' nr' nc') by (rewrite <- En; exact HP).
    rewrite (all_blocks_gblk _ _ _ _ _ _ Hx), (all_blocks_gblk _ _ _ _ _ _ Hy) by auto.
    pose proof (proj1 (represents_blk _ _ _ _ _ _ _) HF I P HI HP) as HB.
    pose proof (proj1 (represents_blk _ _ _ _ _ _ _) HG P J HP' HJ) as HB'.
    destruct (gblk_dense _ _ _ _ _ _ I P Hx Ax HI HP) as (g & Eg). rewrite Eg in *.
    destruct (gblk_dense _ _ _ _ _ _ P J Hy Ay HP' HJ) as (g' & Eg'). rewrite Eg' in *.
    fold H W in Eg, HB. fold H' W' in Eg', HB'. cbn [block_product]. eexists. split; [reflexivity|].
    intros i j Hi Hj. apply ksum_ext. intros p Hp. rewrite <- HB by auto.
    rewrite <- HB' by (auto; rewrite <- Ew by auto; exact Hp).
    f_equal. f_equal. apply (f_equal (fun z => z + p)).
    apply nsum_ext. intros j' Hj'. symmetry. apply Ew. lia. }
  exists (mk Plain (gr c nr nc) (gc c' nr' nc') bl). split; [reflexivity|].
  unfold mk, mk_with_shapes.
  assert (E0 : forall I, I < gr c nr nc -> height (bl I 0) = H I).
  { intros I HI. destruct (Hbl I 0 HI N4) as (g & -> & _). reflexivity. }
  assert (E1 : forall J, J < gc c' nr' nc' -> width (bl 0 J) = W' J).
  { intros J HJ. destruct (Hbl 0 J N1 HJ) as (g & -> & _). reflexivity. }
  split; [|split].
  - split; [split; assumption|]. intros I J HI HJ. destruct (Hbl I J HI HJ) as (g & -> & _).
    split; [exact Logic.I|]. cbn [shape]. now rewrite E0, E1.
  - cbn [shape]. unfold height at 2, width at 2. rewrite !shape_blk. cbn [fst snd]. fold H W'. f_equal; apply nsum_ext; auto.
  - cbn [represents]. intros I J HI HJ. destruct (Hbl I J HI HJ) as (g & -> & Hg). intros i j Hi Hj.
    rewrite Hg by auto. unfold width. rewrite shape_blk. cbn [snd]. fold W. rewrite ksum_blocks by exact HA.
    rewrite (nsum_ext I _ H) by (intros; apply E0; lia). rewrite (nsum_ext J _ W') by (intros; apply E1; lia).
    reflexivity.
Qed.
End MatMat.

(** ** Wrong products *)
Section Wrong.
Context {A : coeffs}.
Hypothesis HA : ring_laws A.
Let HA' : ring_theory (@k0 A) k1 kadd kmul ksub kopp eq := HA.
Add Ring Aring3 : HA'.
Hypothesis HF : fourier_laws A.
Hypothesis conj0 : kconj (@k0 A) = k0.
Hypothesis conj1 : kconj (@k1 A) = k1.
Hypothesis HC : conj_laws A.
Hypothesis conj_rooti : forall n, kconj (@rooti A n) = root n.
Hypothesis conj_ninv : forall n, kconj (@ninv A n) = ninv n.

Definition scalar (x : A) : mat A := Dense 1 1 (fun _ _ => x).
(** A circulant matrix of three circulant matrices of one block: the identity. *)
Definition nested_identity : mat A :=
  Blk Circulant 1 3 (fun _ => 1) (fun _ => 1)
    (fun _ k => Blk Circulant 1 1 (fun _ => 1) (fun _ => 1)
       (fun _ _ => scalar (if k =? 0 then k1 else k0))).

Lemma nested_left_value : exists r,
  rmatvec 5 nested_identity (fun i => if i =? 1 then k1 else k0) = Ok r /\ r 1 = k0.
Proof.
  eexists. split; [cbv -[K k0 k1 kadd kmul ksub kopp kconj root rooti ninv junk]; reflexivity|].
  cbv -[K k0 k1 kadd kmul ksub kopp kconj root rooti ninv junk].
  repeat rewrite ?(conj_add _ HC), ?(conj_mul _ HC), ?conj_rooti, ?conj_ninv, ?conj0, ?conj1.
  pose proof (root_sum A HF 3 2 ltac:(lia)) as E.
  cbn in E.
  match type of E with ?l = _ => transitivity (kmul (kmul (@ninv A 3) (@ninv A 1)) l) end;
    [ring|rewrite E; ring].
Qed.

(** A circulant matrix with two blocks of different structures: [[S, P], [P, S]]. *)
Definition mixed_circulant : mat A :=
  Blk Circulant 1 2 (fun _ => 2) (fun _ => 2)
    (fun _ k => if k =? 0
       then Blk SymToeplitz 1 2 (fun _ => 1) (fun _ => 1) (fun _ _ => scalar k0)
       else Blk Plain 2 2 (fun _ => 1) (fun _ => 1) (fun i j => scalar (if (i =? 1) && (j =? 0) then k1 else k0))).
Lemma mixed_value : exists r,
  matvec 6 mixed_circulant (fun i => if i =? 2 then k1 else k0) = Ok r /\ r 1 = k0.
Proof.
  eexists. split; [cbv -[K k0 k1 kadd kmul ksub kopp kconj root rooti ninv junk]; reflexivity|].
  cbv -[K k0 k1 kadd kmul ksub kopp kconj root rooti ninv junk]. ring.
Qed.
End Wrong.
