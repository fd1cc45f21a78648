From Coq Require Import Reals.
From Coquelicot Require Import Complex.
From Coq Require Import List Arith Bool Lia Lra.
From Verif Require Import Model_Base Model_Ring Spec_Ring Proofs_Ring Model_Block Model_LowRank Spec_LowRank Proofs_LowRank.
Import ListNotations.
Open Scope nat_scope.

Notation csum := (@ksum complexes).
Local Notation HC := complexes_ring.

Ltac ceq := match goal with |- ?a = ?b => change (@eq C a b) end;
  change (@kadd complexes) with Cplus; change (@ksub complexes) with Cminus;
  change (@kmul complexes) with Cmult; change (@k0 complexes) with (RtoC 0).

Lemma C_eq_dec (x y : C) : {x = y} + {x <> y}.
Proof.
  destruct x as [a b], y as [c d]. destruct (Req_EM_T a c) as [->|H], (Req_EM_T b d) as [->|H'];
    [left; reflexivity|right|right|right]; congruence.
Qed.
Lemma find_nonzero n (f : nat -> C) : (exists q, q < n /\ f q <> RtoC 0) \/ (forall q, q < n -> f q = RtoC 0).
Proof.
  induction n as [|n [(q & Hq & H)|IH]]; [right; lia|left; exists q; split; [lia|exact H]|].
  destruct (C_eq_dec (f n) (RtoC 0)) as [E|E]; [right|left; exists n; split; [lia|exact E]].
  intros q Hq. destruct (Nat.eq_dec q n) as [->|]; [exact E|apply IH; lia].
Qed.
(** All the terms of a sum but one. *)
Definition skip (q p : nat) : nat := if p <? q then p else S p.
Lemma csum_skip r q (f : nat -> C) : q <= r -> csum (S r) f = Cplus (f q) (csum r (fun p => f (skip q p))).
Proof.
  intros Hq. replace (S r) with (q + S (r - q)) by lia. replace r with (q + (r - q)) at 2 by lia.
  rewrite !(ksum_split _ HC). replace (S (r - q)) with (1 + (r - q)) by lia. rewrite (ksum_split _ HC).
  cbn [ksum]. replace (q + 0) with q by lia.
  assert (E1 : csum q (fun p => f (skip q p)) = csum q f).
  { apply ksum_ext. intros p Hp. unfold skip. now destruct (Nat.ltb_spec p q); [|lia]. }
  assert (E2 : csum (r - q) (fun p => f (skip q (q + p))) = csum (r - q) (fun p => f (q + (1 + p)))).
  { apply ksum_ext. intros p Hp. unfold skip. destruct (Nat.ltb_spec (q + p) q); [lia|]. f_equal. lia. }
  rewrite E1, E2. ceq. ring.
Qed.
Lemma csum_ext n (f g : nat -> C) : (forall p, p < n -> f p = g p) -> csum n f = csum n g.
Proof. exact (ksum_ext complexes n f g). Qed.
Lemma csum_scal r (c : C) (f : nat -> C) : csum r (fun p => Cmult c (f p)) = Cmult c (csum r f).
Proof. exact (ksum_mul_l _ HC r c f). Qed.
Lemma csum_scal_r r (c : C) (f : nat -> C) : csum r (fun p => Cmult (f p) c) = Cmult (csum r f) c.
Proof. exact (ksum_mul_r _ HC r c f). Qed.
Lemma csum_minus r (f g : nat -> C) : csum r (fun p => Cminus (f p) (g p)) = Cminus (csum r f) (csum r g).
Proof. exact (ksum_sub _ HC r f g). Qed.
Lemma csum_plus r (f g : nat -> C) : csum r (fun p => Cplus (f p) (g p)) = Cplus (csum r f) (csum r g).
Proof. exact (ksum_add _ HC r f g). Qed.
Lemma csum_zero r : csum r (fun _ => RtoC 0) = RtoC 0.
Proof. exact (ksum_zero _ HC r). Qed.

(** Removing a cross decreases the rank by one. *)
Lemma wedderburn r h w (F : nat -> nat -> C) i j : i < h -> j < w ->
  @rank_at_most complexes (S r) h w F -> F i j <> RtoC 0 ->
  @rank_at_most complexes r h w (fun a b => Cminus (F a b) (Cmult (Cdiv (F a j) (F i j)) (F i b))).
Proof.
  intros Hi Hj (u & v & HF) Hp. change (K complexes) with C in *.
  destruct (find_nonzero (S r) (fun p => u p i)) as [(q & Hq & Hu)|H0].
  2:{ exfalso. apply Hp. rewrite HF by auto. rewrite <- (csum_zero (S r)). apply csum_ext. intros p Hlt.
      rewrite (H0 p Hlt). ceq. ring. }
  assert (HE : forall a b, a < h -> b < w -> F a b = csum (S r) (fun p => Cmult (u p a) (v p b))) by exact HF.
  set (wp := fun p b => Cminus (v p b) (Cmult (Cdiv (v p j) (F i j)) (F i b))).
  assert (Hw0 : forall b, b < w -> csum (S r) (fun p => Cmult (u p i) (wp p b)) = RtoC 0).
  { intros b Hb. unfold wp.
    transitivity (csum (S r) (fun p => Cminus (Cmult (u p i) (v p b)) (Cmult (Cmult (u p i) (v p j)) (Cdiv (F i b) (F i j))))).
    { apply csum_ext. intros p _. ceq. field. exact Hp. }
    rewrite csum_minus, csum_scal_r, <- !HE by auto. ceq. field. exact Hp. }
  assert (HF' : forall a b, a < h -> b < w ->
    Cminus (F a b) (Cmult (Cdiv (F a j) (F i j)) (F i b)) = csum (S r) (fun p => Cmult (u p a) (wp p b))).
  { intros a b Ha Hb. unfold wp.
    transitivity (csum (S r) (fun p => Cminus (Cmult (u p a) (v p b)) (Cmult (Cmult (u p a) (v p j)) (Cdiv (F i b) (F i j))))).
    - rewrite csum_minus, csum_scal_r, <- !HE by auto. ceq. field. exact Hp.
    - apply csum_ext. intros p _. ceq. field. exact Hp. }
  exists (fun p a => Cminus (u (skip q p) a) (Cmult (Cdiv (u (skip q p) i) (u q i)) (u q a))), (fun p b => wp (skip q p) b).
  intros a b Ha Hb. rewrite HF' by auto. rewrite (csum_skip r q) by lia.
  specialize (Hw0 b Hb). rewrite (csum_skip r q) in Hw0 by lia.
  assert (Eq : wp q b = Cmult (Copp (Cdiv (RtoC 1) (u q i))) (csum r (fun p => Cmult (u (skip q p) i) (wp (skip q p) b)))).
  { apply (f_equal (fun x => Cmult x (Cdiv (RtoC 1) (u q i)))) in Hw0.
    set (Sg := csum r _) in *.
    replace (wp q b) with (Cminus (Cmult (Cplus (Cmult (u q i) (wp q b)) Sg) (Cdiv (RtoC 1) (u q i))) (Cmult Sg (Cdiv (RtoC 1) (u q i))))
      by (field; exact Hu).
    rewrite Hw0. ceq. ring. }
  rewrite Eq. 
  transitivity (csum r (fun p => Cminus (Cmult (u (skip q p) a) (wp (skip q p) b))
     (Cmult (Cdiv (u q a) (u q i)) (Cmult (u (skip q p) i) (wp (skip q p) b))))).
  - rewrite csum_minus, csum_scal. ceq. field. exact Hu.
  - apply csum_ext. intros p _. ceq. field. exact Hu.
Qed.

(** ** Lists *)
Lemma pop_spec n l x r : pop n l = Some (x, r) -> exists a b, l = a ++ x :: b /\ r = a ++ b /\ length a = n.
Proof.
  revert n x r. induction l as [|y l IH]; intros [|n] x r H; cbn in H; try discriminate.
  - injection H as <- <-. exists [], l. auto.
  - destruct (pop n l) as [[z s]|] eqn:E; [|discriminate]. injection H as <- <-.
    destruct (IH _ _ _ E) as (a & b & -> & -> & <-). exists (y :: a), b. auto.
Qed.
Lemma pop_in n l x r : pop n l = Some (x, r) -> In x l /\ incl r l /\ (NoDup l -> NoDup r /\ ~ In x r).
Proof.
  intros H. apply pop_spec in H. destruct H as (a & b & -> & -> & _).
  split; [|split; [|intros Hn; split]].
  - apply in_or_app. right. now left.
  - intros y Hy. apply in_app_or in Hy. apply in_or_app. destruct Hy; [now left|right; now right].
  - now apply NoDup_remove_1 in Hn.
  - now apply NoDup_remove_2 in Hn.
Qed.

(** ** Norms *)
Lemma Cconj_mult (x y : C) : Cconj (Cmult x y) = Cmult (Cconj x) (Cconj y).
Proof. destruct x, y. unfold Cconj, Cmult. apply injective_projections; cbn; ring. Qed.
Lemma rsum_ext n f g : (forall i, i < n -> f i = g i) -> rsum n f = rsum n g.
Proof. induction n; cbn; intros H; [reflexivity|]. rewrite IHn, (H n); auto. Qed.
Lemma Re_csum n (f : nat -> C) : Re (csum n f) = rsum n (fun i => Re (f i)).
Proof. induction n; [reflexivity|]. cbn [ksum rsum]. rewrite <- IHn. reflexivity. Qed.
Lemma rsum_plus n f g : rsum n (fun i => f i + g i)%R = (rsum n f + rsum n g)%R.
Proof. induction n; cbn; [lra|]. rewrite IHn. lra. Qed.
Lemma rsum_scal n c f : rsum n (fun i => c * f i)%R = (c * rsum n f)%R.
Proof. induction n; cbn; [lra|]. rewrite IHn. lra. Qed.
Lemma Cmod2 z : (Cmod z ^ 2)%R = Re (Cmult (Cconj z) z).
Proof.
  rewrite <- Rsqr_pow2. unfold Cmod. rewrite Rsqr_sqrt.
  - destruct z as [a b]. unfold Cconj, Cmult, Re. cbn. ring.
  - apply Rplus_le_le_0_compat; apply pow2_ge_0.
Qed.
Lemma frobenius2_plus h w F G :
  frobenius2 h w (fun i j => Cplus (F i j) (G i j))
  = (frobenius2 h w F + (frobenius2 h w G + 2 * rsum h (fun i => rsum w (fun j => Re (Cmult (Cconj (G i j)) (F i j))))))%R.
Proof.
  unfold frobenius2. rewrite <- rsum_scal, <- !rsum_plus. apply rsum_ext. intros i _.
  rewrite <- rsum_scal, <- !rsum_plus. apply rsum_ext. intros j _.
  rewrite !Cmod2. destruct (F i j) as [a b], (G i j) as [c d]. unfold Cconj, Cmult, Cplus, Re. cbn. ring.
Qed.
Lemma csum_product h w (f g : nat -> C) :
  Cmult (csum h f) (csum w g) = csum h (fun i => csum w (fun j => Cmult (f i) (g j))).
Proof.
  rewrite <- csum_scal_r. apply csum_ext. intros i _. now rewrite csum_scal.
Qed.
Lemma increment_norm h w (x y : nat -> C) :
  Re (Cmult (csum h (fun i => Cmult (Cconj (x i)) (x i))) (csum w (fun j => Cmult (Cconj (y j)) (y j))))
  = frobenius2 h w (fun i j => Cmult (x i) (y j)).
Proof.
  rewrite csum_product, Re_csum. unfold frobenius2. apply rsum_ext. intros i _. rewrite Re_csum. apply rsum_ext.
  intros j _. rewrite Cmod2, Cconj_mult. f_equal. ring.
Qed.
Lemma crossed_product h w l (x y : nat -> C) (L Rr : nat -> nat -> C) :
  Re (csum l (fun p => Cmult (csum h (fun i => Cmult (Cconj (x i)) (L i p))) (csum w (fun j => Cmult (Cconj (y j)) (Rr p j)))))
  = rsum h (fun i => rsum w (fun j => Re (Cmult (Cconj (Cmult (x i) (y j))) (csum l (fun p => Cmult (L i p) (Rr p j)))))).
Proof.
  transitivity (Re (csum h (fun i => csum w (fun j => csum l (fun p =>
    Cmult (Cmult (Cconj (x i)) (L i p)) (Cmult (Cconj (y j)) (Rr p j))))))).
  - f_equal. symmetry.
    transitivity (csum h (fun i => csum l (fun p => csum w (fun j =>
       Cmult (Cmult (Cconj (x i)) (L i p)) (Cmult (Cconj (y j)) (Rr p j)))))).
    { apply csum_ext. intros i _. exact (ksum_swap _ HC w l _). }
    transitivity (csum l (fun p => csum h (fun i => csum w (fun j =>
       Cmult (Cmult (Cconj (x i)) (L i p)) (Cmult (Cconj (y j)) (Rr p j)))))).
    { exact (ksum_swap _ HC h l _). }
    apply csum_ext. intros p _. symmetry. apply csum_product.
  - rewrite Re_csum. apply rsum_ext. intros i _. rewrite Re_csum. apply rsum_ext. intros j _.
    f_equal. rewrite <- csum_scal. apply csum_ext. intros p _. rewrite Cconj_mult. ring.
Qed.

(** ** The loop *)
Section Loop.
Variable get_row get_col : nat -> nat -> nat -> C.
Variables (nb_rows nb_cols id_main : nat) (tol : R).
Variable M : nat -> nat -> nat -> C.
Hypothesis HM : describes get_row get_col nb_rows nb_cols M.
Notation aca_step := (aca_step get_row get_col nb_rows nb_cols id_main).
Notation aca_loop := (aca_loop get_row get_col nb_rows nb_cols id_main tol).

Definition approx (s : work) (id l i j : nat) : C := csum l (fun p => Cmult (w_left s id i p) (w_right s id p j)).
Definition residual (s : work) (id l i j : nat) : C := Cminus (M id i j) (approx s id l i j).
Definition row_of (s : work) (p : nat) : nat := fst (nth p (w_crosses s) (0, 0)).
Definition col_of (s : work) (p : nat) : nat := snd (nth p (w_crosses s) (0, 0)).
Definition unclamped (s : work) (id k : nat) : Prop := forall p, p < k -> w_left s id (row_of s p) p = RtoC 1.

Record invariant (l : nat) (s : work) : Prop := {
  inv_len : length (w_crosses s) = l;
  inv_rows : NoDup (w_rows s) /\ forall i, In i (w_rows s) -> i < nb_rows /\ ~ In i (map fst (w_crosses s));
  inv_cols : NoDup (w_cols s) /\ forall j, In j (w_cols s) -> j < nb_cols /\ ~ In j (map snd (w_crosses s));
  inv_nodup : NoDup (map fst (w_crosses s)) /\ NoDup (map snd (w_crosses s));
  inv_range : forall p, p < l -> row_of s p < nb_rows /\ col_of s p < nb_cols;
  inv_cross : forall id k, k <= l -> unclamped s id k -> forall p, p < k ->
    (forall j, j < nb_cols -> residual s id k (row_of s p) j = RtoC 0) /\
    (forall i, i < nb_rows -> residual s id k i (col_of s p) = RtoC 0);
  inv_rank : forall id k r, k <= l -> unclamped s id k ->
    @rank_at_most complexes r nb_rows nb_cols (M id) -> @rank_at_most complexes (r - k) nb_rows nb_cols (residual s id k);
  inv_norm : w_norm2 s = frobenius2 nb_rows nb_cols (approx s id_main l)
}.

Lemma invariant0 : invariant 0 (work0 nb_rows nb_cols).
Proof.
  split; cbn.
  - reflexivity.
  - split; [apply seq_NoDup|]. intros i Hi. apply in_seq in Hi. split; [lia|tauto].
  - split; [apply seq_NoDup|]. intros i Hi. apply in_seq in Hi. split; [lia|tauto].
  - split; constructor.
  - lia.
  - intros; lia.
  - intros id k r Hk _ (u & v & H). exists u, v. intros i j Hi Hj. assert (k = 0) as -> by lia.
    rewrite Nat.sub_0_r, <- H by auto. unfold residual, approx. cbn [ksum]. ceq. ring.
  - unfold frobenius2, approx. cbn [ksum].
    transitivity (rsum nb_rows (fun _ => 0%R)).
    + clear. induction nb_rows as [|n IH]; cbn; [reflexivity|]. rewrite <- IH. lra.
    + apply rsum_ext. intros i _. transitivity (rsum nb_cols (fun _ => 0%R)).
      * clear. induction nb_cols as [|n IH]; cbn; [reflexivity|]. rewrite <- IH. lra.
      * apply rsum_ext. intros j _. change (@k0 complexes) with (RtoC 0). rewrite Cmod_0. ring.
Qed.

Lemma step_spec l s s' inc : aca_step l s = Ok (s', inc) -> invariant l s ->
  exists i j rows cols,
    In i (w_rows s) /\ In j (w_cols s) /\ w_rows s' = rows /\ w_cols s' = cols /\
    (exists n, pop n (w_rows s) = Some (i, rows)) /\ (exists n, pop n (w_cols s) = Some (j, cols)) /\
    w_crosses s' = w_crosses s ++ [(i, j)] /\
    (forall id a p, p <> l -> w_left s' id a p = w_left s id a p) /\
    (forall id p b, p <> l -> w_right s' id p b = w_right s id p b) /\
    (forall id b, b < nb_cols -> w_right s' id l b = residual s id l i b) /\
    (forall id a, a < nb_rows -> w_left s' id a l = Cdiv (residual s id l a j) (clamp (residual s id l i j))) /\
    inc = frobenius2 nb_rows nb_cols (fun a b => Cmult (w_left s' id_main a l) (w_right s' id_main l b)) /\
    w_norm2 s' = (w_norm2 s + (inc + 2 * rsum nb_rows (fun a => rsum nb_cols (fun b =>
       Re (Cmult (Cconj (Cmult (w_left s' id_main a l) (w_right s' id_main l b))) (approx s id_main l a b))))))%R.
Proof.
  unfold aca_step. intros H I.
  destruct (if l =? 0 then _ else _) as [ri|]; [|discriminate].
  destruct (pop ri (w_rows s)) as [[i rows]|] eqn:Ei; [|discriminate].
  destruct (argmax _) as [rj|]; [|discriminate].
  destruct (pop rj (w_cols s)) as [[j cols]|] eqn:Ej; [|discriminate].
  destruct (pop_in _ _ _ _ Ei) as (Hi & _), (pop_in _ _ _ _ Ej) as (Hj & _).
  destruct (inv_rows _ _ I) as [_ HR], (inv_cols _ _ I) as [_ HCo].
  destruct (HR _ Hi) as [Hi' _], (HCo _ Hj) as [Hj' _].
  injection H as Hs Hinc. exists i, j, rows, cols.
  assert (Hright : forall id p b, w_right s' id p b = if p =? l then Cminus (get_row i id b) (csum l (fun p => Cmult (w_left s id i p) (w_right s id p b)))
    else w_right s id p b) by (subst s'; reflexivity).
  assert (Hleft : forall id a p, w_left s' id a p = if p =? l then
       Cdiv (Cminus (get_col j id a) (csum l (fun p => Cmult (w_left s id a p) (w_right s' id p j))))
         (clamp (Cminus (get_col j id i) (csum l (fun p => Cmult (w_left s id i p) (w_right s' id p j)))))
    else w_left s id a p) by (subst s'; reflexivity).
  assert (Hnew : forall id a, a < nb_rows -> Cminus (get_col j id a) (csum l (fun p => Cmult (w_left s id a p) (w_right s' id p j)))
     = residual s id l a j).
  { intros id a Ha. unfold residual, approx. rewrite (proj2 (HM id a j Ha Hj')). f_equal.
    apply csum_ext. intros p Hp. rewrite Hright. now destruct (Nat.eqb_spec p l); [lia|]. }
  split; [exact Hi|]. split; [exact Hj|]. split; [now subst s'|]. split; [now subst s'|].
  split; [eauto|]. split; [eauto|]. split; [now subst s'|].
  split. { intros id a p Hp. rewrite Hleft. now destruct (Nat.eqb_spec p l). }
  split. { intros id p b Hp. rewrite Hright. now destruct (Nat.eqb_spec p l). }
  split. { intros id b Hb. rewrite Hright, Nat.eqb_refl. unfold residual, approx. now rewrite (proj1 (HM id i b Hi' Hb)). }
  split. { intros id a Ha. rewrite Hleft, Nat.eqb_refl, !Hnew by auto. reflexivity. }
  split. { rewrite <- Hinc. etransitivity; [|exact (increment_norm nb_rows nb_cols (fun a => w_left s' id_main a l) (fun b => w_right s' id_main l b))].
    rewrite <- Hs. reflexivity. }
  transitivity (w_norm2 s + (inc + 2 * Re (csum l (fun p => Cmult
    (csum nb_rows (fun i => Cmult (Cconj (w_left s' id_main i l)) (w_left s' id_main i p)))
    (csum nb_cols (fun j => Cmult (Cconj (w_right s' id_main l j)) (w_right s' id_main p j)))))))%R.
  { rewrite <- Hinc, <- Hs. reflexivity. }
  do 2 f_equal. f_equal. rewrite crossed_product. apply rsum_ext. intros a _. apply rsum_ext. intros b _.
  do 2 f_equal. unfold approx. apply csum_ext. intros p Hp. rewrite Hleft, Hright.
  destruct (Nat.eqb_spec p l); [lia|]. reflexivity.
Qed.
Lemma row_of_app s s' c p : w_crosses s' = w_crosses s ++ [c] -> p < length (w_crosses s) ->
  row_of s' p = row_of s p /\ col_of s' p = col_of s p.
Proof. intros E Hp. unfold row_of, col_of. rewrite E, app_nth1 by auto. now split. Qed.

Lemma clamp_one (x : C) : Cdiv x (clamp x) = RtoC 1 -> clamp x = x /\ x <> RtoC 0.
Proof.
  unfold clamp. destruct (Rlt_dec (Cmod x) (/ 10 ^ 12)) as [H|H]; intros E.
  - exfalso. assert (Hp : (0 < / 10 ^ 12)%R) by (apply Rinv_0_lt_compat, pow_lt; lra).
    assert (x = RtoC (/ 10 ^ 12)).
    { transitivity (Cmult (Cdiv x (RtoC (/ 10 ^ 12))) (RtoC (/ 10 ^ 12))).
      - field. intros H0. apply RtoC_inj in H0. lra.
      - rewrite E. ring. }
    rewrite H0, Cmod_R, Rabs_pos_eq in H; lra.
  - split; [reflexivity|]. intros ->. rewrite Cmod_0 in H. apply H. apply Rinv_0_lt_compat, pow_lt. lra.
Qed.

Lemma step_invariant l s s' inc : aca_step l s = Ok (s', inc) -> invariant l s ->
  invariant (S l) s' /\ inc = frobenius2 nb_rows nb_cols (fun a b => Cmult (w_left s' id_main a l) (w_right s' id_main l b)).
Proof.
  intros H I. destruct (step_spec _ _ _ _ H I) as (i & j & rows & cols & Hi & Hj & HR & HCo & (n1 & P1) & (n2 & P2)
    & Hcr & HL & HRt & HRl & HLl & Hinc & Hnorm).
  split; [|exact Hinc].
  destruct (inv_rows _ _ I) as [Nr Rr], (inv_cols _ _ I) as [Nc Rc].
  destruct (Rr _ Hi) as [Hi' Hi''], (Rc _ Hj) as [Hj' Hj''].
  pose proof (inv_len _ _ I) as Hlen.
  assert (Hold : forall p, p < l -> row_of s' p = row_of s p /\ col_of s' p = col_of s p).
  { intros p Hp. apply (row_of_app _ _ _ _ Hcr). lia. }
  assert (Hnew : row_of s' l = i /\ col_of s' l = j).
  { unfold row_of, col_of. rewrite Hcr, app_nth2 by lia. rewrite Hlen, Nat.sub_diag. now split. }
  assert (Happ : forall id k a b, k <= l -> approx s' id k a b = approx s id k a b).
  { intros id k a b Hk. unfold approx. apply csum_ext. intros p Hp. rewrite HL, HRt by lia. reflexivity. }
  assert (Hun : forall id k, k <= l -> unclamped s' id k -> unclamped s id k).
  { intros id k Hk Hu p Hp. specialize (Hu p Hp). rewrite (proj1 (Hold p ltac:(lia))), HL in Hu by lia. exact Hu. }
  assert (Hres : forall id k a b, k <= l -> residual s' id k a b = residual s id k a b).
  { intros. unfold residual. now rewrite Happ. }
  assert (HresS : forall id a b, a < nb_rows -> b < nb_cols -> residual s' id (S l) a b =
     Cminus (residual s id l a b) (Cmult (Cdiv (residual s id l a j) (clamp (residual s id l i j))) (residual s id l i b))).
  { intros id a b Ha Hb. unfold residual at 1. unfold approx. cbn [ksum]. fold (approx s' id l a b). rewrite Happ by lia.
    rewrite HLl, HRl by auto. unfold residual. ceq. ring. }
  assert (Hpiv : forall id, unclamped s' id (S l) -> clamp (residual s id l i j) = residual s id l i j /\ residual s id l i j <> RtoC 0).
  { intros id Hu. apply clamp_one. rewrite <- HLl by auto. rewrite <- (Hu l) by lia. now rewrite (proj1 Hnew). }
  split.
  - rewrite Hcr, app_length. cbn. lia.
  - rewrite HR. destruct (pop_in _ _ _ _ P1) as (_ & Hincl & Hnd). destruct (Hnd Nr) as [Hn1 Hn2].
    split; [exact Hn1|]. intros a Ha. split; [apply Rr, Hincl, Ha|]. rewrite Hcr, map_app. intros Hin.
    apply in_app_or in Hin. destruct Hin as [Hin|[<-|[]]]; [now apply (proj2 (Rr a (Hincl a Ha)))|contradiction].
  - rewrite HCo. destruct (pop_in _ _ _ _ P2) as (_ & Hincl & Hnd). destruct (Hnd Nc) as [Hn1 Hn2].
    split; [exact Hn1|]. intros a Ha. split; [apply Rc, Hincl, Ha|]. rewrite Hcr, map_app. intros Hin.
    apply in_app_or in Hin. destruct Hin as [Hin|[<-|[]]]; [now apply (proj2 (Rc a (Hincl a Ha)))|contradiction].
  - destruct (inv_nodup _ _ I) as [N1 N2]. rewrite Hcr, !map_app. cbn [map fst snd]. split;
    (rewrite <- (rev_involutive (_ ++ _)); apply NoDup_rev; rewrite rev_app_distr; cbn; constructor;
      [rewrite <- in_rev; assumption|now apply NoDup_rev]).
  - intros p Hp. destruct (Nat.eq_dec p l) as [->|]; [rewrite (proj1 Hnew), (proj2 Hnew); auto|].
    rewrite (proj1 (Hold p ltac:(lia))), (proj2 (Hold p ltac:(lia))). apply (inv_range _ _ I). lia.
  - intros id k Hk Hu p Hp. destruct (Nat.eq_dec k (S l)) as [->|].
    + destruct (Hpiv id Hu) as [Hc Hnz].
      destruct (Nat.eq_dec p l) as [->|].
      * rewrite (proj1 Hnew), (proj2 Hnew). split; [intros b Hb|intros a Ha]; rewrite HresS, Hc by auto; field; exact Hnz.
      * assert (Hp' : p < l) by lia.
        assert (Hu' : unclamped s id l) by (apply Hun; [lia|]; intros q Hq; apply Hu; lia).
        rewrite (proj1 (Hold p Hp')), (proj2 (Hold p Hp')).
        destruct (inv_cross _ _ I id l (le_n l) Hu' p Hp') as [H1 H2]. destruct (inv_range _ _ I p Hp') as [Q1 Q2].
        split; [intros b Hb|intros a Ha]; rewrite HresS, Hc by auto.
        -- rewrite !H1 by auto. field. exact Hnz.
        -- rewrite !H2 by auto. field. exact Hnz.
    + assert (Hk' : k <= l) by lia. destruct (Hold p ltac:(lia)) as [-> ->].
      destruct (inv_cross _ _ I id k Hk' (Hun id k Hk' Hu) p Hp) as [H1 H2].
      split; intros; rewrite Hres by auto; [apply H1|apply H2]; auto.
  - intros id k r Hk Hu Hr. destruct (Nat.eq_dec k (S l)) as [->|].
    + destruct (Hpiv id Hu) as [Hc Hnz].
      assert (Hu' : unclamped s id l) by (apply Hun; [lia|]; intros q Hq; apply Hu; lia).
      pose proof (inv_rank _ _ I id l r (le_n l) Hu' Hr) as HB.
      destruct (Nat.eq_dec (r - l) 0) as [E0|E0].
      * exfalso. rewrite E0 in HB. destruct HB as (u & v & HB). apply Hnz. exact (HB i j Hi' Hj').
      * replace (r - l) with (S (r - S l)) in HB by lia.
        destruct (wedderburn _ _ _ _ i j Hi' Hj' HB Hnz) as (u & v & HW). exists u, v. intros a b Ha Hb.
        rewrite HresS, Hc by auto. exact (HW a b Ha Hb).
    + assert (Hk' : k <= l) by lia. destruct (inv_rank _ _ I id k r Hk' (Hun id k Hk' Hu) Hr) as (u & v & HB).
      exists u, v. intros a b Ha Hb. rewrite Hres by auto. exact (HB a b Ha Hb).
  - rewrite Hnorm, (inv_norm _ _ I), Hinc, <- frobenius2_plus. unfold frobenius2. apply rsum_ext. intros a _.
    apply rsum_ext. intros b _. do 2 f_equal. unfold approx at 2. cbn [ksum]. fold (approx s' id_main l a b).
    rewrite Happ by lia. reflexivity.
Qed.

Lemma loop_spec n l s : invariant l s ->
  match aca_loop n l s with
  | Failed _ => True
  | Converged k s' => k < l + n /\ l <= k /\ invariant (S k) s' /\
      (frobenius2 nb_rows nb_cols (fun a b => Cmult (w_left s' id_main a k) (w_right s' id_main k b))
       <= tol ^ 2 * frobenius2 nb_rows nb_cols (approx s' id_main (S k)))%R
  | Exhausted s' => invariant (l + n) s'
  end.
Proof.
  revert l s. induction n as [|n IH]; intros l s I; cbn [Model_LowRank.aca_loop]; [now rewrite Nat.add_0_r|].
  destruct (aca_step l s) as [[s' inc]|] eqn:E; [|exact Logic.I].
  destruct (step_invariant _ _ _ _ E I) as [I' Hinc].
  destruct (Rle_dec inc (tol ^ 2 * w_norm2 s')) as [H|H].
  - split; [lia|]. split; [lia|]. split; [exact I'|]. now rewrite <- Hinc, <- (inv_norm _ _ I').
  - specialize (IH (S l) s' I'). destruct (aca_loop n (S l) s'); auto.
    + destruct IH as (H1 & H2 & H3). split; [lia|]. split; [lia|exact H3].
    + now replace (l + S n) with (S l + n) by lia.
Qed.

Definition maximal_rank (max_rank : option nat) : nat :=
  match max_rank with Some r => r | None => Nat.min nb_rows nb_cols / 2 end.
Lemma aca_ok cplx max_rank r ms s : aca get_row get_col nb_rows nb_cols id_main tol cplx max_rank = Approx r ms s ->
  r <= maximal_rank max_rank /\ r <= length (w_crosses s) /\ invariant (length (w_crosses s)) s /\
  ms = aca_matrix nb_rows nb_cols cplx r s.
Proof.
  unfold aca. fold (maximal_rank max_rank).
  pose proof (loop_spec (maximal_rank max_rank) 0 (work0 nb_rows nb_cols) invariant0) as HL.
  destruct (aca_loop (maximal_rank max_rank) 0 (work0 nb_rows nb_cols)) as [k s'|s'|e].
  - destruct HL as (H1 & _ & I & _). intros [= <- <- <-]. rewrite (inv_len _ _ I).
    destruct (Nat.eqb_spec k 0); (split; [lia|split; [lia|split; [exact I|reflexivity]]]).
  - destruct (Rlt_dec 0 tol); [destruct (maximal_rank max_rank =? 0); discriminate|].
    intros [= <- <- <-]. rewrite (inv_len _ _ HL). split; [lia|split; [lia|split; [exact HL|reflexivity]]].
  - discriminate.
Qed.
Lemma aca_converged cplx max_rank r ms s : (0 < tol)%R ->
  aca get_row get_col nb_rows nb_cols id_main tol cplx max_rank = Approx r ms s ->
  exists k, r = Nat.max 1 k /\ length (w_crosses s) = S k /\
    (frobenius2 nb_rows nb_cols (fun a b => Cmult (w_left s id_main a k) (w_right s id_main k b))
       <= tol ^ 2 * frobenius2 nb_rows nb_cols (approx s id_main (S k)))%R.
Proof.
  intros Ht. unfold aca. fold (maximal_rank max_rank).
  pose proof (loop_spec (maximal_rank max_rank) 0 (work0 nb_rows nb_cols) invariant0) as HL.
  destruct (aca_loop (maximal_rank max_rank) 0 (work0 nb_rows nb_cols)) as [k s'|s'|e].
  - destruct HL as (H1 & _ & I & HN). intros [= <- <- <-]. exists k. rewrite (inv_len _ _ I).
    split; [destruct (Nat.eqb_spec k 0); lia|]. split; [reflexivity|exact HN].
  - destruct (Rlt_dec 0 tol); [destruct (maximal_rank max_rank =? 0); discriminate|contradiction].
  - discriminate.
Qed.
End Loop.
