(** The pivots of the cross approximation. *)
From Coq Require Import Reals.
From Coquelicot Require Import Complex.
From Coq Require Import List Arith Bool Lia Lra.
From Verif Require Import Model_Base Model_Ring Spec_Ring Proofs_Ring Model_Block Model_LowRank Spec_LowRank Proofs_LowRank Proofs_ACA.
Import ListNotations.
Open Scope nat_scope.

Lemma argmax_from_spec l : forall pre best value, best < length pre -> nth best pre 0%R = value -> (forall k, k < length pre -> (nth k pre 0 <= value)%R) ->
  let n := argmax_from best value (length pre) l in n < length (pre ++ l) /\ forall k, k < length (pre ++ l) -> (nth k (pre ++ l) 0 <= nth n (pre ++ l) 0)%R.
Proof.
  induction l as [|x l IH]; intros pre best value Hb Hv Hm; cbn [argmax_from].
  - rewrite app_nil_r. split; [exact Hb|]. intros k Hk. rewrite Hv. now apply Hm.
  - assert (Lp : length (pre ++ [x]) = S (length pre)) by (rewrite app_length; cbn; lia).
    replace (pre ++ x :: l) with ((pre ++ [x]) ++ l) by (rewrite <- app_assoc; reflexivity).
    destruct (Rlt_dec value x) as [L|L]; rewrite <- Lp; apply IH.
    + rewrite Lp. lia.
    + rewrite app_nth2 by lia. now rewrite Nat.sub_diag.
    + intros k Hk. rewrite Lp in Hk. destruct (Nat.eq_dec k (length pre)) as [->|N]; [rewrite app_nth2 by lia; rewrite Nat.sub_diag; cbn; lra|]. rewrite app_nth1 by lia. specialize (Hm k ltac:(lia)). lra.
    + rewrite Lp. lia.
    + now rewrite app_nth1 by exact Hb.
    + intros k Hk. rewrite Lp in Hk. destruct (Nat.eq_dec k (length pre)) as [->|N]; [rewrite app_nth2 by lia; rewrite Nat.sub_diag; cbn; lra|]. rewrite app_nth1 by lia. apply Hm. lia.
Qed.
Lemma argmax_spec l n : argmax l = Some n -> n < length l /\ forall x, In x l -> (x <= nth n l 0)%R.
Proof.
  destruct l as [|a l]; [discriminate|]. intros H. injection H as <-.
  pose proof (argmax_from_spec l [a] 0 a) as X. cbn [length app] in X. destruct X as (A & B); [lia|reflexivity|intros [|k] Hk; [cbn; lra|lia]|].
  split; [exact A|]. intros x Hx. destruct (In_nth _ _ 0%R Hx) as (k & Hk & <-). now apply B.
Qed.
Lemma argmax_pop {f : nat -> R} l n x r : argmax (map f l) = Some n -> pop n l = Some (x, r) -> forall y, In y l -> (f y <= f x)%R.
Proof.
  intros Ha Hp y Hy. destruct (argmax_spec _ _ Ha) as (L & M). apply pop_spec in Hp. destruct Hp as (a & b & -> & _ & <-).
  specialize (M (f y) (in_map f _ _ Hy)). rewrite map_app in M. rewrite app_nth2 in M by (rewrite map_length; lia). rewrite map_length, Nat.sub_diag in M. exact M.
Qed.
Lemma pop_rest n l x r y : pop n l = Some (x, r) -> In y l -> y = x \/ In y r.
Proof. intros H Hy. apply pop_spec in H. destruct H as (a & b & -> & -> & _). apply in_app_or in Hy. destruct Hy as [Hy|[<-|Hy]]; [right; apply in_or_app; now left|now left|right; apply in_or_app; now right]. Qed.

Section Pivots.
Variable get_row get_col : nat -> nat -> nat -> C.
Variables (nb_rows nb_cols id_main : nat) (tol : R).
Variable M : nat -> nat -> nat -> C.
Hypothesis HM : describes get_row get_col nb_rows nb_cols M.
Notation aca_step := (aca_step get_row get_col nb_rows nb_cols id_main).
Notation aca_loop := (aca_loop get_row get_col nb_rows nb_cols id_main tol).
Notation residual := (residual M).
Notation invariant := (invariant nb_rows nb_cols id_main M).

Record pivots (l : nat) (s : work) : Prop := {
  piv_rows : forall i, i < nb_rows -> In i (w_rows s) \/ exists p, p < l /\ row_of s p = i;
  piv_cols : forall j, j < nb_cols -> In j (w_cols s) \/ exists p, p < l /\ col_of s p = j;
  piv_right : forall id p b, p < l -> b < nb_cols -> w_right s id p b = residual s id p (row_of s p) b;
  piv_col : forall p j, p < l -> j < nb_cols -> (forall q, q < p -> col_of s q <> j) -> (Cmod (w_right s id_main p j) <= Cmod (w_right s id_main p (col_of s p)))%R;
  piv_row : forall p i, S p < l -> i < nb_rows -> (forall q, q <= p -> row_of s q <> i) -> (Cmod (w_left s id_main i p) <= Cmod (w_left s id_main (row_of s (S p)) p))%R
}.
Lemma pivots0 : pivots 0 (work0 nb_rows nb_cols).
Proof. split; try (intros; lia); cbn; intros i Hi; left; apply in_seq; lia. Qed.
(** What a step chooses. *)
Lemma step_choice l s s' inc : aca_step l s = Ok (s', inc) -> exists n i rows m j cols,
  pop n (w_rows s) = Some (i, rows) /\ pop m (w_cols s) = Some (j, cols) /\ w_rows s' = rows /\ w_cols s' = cols /\ w_crosses s' = w_crosses s ++ [(i, j)]
  /\ (l <> 0 -> argmax (map (fun i => Cmod (w_left s id_main i (l - 1))) (w_rows s)) = Some n)
  /\ argmax (map (fun j => Cmod (w_right s' id_main l j)) (w_cols s)) = Some m.
Proof.
  unfold Model_LowRank.aca_step. intros H. destruct (if l =? 0 then _ else _) as [n|] eqn:En; [|discriminate].
  destruct (pop n (w_rows s)) as [[i rows]|] eqn:Ei; [|discriminate]. match type of H with context [argmax ?x] => destruct (argmax x) as [m|] eqn:Em; [|discriminate H] end.
  destruct (pop m (w_cols s)) as [[j cols]|] eqn:Ej; [|discriminate]. injection H as Hs _. exists n, i, rows, m, j, cols. rewrite <- Hs.
  split; [first [exact Ei|reflexivity]|]. split; [first [exact Ej|reflexivity]|]. split; [reflexivity|]. split; [reflexivity|]. split; [reflexivity|]. split; [|exact Em].
  intros Hl. destruct (Nat.eqb_spec l 0); [contradiction|]. exact En.
Qed.
Lemma step_pivots l s s' inc : aca_step l s = Ok (s', inc) -> invariant l s -> pivots l s -> pivots (S l) s'.
Proof.
  intros H I P. destruct (step_choice _ _ _ _ H) as (n & i & rows & m & j & cols & P1 & P2 & E1 & E2 & Ec & A1 & A2).
  destruct (step_spec _ _ _ _ _ _ HM _ _ _ _ H I) as (i' & j' & rows' & cols' & Hi & Hj & _ & _ & _ & _ & Ec' & HL & HR & HRl & _).
  assert (Ei : (i, j) = (i', j')) by (rewrite Ec in Ec'; apply app_inv_head in Ec'; congruence). injection Ei as <- <-. clear Ec' rows' cols'.
  pose proof (inv_len _ _ _ _ _ _ I) as Hlen. destruct (inv_cols _ _ _ _ _ _ I) as [_ HCo].
  assert (Hold : forall p, p < l -> row_of s' p = row_of s p /\ col_of s' p = col_of s p) by (intros p Hp; apply (row_of_app _ _ _ _ Ec); lia).
  assert (Hnew : row_of s' l = i /\ col_of s' l = j) by (unfold row_of, col_of; rewrite Ec, app_nth2 by lia; rewrite Hlen, Nat.sub_diag; now split).
  assert (Hres : forall id k a b, k <= l -> residual s' id k a b = residual s id k a b).
  { intros id k a b Hk. unfold Proofs_ACA.residual, approx. f_equal. apply csum_ext. intros p Hp. now rewrite HL, HR by lia. }
  split.
  - intros a Ha. rewrite E1. destruct (piv_rows _ _ P a Ha) as [X|(p & Hp & X)].
    + destruct (pop_rest _ _ _ _ _ P1 X) as [->|Y]; [right; exists l; split; [lia|exact (proj1 Hnew)]|now left].
    + right. exists p. split; [lia|]. now rewrite (proj1 (Hold p Hp)).
  - intros a Ha. rewrite E2. destruct (piv_cols _ _ P a Ha) as [X|(p & Hp & X)].
    + destruct (pop_rest _ _ _ _ _ P2 X) as [->|Y]; [right; exists l; split; [lia|exact (proj2 Hnew)]|now left].
    + right. exists p. split; [lia|]. now rewrite (proj2 (Hold p Hp)).
  - intros id p b Hp Hb. destruct (Nat.eq_dec p l) as [->|N].
    + rewrite HRl, Hres, (proj1 Hnew) by lia. reflexivity.
    + rewrite HR, Hres, (proj1 (Hold p ltac:(lia))) by lia. apply (piv_right _ _ P); lia.
  - intros p b Hp Hb Hq. destruct (Nat.eq_dec p l) as [->|N].
    + rewrite (proj2 Hnew). apply (argmax_pop _ _ _ _ A2 P2). destruct (piv_cols _ _ P b Hb) as [X|(q & Hq' & X)]; [exact X|]. exfalso. apply (Hq q Hq'). now rewrite (proj2 (Hold q Hq')).
    + rewrite !HR, (proj2 (Hold p ltac:(lia))) by lia. apply (piv_col _ _ P); [lia|exact Hb|]. intros q Hq'. rewrite <- (proj2 (Hold q ltac:(lia))). now apply Hq.
  - intros p a Hp Ha Hq. rewrite !HL by lia. destruct (Nat.eq_dec (S p) l) as [E|N].
    + rewrite E, (proj1 Hnew). specialize (A1 ltac:(lia)). replace (l - 1) with p in A1 by lia. apply (argmax_pop _ _ _ _ A1 P1).
      destruct (piv_rows _ _ P a Ha) as [X|(q & Hq' & X)]; [exact X|]. exfalso. apply (Hq q ltac:(lia)). now rewrite (proj1 (Hold q Hq')).
    + rewrite (proj1 (Hold (S p) ltac:(lia))). apply (piv_row _ _ P); [lia|exact Ha|]. intros q Hq'. rewrite <- (proj1 (Hold q ltac:(lia))). now apply Hq.
Qed.
Lemma loop_pivots n l s : invariant l s -> pivots l s ->
  match aca_loop n l s with Failed _ => True | Converged k s' => pivots (S k) s' | Exhausted s' => pivots (l + n) s' end.
Proof.
  revert l s. induction n as [|n IH]; intros l s I P; cbn [Model_LowRank.aca_loop]; [now rewrite Nat.add_0_r|].
  destruct (aca_step l s) as [[s' inc]|] eqn:E; [|exact Logic.I].
  destruct (step_invariant _ _ _ _ _ _ HM _ _ _ _ E I) as [I' _]. pose proof (step_pivots _ _ _ _ E I P) as P'.
  destruct (Rle_dec inc (tol ^ 2 * w_norm2 s')); [exact P'|].
  specialize (IH (S l) s' I' P'). destruct (aca_loop n (S l) s'); auto. now replace (l + S n) with (S l + n) by lia.
Qed.
Lemma aca_pivots_of cplx max_rank r ms s : aca get_row get_col nb_rows nb_cols id_main tol cplx max_rank = Approx r ms s ->
  exists l, r <= l /\ pivots l s.
Proof.
  unfold aca. fold (maximal_rank nb_rows nb_cols max_rank).
  pose proof (loop_spec _ _ _ _ _ tol _ HM (maximal_rank nb_rows nb_cols max_rank) 0 _ (invariant0 nb_rows nb_cols id_main M)) as HL.
  pose proof (loop_pivots (maximal_rank nb_rows nb_cols max_rank) 0 _ (invariant0 nb_rows nb_cols id_main M) pivots0) as HP.
  destruct (aca_loop (maximal_rank nb_rows nb_cols max_rank) 0 (work0 nb_rows nb_cols)) as [k s'|s'|e].
  - intros [= <- <- <-]. exists (S k). split; [destruct (Nat.eqb_spec k 0); lia|exact HP].
  - destruct (Rlt_dec 0 tol); [destruct (maximal_rank nb_rows nb_cols max_rank =? 0); discriminate|].
    intros [= <- <- <-]. eexists. split; [|exact HP]. lia.
  - discriminate.
Qed.
End Pivots.
