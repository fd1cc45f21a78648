(** Lemmas about Model_Text: digits, words, lines. *)
From Coq Require Import Reals String Ascii.
From Coq Require Import List Bool ZArith Arith Lia Lra.
From Flocq Require Import Core.Zaux Core.Raux Core.Generic_fmt.
From Verif Require Import Model_Base Model_Text.
Import ListNotations.
Open Scope Z_scope.

(** ** Digits *)

Lemma small_digit d (P : Z -> Prop) : 0 <= d < 10 -> P 0 -> P 1 -> P 2 -> P 3 -> P 4 -> P 5 -> P 6 -> P 7 -> P 8 -> P 9 -> P d.
Proof.
  intros H. intros.
  assert (d = 0 \/ d = 1 \/ d = 2 \/ d = 3 \/ d = 4 \/ d = 5 \/ d = 6 \/ d = 7 \/ d = 8 \/ d = 9) as E by lia.
  repeat destruct E as [-> | E]; try assumption. subst; assumption.
Qed.

Lemma digit_value_digit d : 0 <= d < 10 -> digit_value (digit d) = Some d.
Proof. intros H. pattern d. apply small_digit; [assumption|reflexivity..]. Qed.
Lemma is_digit_digit d : 0 <= d < 10 -> is_digit (digit d) = true.
Proof. intros H. unfold is_digit. rewrite digit_value_digit by assumption. reflexivity. Qed.

Definition is_word (t : text) : Prop := t <> [] /\ Forall (fun c => blank c = false) t.
Definition digits (t : text) : Prop := Forall (fun c => is_digit c = true) t.

Lemma digit_code c : is_digit c = true -> (48 <= nat_of_ascii c <= 57)%nat.
Proof.
  unfold is_digit, digit_value. destruct (Nat.leb 48 _ && Nat.leb _ 57) eqn:E; [|discriminate].
  apply andb_prop in E. destruct E as [A B]. apply Nat.leb_le in A, B. lia.
Qed.
Lemma digit_not_blank c : is_digit c = true -> blank c = false.
Proof.
  intros H. apply digit_code in H. unfold blank. apply orb_false_iff. split; apply andb_false_iff.
  - right. apply Nat.leb_gt. lia.
  - right. apply Nat.leb_gt. lia.
Qed.
Lemma digit_not_char c n : is_digit c = true -> (n < 48 \/ 57 < n)%nat -> is_char n c = false.
Proof. intros H K. apply digit_code in H. unfold is_char. apply Nat.eqb_neq. lia. Qed.

Lemma fixed_length k : forall z, length (fixed k z) = k.
Proof. induction k as [|k IH]; intros z; cbn [fixed]; [reflexivity|]. rewrite app_length, IH. cbn. lia. Qed.
Lemma fixed_digits k : forall z, digits (fixed k z).
Proof.
  induction k as [|k IH]; intros z; cbn [fixed]; [constructor|]. apply Forall_app. split; [apply IH|].
  constructor; [|constructor]. apply is_digit_digit. apply Z.mod_pos_bound. lia.
Qed.

Lemma digits_value_app t : forall acc u,
  digits_value acc (t ++ u) = match digits_value acc t with Some a => digits_value a u | None => None end.
Proof. induction t as [|c t IH]; intros acc u; cbn; [reflexivity|]. destruct (digit_value c); [apply IH|reflexivity]. Qed.

Lemma pow10_S k : 10 ^ Z.of_nat (S k) = 10 * 10 ^ Z.of_nat k.
Proof. rewrite Nat2Z.inj_succ, Z.pow_succ_r by lia. reflexivity. Qed.
Lemma pow10_pos k : 0 < 10 ^ Z.of_nat k.
Proof. apply Z.pow_pos_nonneg; lia. Qed.

Lemma digits_value_fixed k : forall z acc, 0 <= z < 10 ^ Z.of_nat k ->
  digits_value acc (fixed k z) = Some (acc * 10 ^ Z.of_nat k + z).
Proof.
  induction k as [|k IH]; intros z acc H; cbn [fixed].
  - cbn. f_equal. change (10 ^ Z.of_nat 0) with 1 in *. lia.
  - rewrite pow10_S in *. rewrite digits_value_app, IH.
    + cbn [digits_value]. rewrite digit_value_digit by (apply Z.mod_pos_bound; lia).
      f_equal. rewrite (Z.div_mod z 10) at 3 by lia. ring.
    + split; [apply Z.div_pos; lia|]. apply Z.div_lt_upper_bound; lia.
Qed.

Lemma nb_digits_aux_spec fuel : forall z, 0 <= z < 2 ^ Z.of_nat fuel ->
  z < 10 ^ Z.of_nat (nb_digits_aux fuel z)
  /\ (nb_digits_aux fuel z = 1%nat \/ 10 ^ (Z.of_nat (nb_digits_aux fuel z) - 1) <= z) /\ (1 <= nb_digits_aux fuel z)%nat.
Proof.
  induction fuel as [|n IH]; intros z H; cbn [nb_digits_aux].
  - change (2 ^ Z.of_nat 0) with 1 in H. change (10 ^ Z.of_nat 1) with 10. lia.
  - destruct (Z.ltb_spec z 10) as [L|L].
    + change (10 ^ Z.of_nat 1) with 10. lia.
    + rewrite Nat2Z.inj_succ, Z.pow_succ_r in H by lia.
      assert (B : 0 <= z / 10 < 2 ^ Z.of_nat n).
      { split; [apply Z.div_pos; lia|]. apply Z.div_lt_upper_bound; lia. }
      destruct (IH _ B) as (U & Lo & P). remember (nb_digits_aux n (z / 10)) as d eqn:Ed.
      rewrite pow10_S. pose proof (Z.div_mod z 10 ltac:(lia)) as DM. pose proof (Z.mod_pos_bound z 10 ltac:(lia)) as MB.
      split; [lia|]. split; [|lia]. right.
      replace (Z.of_nat (S d) - 1) with (Z.of_nat d) by lia.
      destruct Lo as [Lo|Lo].
      * subst d. rewrite Lo. change (10 ^ Z.of_nat 1) with 10. lia.
      * replace (Z.of_nat d) with (Z.succ (Z.of_nat d - 1)) by lia. rewrite Z.pow_succ_r by lia. lia.
Qed.
Lemma nb_digits_spec z : 0 <= z ->
  z < 10 ^ Z.of_nat (nb_digits z) /\ (nb_digits z = 1%nat \/ 10 ^ (Z.of_nat (nb_digits z) - 1) <= z) /\ (1 <= nb_digits z)%nat.
Proof.
  intros H. apply nb_digits_aux_spec. split; [assumption|].
  destruct (Z.eq_dec z 0) as [->|N]; [reflexivity|].
  rewrite Nat2Z.inj_succ, Z2Nat.id by apply Z.log2_nonneg. apply Z.log2_spec. lia.
Qed.
Lemma nb_digits_le z k : 0 <= z < 10 ^ Z.of_nat k -> (1 <= k)%nat -> (nb_digits z <= k)%nat.
Proof.
  intros [H K] Hk. destruct (nb_digits_spec z H) as (_ & [E|L] & P); [lia|].
  assert (10 ^ (Z.of_nat (nb_digits z) - 1) < 10 ^ Z.of_nat k) as Q by lia.
  apply Z.pow_lt_mono_r_iff in Q; lia.
Qed.
Lemma nb_digits_ge z k : 10 ^ Z.of_nat k <= z -> (k < nb_digits z)%nat.
Proof.
  intros H. assert (0 <= z) by (pose proof (pow10_pos k); lia).
  destruct (nb_digits_spec z H0) as (U & _). assert (10 ^ Z.of_nat k < 10 ^ Z.of_nat (nb_digits z)) as Q by lia.
  apply Z.pow_lt_mono_r_iff in Q; lia.
Qed.

Lemma dec_length z k : 0 <= z < 10 ^ Z.of_nat k -> (1 <= k)%nat -> (length (dec z) <= k)%nat.
Proof. intros. unfold dec. rewrite fixed_length. apply nb_digits_le; assumption. Qed.
Lemma dec_digits z : digits (dec z). Proof. apply fixed_digits. Qed.
Lemma dec_nonempty z : 0 <= z -> dec z <> [].
Proof.
  intros H E. apply (f_equal (@length _)) in E. unfold dec in E. rewrite fixed_length in E.
  destruct (nb_digits_spec z H) as (_ & _ & P). change (length (@nil ascii)) with O in E. lia.
Qed.
Lemma digits_value_dec z acc : 0 <= z -> exists p, digits_value acc (dec z) = Some (acc * p + z).
Proof.
  intros H. destruct (nb_digits_spec z H) as (U & _). eexists. unfold dec. apply digits_value_fixed. lia.
Qed.
Lemma nat_value_digits t : t <> [] -> nat_value t = digits_value 0 t.
Proof. destruct t; [contradiction|reflexivity]. Qed.
Lemma nat_value_dec z : 0 <= z -> nat_value (dec z) = Some z.
Proof.
  intros H. rewrite nat_value_digits by (apply dec_nonempty; assumption).
  destruct (digits_value_dec z 0 H) as [p ->]. reflexivity.
Qed.

Lemma digits_word t : t <> [] -> digits t -> is_word t.
Proof. intros H K. split; [assumption|]. eapply Forall_impl; [|exact K]. apply digit_not_blank. Qed.
Lemma dec_word z : 0 <= z -> is_word (dec z).
Proof. intros. apply digits_word; [apply dec_nonempty; assumption|apply dec_digits]. Qed.

(** ** Blanks *)

Definition blanks (t : text) : Prop := Forall (fun c => blank c = true) t.

Lemma lstrip_blanks b t : blanks b -> lstrip (b ++ t) = lstrip t.
Proof. induction 1 as [|c b Hc Hb IH]; cbn; [reflexivity|]. rewrite Hc. exact IH. Qed.
Lemma lstrip_all b : blanks b -> lstrip b = [].
Proof. intros H. rewrite <- (app_nil_r b), lstrip_blanks by assumption. reflexivity. Qed.
Lemma lstrip_word w t : is_word w -> lstrip (w ++ t) = w ++ t.
Proof. intros [N H]. destruct w as [|c w]; [contradiction|]. inversion H; subst. cbn. rewrite H2. reflexivity. Qed.
Lemma is_word_rev w : is_word w -> is_word (rev w).
Proof.
  intros [N H]. split; [|apply Forall_rev; assumption].
  intros E. apply N. rewrite <- (rev_involutive w), E. reflexivity.
Qed.
Lemma strip_word b w e : blanks b -> is_word w -> blanks e -> strip (b ++ w ++ e) = w.
Proof.
  intros B W E. unfold strip. rewrite lstrip_blanks, lstrip_word by assumption.
  rewrite rev_app_distr, lstrip_blanks by (apply Forall_rev; assumption).
  rewrite <- (app_nil_r (rev w)), lstrip_word by (apply is_word_rev; assumption).
  rewrite app_nil_r, rev_involutive. reflexivity.
Qed.
Lemma strip_only w : is_word w -> strip w = w.
Proof. intros W. rewrite <- (app_nil_r w) at 1. apply (strip_word [] w []); [constructor|assumption|constructor]. Qed.

Lemma signed_digits t : digits t -> signed t = (false, t).
Proof.
  intros H. destruct t as [|c t]; [reflexivity|]. inversion H; subst. unfold signed.
  rewrite !digit_not_char by (try assumption; lia). reflexivity.
Qed.

Lemma int_of_dec_blanks b z e : blanks b -> blanks e -> 0 <= z -> int_of (b ++ dec z ++ e) = Ok z.
Proof.
  intros B E H. unfold int_of. rewrite strip_word by (try assumption; apply dec_word; assumption).
  rewrite signed_digits by apply dec_digits. rewrite nat_value_dec by assumption. reflexivity.
Qed.
Lemma int_of_dec z : 0 <= z -> int_of (dec z) = Ok z.
Proof. intros H. rewrite <- (app_nil_r (dec z)). apply (int_of_dec_blanks [] z []); [constructor|constructor|assumption]. Qed.

(** ** Splitting a row in words *)

(** A row of words, each preceded by blanks. *)
Definition cell := (text * text)%type.
Definition row_text (l : list cell) : text := concat (map (fun c => fst c ++ snd c) l).
Definition sound_cell (c : cell) : Prop := blanks (fst c) /\ is_word (snd c).

Lemma split_aux_blanks b : forall t, blanks b -> split_aux [] (b ++ t) = split_aux [] t.
Proof. induction b as [|c b IH]; intros t H; [reflexivity|]. inversion H; subst. cbn. rewrite H2. apply IH. assumption. Qed.
Lemma split_aux_word w : forall cur t, Forall (fun c => blank c = false) w ->
  split_aux cur (w ++ t) = split_aux (rev w ++ cur) t.
Proof.
  induction w as [|c w IH]; intros cur t H; [reflexivity|]. inversion H; subst. cbn. rewrite H2, IH by assumption.
  rewrite <- app_assoc. reflexivity.
Qed.
Lemma split_aux_end cur b t : cur <> [] -> blanks b -> b <> [] -> split_aux cur (b ++ t) = rev cur :: split_aux [] t.
Proof.
  intros N B NB. destruct b as [|c b]; [contradiction|]. inversion B; subst. cbn. rewrite H1.
  destruct cur; [contradiction|]. f_equal. apply split_aux_blanks. assumption.
Qed.
Lemma split_aux_stop cur b : cur <> [] -> blanks b -> split_aux cur b = [rev cur].
Proof.
  intros N B. destruct b as [|c b].
  - cbn. destruct cur; [contradiction|reflexivity].
  - rewrite <- (app_nil_r (c :: b)), split_aux_end by (try assumption; discriminate). reflexivity.
Qed.

Lemma split_row l e : Forall sound_cell l -> Forall (fun c => fst c <> []) (tl l) -> blanks e ->
  split (row_text l ++ e) = map snd l.
Proof.
  intros H T E. unfold split. destruct l as [|[b w] l].
  { unfold row_text. cbn. rewrite <- (app_nil_r e), split_aux_blanks by assumption. reflexivity. }
  cbn [tl] in T. inversion H as [|? ? [B [N W]] Hl]; subst. cbn [fst snd] in *.
  unfold row_text. cbn [map concat fst snd]. rewrite <- !app_assoc, split_aux_blanks, split_aux_word by assumption.
  fold (row_text l). cbn [map snd].
  clear H. revert w N W. induction l as [|[b' w'] l IH]; intros w N W.
  - unfold row_text. cbn [map concat app]. rewrite app_nil_r, split_aux_stop, rev_involutive; try assumption; [reflexivity|].
    intros Z. apply N. rewrite <- (rev_involutive w), Z. reflexivity.
  - inversion Hl as [|? ? [B' [N' W']] Hl']; subst. inversion T as [|? ? T1 T2]; subst. cbn [fst snd] in *.
    unfold row_text. cbn [map concat fst snd]. rewrite <- !app_assoc, app_nil_r. rewrite split_aux_end; try assumption.
    + rewrite rev_involutive, split_aux_word by assumption. f_equal.
      specialize (IH T2 Hl' w' N' W'). rewrite app_nil_r in IH. fold (row_text l). rewrite app_nil_r. exact IH.
    + intros Z. apply N. rewrite <- (rev_involutive w), Z. reflexivity.
Qed.

Lemma repeat_blanks n : blanks (repeat space n).
Proof. induction n; constructor; [reflexivity|assumption]. Qed.

(** A word aligned in a column. *)
Definition padded (width : nat) (t : text) : cell := (repeat space (width - length t), t).
Lemma pad_cell width t : pad width t = fst (padded width t) ++ snd (padded width t).
Proof. reflexivity. Qed.
Lemma padded_sound width t : is_word t -> sound_cell (padded width t).
Proof. intros. split; [apply repeat_blanks|assumption]. Qed.
Lemma padded_apart width t : (length t < width)%nat -> fst (padded width t) <> [].
Proof. intros H. cbn. destruct (width - length t)%nat eqn:E; [lia|discriminate]. Qed.

(** ** Lines *)

Definition one_line (t : text) : Prop := Forall (fun c => is_char 10 c = false) t.

Lemma readlines_aux_line l : forall cur t, one_line l ->
  readlines_aux cur (l ++ newline :: t) = (rev cur ++ l ++ [newline]) :: readlines_aux [] t.
Proof.
  induction l as [|c l IH]; intros cur t H; cbn [app readlines_aux].
  - replace (is_char 10 newline) with true by reflexivity. cbn [rev]. reflexivity.
  - inversion H; subst. rewrite H2, IH by assumption. f_equal. cbn [rev]. rewrite <- app_assoc. reflexivity.
Qed.
Lemma readlines_line l t : one_line l -> readlines (l ++ newline :: t) = (l ++ [newline]) :: readlines t.
Proof. intros. unfold readlines. rewrite readlines_aux_line by assumption. reflexivity. Qed.
Lemma readlines_nil : readlines [] = [].
Proof. reflexivity. Qed.

Lemma blank_newline c : blank c = false -> is_char 10 c = false.
Proof.
  intros H. destruct (is_char 10 c) eqn:E; [|reflexivity]. unfold is_char in E. apply Nat.eqb_eq in E.
  unfold blank in H. rewrite E in H. discriminate.
Qed.
Lemma word_one_line w : is_word w -> one_line w.
Proof. intros [_ H]. eapply Forall_impl; [|exact H]. apply blank_newline. Qed.
Lemma one_line_app a b : one_line a -> one_line b -> one_line (a ++ b).
Proof. intros. apply Forall_app. auto. Qed.
Lemma spaces_one_line n : one_line (repeat space n).
Proof. induction n; constructor; [reflexivity|assumption]. Qed.
Lemma pad_one_line n w : one_line w -> one_line (pad n w).
Proof. intros. apply one_line_app; [apply spaces_one_line|assumption]. Qed.
Lemma concat_one_line l : Forall one_line l -> one_line (concat l).
Proof. induction 1; cbn; [constructor|]. apply one_line_app; assumption. Qed.
Lemma lit_one_line s : forallb (fun c => negb (is_char 10 c)) (lit s) = true -> one_line (lit s).
Proof.
  intros H. apply Forall_forall. intros c K. rewrite forallb_forall in H. apply H in K.
  apply negb_true_iff in K. exact K.
Qed.
