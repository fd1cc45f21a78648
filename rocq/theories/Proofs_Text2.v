(** Lemmas about Model_Text: the formatting and the parsing of numbers. *)
From Coq Require Import Reals String Ascii.
From Coq Require Import List Bool ZArith Arith Lia Lra.
From Flocq Require Import Core.Zaux Core.Raux Core.Generic_fmt.
From Verif Require Import Model_Base Model_Text Proofs_Problem Proofs_Geometry Proofs_Text.
Import ListNotations.
Open Scope Z_scope.

Definition fixed_word (x : R) : text :=
  let m := nearest (Rabs x * pow10 6) in
  sign_text x ++ dec (m / 10 ^ 6) ++ lit "." ++ fixed 6 (m mod 10 ^ 6).
Lemma fmt_fixed_word width x : fmt_fixed width x = pad width (fixed_word x).
Proof. reflexivity. Qed.

Definition sci_exp (x : R) : Z := if Reqb x 0 then 0 else mag radix10 x - 1.
Definition sci_parts (x : R) : Z * Z :=
  let e := sci_exp x in
  let m := nearest (Rabs x * pow10 (6 - e)) in
  if m =? 10 ^ 7 then (10 ^ 6, e + 1) else (m, e).
Definition exp_sign (e : Z) : text := if e <? 0 then lit "-" else lit "+".
Definition exp_digits (e : Z) : text := if Z.abs e <? 100 then fixed 2 (Z.abs e) else dec (Z.abs e).
Definition exp_text (e : Z) : text := exp_sign e ++ exp_digits e.
Definition sci_word (letter : string) (x : R) : text :=
  sign_text x ++ [digit (fst (sci_parts x) / 10 ^ 6)] ++ lit "." ++ fixed 6 (fst (sci_parts x) mod 10 ^ 6) ++ lit letter ++
  exp_text (snd (sci_parts x)).
Lemma fmt_sci_word letter width x : fmt_sci letter width x = pad width (sci_word letter x).
Proof.
  unfold fmt_sci, sci_word, sci_parts, sci_exp. destruct (_ =? 10 ^ 7); reflexivity.
Qed.

(** ** Parsing *)

Lemma take_digits_app d c t : digits d -> is_digit c = false -> take_digits (d ++ c :: t) = (d, c :: t).
Proof.
  intros D C. induction D as [|a d A D IH]; cbn [app take_digits].
  - rewrite C. reflexivity.
  - rewrite A, IH. reflexivity.
Qed.
Lemma take_digits_all d : digits d -> take_digits d = (d, []).
Proof. induction 1 as [|a d A D IH]; cbn [take_digits]; [reflexivity|]. rewrite A, IH. reflexivity. Qed.

Lemma signed_text x t : digits t -> t <> [] -> forall u, signed (sign_text x ++ t ++ u) = (Rltb x 0, t ++ u).
Proof.
  intros D N u. unfold sign_text. destruct (Rltb x 0).
  - reflexivity.
  - destruct t as [|c t]; [contradiction|]. inversion D; subst. cbn [app]. unfold signed.
    rewrite !digit_not_char by (try assumption; lia). reflexivity.
Qed.

Lemma nat_value_join a k b : 0 <= a -> 0 <= b < 10 ^ Z.of_nat k ->
  nat_value (dec a ++ fixed k b) = Some (a * 10 ^ Z.of_nat k + b).
Proof.
  intros A B. rewrite nat_value_digits.
  - rewrite digits_value_app. destruct (digits_value_dec a 0 A) as [p ->]. rewrite digits_value_fixed by assumption.
    f_equal.
  - intros E. apply app_eq_nil in E. destruct E as [E _]. exact (dec_nonempty a A E).
Qed.
Lemma nat_value_join1 a k b : 0 <= a < 10 -> 0 <= b < 10 ^ Z.of_nat k ->
  nat_value ([digit a] ++ fixed k b) = Some (a * 10 ^ Z.of_nat k + b).
Proof.
  intros A B. rewrite nat_value_digits by discriminate. rewrite digits_value_app. cbn [digits_value].
  rewrite digit_value_digit by assumption. rewrite digits_value_fixed by assumption. f_equal. 
Qed.

Lemma nat_value_fixed k b : (1 <= k)%nat -> 0 <= b < 10 ^ Z.of_nat k -> nat_value (fixed k b) = Some b.
Proof.
  intros K B. rewrite nat_value_digits.
  - rewrite digits_value_fixed by assumption. f_equal.
  - intros E. apply (f_equal (@length _)) in E. rewrite fixed_length in E. change (length (@nil ascii)) with O in E. lia.
Qed.

Lemma exponent_text l e : l = "E"%string \/ l = "e"%string -> exponent_of (lit l ++ exp_text e) = Ok e.
Proof.
  intros L. unfold exp_text.
  assert (V : nat_value (exp_digits e) = Some (Z.abs e)).
  { unfold exp_digits. destruct (Z.ltb_spec (Z.abs e) 100).
    - apply nat_value_fixed; [lia|]. change (10 ^ Z.of_nat 2) with 100. lia.
    - apply nat_value_dec. lia. }
  assert (X : exists c, lit l = [c] /\ is_char 69 c || is_char 101 c = true) by (destruct L as [-> | ->]; eexists; split; reflexivity).
  destruct X as (c & -> & C).
  assert (E : signed (exp_sign e ++ exp_digits e) = (e <? 0, exp_digits e)) by (unfold exp_sign; destruct (e <? 0); reflexivity).
  change (exponent_of (c :: (exp_sign e ++ exp_digits e)) = Ok e). cbv beta iota delta [exponent_of]. rewrite C, E, V. f_equal. destruct (Z.ltb_spec e 0); lia.
Qed.

Lemma sign_text_word x t : Forall (fun c => blank c = false) t -> t <> [] -> is_word (sign_text x ++ t).
Proof.
  intros H N. split.
  - intros E. apply app_eq_nil in E. tauto.
  - apply Forall_app. split; [|assumption]. unfold sign_text. destruct (Rltb x 0); repeat constructor.
Qed.
Lemma digits_not_blank t : digits t -> Forall (fun c => blank c = false) t.
Proof. intros H. eapply Forall_impl; [|exact H]. apply digit_not_blank. Qed.

Lemma nearest_between a b x : (IZR a <= x <= IZR b)%R -> a <= nearest x <= b.
Proof.
  intros [A B]. unfold nearest. split.
  - eapply Z.le_trans; [apply Zfloor_lub; exact A|apply Znearest_ge_floor].
  - eapply Z.le_trans; [apply Znearest_le_ceil|apply Zceil_glb; exact B].
Qed.
Lemma nearest_nonneg x : (0 <= x)%R -> 0 <= nearest x.
Proof.
  intros H. unfold nearest. eapply Z.le_trans; [apply (Zfloor_lub 0); exact H|apply Znearest_ge_floor].
Qed.
Lemma nearest_half x : (Rabs (x - IZR (nearest x)) <= / 2)%R.
Proof. apply Znearest_half. Qed.

Lemma pow10_positive e : (0 < pow10 e)%R. Proof. apply bpow_gt_0. Qed.
Lemma pow10_plus a b : pow10 (a + b) = (pow10 a * pow10 b)%R. Proof. apply bpow_plus. Qed.
Lemma pow10_inv a : (pow10 (- a) * pow10 a = 1)%R.
Proof. rewrite <- pow10_plus. replace (- a + a) with 0 by lia. reflexivity. Qed.
Lemma pow10_IZR k : 0 <= k -> pow10 k = IZR (10 ^ k).
Proof. intros. symmetry. apply (IZR_Zpower radix10). assumption. Qed.

(** The value of a printed number: the sign, the rounded digits, the exponent. *)
Definition printed_value (x : R) (m e : Z) : R := (IZR (if Rltb x 0 then - m else m) * pow10 e)%R.

Lemma printed_error x m e : (Rabs (Rabs x * pow10 (- e) - IZR m) <= / 2)%R ->
  (Rabs (printed_value x m e - x) <= / 2 * pow10 e)%R.
Proof.
  intros H. unfold printed_value. pose proof (pow10_positive e) as P. pose proof (pow10_inv e) as I.
  assert (G : (Rabs (Rabs x - IZR m * pow10 e) <= / 2 * pow10 e)%R).
  { replace (Rabs x - IZR m * pow10 e)%R with ((Rabs x * pow10 (- e) - IZR m) * pow10 e)%R
      by (rewrite Rmult_minus_distr_r, Rmult_assoc, I; ring).
    rewrite Rabs_mult, (Rabs_pos_eq (pow10 e)) by lra. apply Rmult_le_compat_r; lra. }
  destruct (Rltb x 0) eqn:S.
  - apply Rltb_true in S. rewrite (Rabs_left x S) in G. rewrite opp_IZR.
    replace (- IZR m * pow10 e - x)%R with (- x - IZR m * pow10 e)%R by ring. exact G.
  - apply Rltb_false in S. rewrite (Rabs_pos_eq x) in G by lra. rewrite Rabs_minus_sym. exact G.
Qed.

(** ** Numbers with six decimals *)

Lemma fixed_word_value x : exists v, float_of (fixed_word x) = Ok v /\ (Rabs (v - x) <= / 2 * pow10 (-6))%R.
Proof.
  set (m := nearest (Rabs x * pow10 6)).
  assert (M : 0 <= m) by (apply nearest_nonneg; apply Rmult_le_pos; [apply Rabs_pos|left; apply pow10_positive]).
  exists (printed_value x m (-6)). split.
  - unfold fixed_word. fold m.
    assert (A : 0 <= m / 10 ^ 6) by (apply Z.div_pos; lia).
    assert (B : 0 <= m mod 10 ^ 6 < 10 ^ Z.of_nat 6) by (apply Z.mod_pos_bound; lia).
    unfold float_of. rewrite strip_only.
    2: { apply sign_text_word.
         - apply Forall_app. split; [apply digits_not_blank, dec_digits|].
           apply Forall_app. split; [repeat constructor|apply digits_not_blank, fixed_digits].
         - intros E. apply app_eq_nil in E. destruct E as [E _]. exact (dec_nonempty _ A E). }
    rewrite signed_text by (try apply dec_digits; apply dec_nonempty; assumption).
    change (lit "." ++ fixed 6 (m mod 10 ^ 6)) with ("."%char :: fixed 6 (m mod 10 ^ 6)).
    rewrite take_digits_app by (try apply dec_digits; reflexivity).
    change (is_char 46 "."%char) with true. cbv iota. rewrite take_digits_all by apply fixed_digits.
    rewrite nat_value_join by assumption. cbn [exponent_of bind]. rewrite fixed_length. f_equal. unfold printed_value.
    change (10 ^ Z.of_nat 6) with (10 ^ 6). rewrite (Z.mul_comm (m / 10 ^ 6)), <- Z.div_mod by lia. reflexivity.
  - apply printed_error. apply nearest_half.
Qed.

Lemma fixed_word_is_word x : is_word (fixed_word x).
Proof.
  unfold fixed_word. apply sign_text_word.
  - apply Forall_app. split; [apply digits_not_blank, dec_digits|].
    apply Forall_app. split; [repeat constructor|apply digits_not_blank, fixed_digits].
  - intros E. apply app_eq_nil in E. destruct E as [_ E]. discriminate.
Qed.

Lemma sign_text_length x : (length (sign_text x) <= 1)%nat.
Proof. unfold sign_text. destruct (Rltb x 0); cbn; lia. Qed.

Lemma fixed_word_length k x : (1 <= k)%nat -> (Rabs x <= IZR (10 ^ Z.of_nat k - 1))%R -> (length (fixed_word x) <= k + 8)%nat.
Proof.
  intros K H. unfold fixed_word. rewrite !app_length, fixed_length.
  pose proof (sign_text_length x). change (length (lit ".")) with 1%nat.
  assert (B : 0 <= nearest (Rabs x * pow10 6) <= (10 ^ Z.of_nat k - 1) * 10 ^ 6).
  { apply nearest_between. rewrite pow10_IZR by lia. rewrite mult_IZR. split.
    - apply Rmult_le_pos; [apply Rabs_pos|]. apply IZR_le. lia.
    - apply Rmult_le_compat_r; [apply IZR_le; lia|assumption]. }
  assert (L : (length (dec (nearest (Rabs x * pow10 6) / 10 ^ 6)) <= k)%nat).
  { apply dec_length; [|assumption]. split; [apply Z.div_pos; lia|]. apply Z.div_lt_upper_bound; [lia|].
    pose proof (pow10_pos k). lia. }
  lia.
Qed.

(** ** Scientific notation *)

Lemma mag_bounds x : x <> 0%R -> (pow10 (mag radix10 x - 1) <= Rabs x < pow10 (mag radix10 x - 1 + 1))%R.
Proof.
  intros N. destruct (mag radix10 x) as [e He]. cbn [mag_val]. specialize (He N). replace (e - 1 + 1) with e by lia. exact He.
Qed.

Lemma sci_parts_spec x :
  0 <= fst (sci_parts x) < 10 ^ 7 /\
  (Rabs (printed_value x (fst (sci_parts x)) (snd (sci_parts x) - 6) - x) <= / 2 * pow10 (-6) * Rabs x)%R.
Proof.
  unfold sci_parts. set (e := sci_exp x). set (m := nearest (Rabs x * pow10 (6 - e))).
  assert (E : (Rabs (printed_value x m (e - 6) - x) <= / 2 * pow10 (e - 6))%R).
  { apply printed_error. replace (- (e - 6)) with (6 - e) by lia. apply nearest_half. }
  destruct (Req_dec x 0) as [->|N].
  - unfold e, sci_exp in *. rewrite Reqb_refl in *. subst m. rewrite Rabs_R0, Rmult_0_l, Rmult_0_r in *.
    assert (Z0 : nearest 0 = 0) by (apply Z.le_antisymm; apply (nearest_between 0 0); lra).
    rewrite Z0. change (0 =? 10 ^ 7) with false. cbn [fst snd]. split; [lia|].
    unfold printed_value. destruct (Rltb 0 0); cbn [Z.opp]; rewrite Rmult_0_l, Rminus_0_r, Rabs_R0; lra.
  - assert (Ee : e = mag radix10 x - 1) by (unfold e, sci_exp; destruct (Reqb x 0) eqn:Q; [apply Reqb_true in Q; contradiction|reflexivity]).
    pose proof (mag_bounds x N) as [Lo Hi]. rewrite <- Ee in Lo, Hi.
    pose proof (pow10_positive (6 - e)) as P.
    assert (A : (pow10 e * pow10 (6 - e) = IZR (10 ^ 6))%R) by (rewrite <- pow10_plus; replace (e + (6 - e)) with 6 by lia; apply pow10_IZR; lia).
    assert (A' : (pow10 (e + 1) * pow10 (6 - e) = IZR (10 ^ 7))%R) by (rewrite <- pow10_plus; replace (e + 1 + (6 - e)) with 7 by lia; apply pow10_IZR; lia).
    assert (B : 10 ^ 6 <= m <= 10 ^ 7).
    { apply nearest_between. rewrite <- A, <- A'. split; apply Rmult_le_compat_r; lra. }
    assert (F : (/ 2 * pow10 (e - 6) <= / 2 * pow10 (-6) * Rabs x)%R).
    { replace (e - 6) with (-6 + e) by lia. rewrite pow10_plus. pose proof (pow10_positive (-6)).
      rewrite <- Rmult_assoc. apply Rmult_le_compat_l; [lra|assumption]. }
    destruct (Z.eqb_spec m (10 ^ 7)) as [C|C]; cbn [fst snd].
    + split; [lia|]. replace (printed_value x (10 ^ 6) (e + 1 - 6)) with (printed_value x m (e - 6)); [lra|].
      unfold printed_value. rewrite C. replace (e + 1 - 6) with (1 + (e - 6)) by lia. rewrite pow10_plus.
      change (10 ^ 7) with (10 ^ 6 * 10 ^ 1). replace (pow10 1) with (IZR (10 ^ 1)) by (symmetry; apply pow10_IZR; lia).
      destruct (Rltb x 0); rewrite ?opp_IZR, mult_IZR; ring.
    + split; [lia|]. lra.
Qed.

Lemma sci_word_is_word l x : l = "E"%string \/ l = "e"%string -> is_word (sci_word l x).
Proof.
  intros L. unfold sci_word. apply sign_text_word.
  - apply Forall_app. split.
    { constructor; [|constructor]. apply digit_not_blank, is_digit_digit.
      destruct (sci_parts_spec x) as [[A B] _]. split; [apply Z.div_pos; lia|]. apply Z.div_lt_upper_bound; lia. }
    apply Forall_app. split; [repeat constructor|]. apply Forall_app. split; [apply digits_not_blank, fixed_digits|].
    apply Forall_app. split; [destruct L as [-> | ->]; repeat constructor|].
    unfold exp_text. apply Forall_app. split.
    + unfold exp_sign. destruct (_ <? 0); repeat constructor.
    + apply digits_not_blank. unfold exp_digits. destruct (_ <? 100); apply fixed_digits.
  - intros E. apply app_eq_nil in E. destruct E as [E _]. discriminate.
Qed.

Lemma sci_word_value l x : l = "E"%string \/ l = "e"%string ->
  exists v, float_of (sci_word l x) = Ok v /\ (Rabs (v - x) <= / 2 * pow10 (-6) * Rabs x)%R.
Proof.
  intros L. destruct (sci_parts_spec x) as [[A B] E].
  exists (printed_value x (fst (sci_parts x)) (snd (sci_parts x) - 6)). split; [|exact E].
  unfold float_of. rewrite strip_only by (apply sci_word_is_word; assumption). unfold sci_word.
  remember (fst (sci_parts x)) as m eqn:Em. remember (snd (sci_parts x)) as e eqn:Ee. clear Em Ee E.
  assert (D : 0 <= m / 10 ^ 6 < 10) by (split; [apply Z.div_pos; lia|apply Z.div_lt_upper_bound; lia]).
  assert (Dd : digits [digit (m / 10 ^ 6)]) by (apply Forall_cons; [apply is_digit_digit; assumption|apply Forall_nil]).
  rewrite (signed_text x [digit (m / 10 ^ 6)]) by (assumption || discriminate).
  change (lit "." ++ ?u) with ("."%char :: u).
  assert (T : forall u, take_digits ([digit (m / 10 ^ 6)] ++ "."%char :: u) = ([digit (m / 10 ^ 6)], "."%char :: u)).
  { intros u. apply take_digits_app; [exact Dd|reflexivity]. }
  rewrite T. change (is_char 46 "."%char) with true. cbv iota.
  assert (T' : take_digits (fixed 6 (m mod 10 ^ 6) ++ lit l ++ exp_text e) = (fixed 6 (m mod 10 ^ 6), lit l ++ exp_text e)).
  { destruct L as [-> | ->]; apply take_digits_app; try apply fixed_digits; reflexivity. }
  rewrite T'. assert (B' : 0 <= m mod 10 ^ 6 < 10 ^ Z.of_nat 6) by (apply Z.mod_pos_bound; lia).
  rewrite nat_value_join1 by assumption. rewrite exponent_text by assumption. cbn [bind]. rewrite fixed_length. f_equal.
  unfold printed_value. change (10 ^ Z.of_nat 6) with (10 ^ 6). rewrite (Z.mul_comm (m / 10 ^ 6)), <- Z.div_mod by lia. reflexivity.
Qed.

(** The range of the floats. *)
Lemma sci_exp_bound x : (pow10 (-998) <= Rabs x <= pow10 998)%R \/ x = 0%R -> -998 <= sci_exp x <= 998.
Proof.
  intros H. unfold sci_exp. destruct (Reqb x 0) eqn:Q; [lia|]. assert (Q0 : x <> 0%R) by (intros ->; rewrite Reqb_refl in Q; discriminate). clear Q; rename Q0 into Q. destruct H as [[A B]|H]; [|contradiction].
  pose proof (mag_bounds x Q) as [Lo Hi]. split.
  - assert (C : (pow10 (-998) < pow10 (mag radix10 x - 1 + 1))%R) by lra. apply lt_bpow in C. lia.
  - assert (C : (pow10 (mag radix10 x - 1) <= pow10 998)%R) by lra. apply le_bpow in C. lia.
Qed.
Lemma sci_word_length l x : l = "E"%string \/ l = "e"%string ->
  (pow10 (-998) <= Rabs x <= pow10 998)%R \/ x = 0%R -> (length (sci_word l x) <= 14)%nat.
Proof.
  intros L H. apply sci_exp_bound in H. unfold sci_word. rewrite !app_length, fixed_length.
  pose proof (sign_text_length x). replace (length (lit l)) with 1%nat by (destruct L as [-> | ->]; reflexivity).
  change (length (lit ".")) with 1%nat. change (length [digit (fst (sci_parts x) / 10 ^ 6)]) with 1%nat.
  assert (S : -998 <= snd (sci_parts x) <= 999) by (unfold sci_parts; destruct (_ =? 10 ^ 7); cbn [snd]; lia).
  unfold exp_text. rewrite app_length.
  assert (A : length (exp_sign (snd (sci_parts x))) = 1%nat) by (unfold exp_sign; destruct (_ <? 0); reflexivity).
  assert (B : (length (exp_digits (snd (sci_parts x))) <= 3)%nat).
  { unfold exp_digits. destruct (_ <? 100); [rewrite fixed_length; lia|]. apply dec_length; [|lia]. change (10 ^ Z.of_nat 3) with 1000. lia. }
  lia.
Qed.
