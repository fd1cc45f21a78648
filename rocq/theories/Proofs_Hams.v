(** The zeros of [c + y * tan y]. *)
From Coq Require Import Reals List Bool Arith Lia Lra.
From Coquelicot Require Import Coquelicot.
From Verif Require Import Model_Base Model_Mesh Model_Problem Proofs_Problem Model_Hams Spec_Hams.
Import ListNotations.
Open Scope R_scope.

Lemma tanh_lt_1 x : tanh x < 1.
Proof.
  unfold tanh, sinh, cosh. assert (A := exp_pos x). assert (B := exp_pos (- x)). apply Rmult_lt_reg_r with ((exp x + exp (- x)) / 2); [lra|].
  replace ((exp x - exp (- x)) / 2 / ((exp x + exp (- x)) / 2) * ((exp x + exp (- x)) / 2)) with ((exp x - exp (- x)) / 2) by (field; lra). lra.
Qed.
Lemma PI_3 : 3 < PI. Proof. assert (H := PI2_3_2). lra. Qed.
Lemma cos_turns t n : cos (t + INR n * PI) = cos t \/ cos (t + INR n * PI) = - cos t.
Proof.
  induction n as [|n IH]; [left; f_equal; cbn; ring|]. rewrite S_INR. replace (t + (INR n + 1) * PI) with ((t + INR n * PI) + PI) by ring. rewrite neg_cos. destruct IH as [-> | ->]; [now right|left; ring].
Qed.
Lemma tan_turns t n : tan (t + INR n * PI) = tan t.
Proof.
  induction n as [|n IH]; [f_equal; cbn; ring|]. rewrite S_INR. replace (t + (INR n + 1) * PI) with ((t + INR n * PI) + PI) by ring. rewrite <- IH. unfold tan. rewrite neg_sin, neg_cos.
  unfold Rdiv. rewrite Rinv_opp. ring.
Qed.
(** The second half of each turn. *)
Definition falling (n : nat) (y : R) : Prop := PI / 2 + INR n * PI < y < PI + INR n * PI.
Lemma falling_cos n y : falling n y -> cos y <> 0 /\ tan y < 0 /\ 1 < y.
Proof.
  intros [H1 H2]. assert (P := PI_3). assert (N := pos_INR n). assert (0 <= INR n * PI) by (apply Rmult_le_pos; lra).
  set (t := y - INR n * PI). assert (E : y = t + INR n * PI) by (unfold t; ring). assert (T : PI / 2 < t < PI) by (unfold t; lra).
  assert (C : cos t < 0) by (apply cos_lt_0; lra). assert (S : 0 < sin t) by (apply sin_gt_0; lra). split; [|split].
  - rewrite E. destruct (cos_turns t n) as [-> | ->]; lra.
  - rewrite E, tan_turns. unfold tan. apply Ropp_lt_cancel. rewrite Ropp_0. replace (- (sin t / cos t)) with (sin t / - cos t) by (field; lra). apply Rdiv_lt_0_compat; lra.
  - lra.
Qed.
Lemma ytan_derive y : cos y <> 0 -> is_derive (fun y => y * tan y) y ((sin y * cos y + y) / (cos y * cos y)).
Proof.
  intros C. unfold tan. auto_derive; [exact C|]. assert (Q := sin2_cos2 y). unfold Rsqr in Q.
  transitivity ((sin y * cos y + y * (sin y * sin y + cos y * cos y)) / (cos y * cos y)); [field; exact C|]. rewrite Q. f_equal. ring.
Qed.
Lemma ytan_increasing n x y : falling n x -> falling n y -> x < y -> x * tan x < y * tan y.
Proof.
  intros X Y L. apply (incr_function_le (fun y => y * tan y) x y (fun y => (sin y * cos y + y) / (cos y * cos y))); try (cbn; lra).
  - intros z H1 H2. cbn in H1, H2. apply ytan_derive. apply (falling_cos n). unfold falling in *. lra.
  - intros z H1 H2. cbn in H1, H2. destruct (falling_cos n z) as (C & _ & Z); [unfold falling in *; lra|].
    apply Rdiv_lt_0_compat; [|nra]. assert (Q := sin2_cos2 z). unfold Rsqr in Q. assert (0 <= (sin z + cos z) * (sin z + cos z)) by apply Rle_0_sqr. nra.
Qed.
Lemma ytan_continuous c y : cos y <> 0 -> continuous (fun y => c + y * tan y) y.
Proof.
  intros C. apply (ex_derive_continuous (fun y => c + y * tan y)). unfold tan. auto_derive. exact C.
Qed.

(** ** The ends of the searches *)
Lemma margin_cos x : 0 < x <= margin -> 99 / 100 < cos x.
Proof.
  unfold margin. intros H. assert (S1 : sin x < x) by (apply sin_lt_x; lra). assert (P := PI_3). assert (S0 : 0 < sin x) by (apply sin_gt_0; lra). assert (C : 0 < cos x) by (apply cos_gt_0; lra).
  assert (Q := sin2_cos2 x). unfold Rsqr in Q. nra.
Qed.
Lemma margin_sin : 9 / 10 * margin < sin margin < margin.
Proof.
  split; [|apply sin_lt_x; unfold margin; lra]. assert (M : 0 < margin) by (unfold margin; lra).
  assert (H : (fun x => sin x - 9 / 10 * x) 0 < (fun x => sin x - 9 / 10 * x) margin); [|cbv beta in H; rewrite sin_0 in H; lra].
  destruct (MVT_gen (fun x => sin x - 9 / 10 * x) 0 margin (fun x => cos x - 9 / 10)) as (x & Hx & E).
  - intros x _. auto_derive; [exact I|ring].
  - intros x _. apply continuity_pt_filterlim. apply (ex_derive_continuous (fun x => sin x - 9 / 10 * x)). auto_derive. exact I.
  - rewrite Rmin_left, Rmax_right in Hx by lra. cbv beta in *.
    assert (C : 99 / 100 < cos x). { destruct (Req_dec x 0) as [-> |N]; [rewrite cos_0; lra|]. apply margin_cos. lra. }
    assert (0 < (cos x - 9 / 10) * (margin - 0)) by (apply Rmult_lt_0_compat; lra). lra.
Qed.
Lemma left_tan n : tan ((2 * INR n + 1) * PI / 2 + margin) = - (cos margin / sin margin).
Proof.
  replace ((2 * INR n + 1) * PI / 2 + margin) with ((PI / 2 + margin) + INR n * PI) by field. rewrite tan_turns. unfold tan.
  replace (sin (PI / 2 + margin)) with (cos margin) by (now rewrite cos_sin). replace (cos (PI / 2 + margin)) with (- sin margin) by (rewrite (sin_cos margin); ring).
  assert (S := margin_sin). assert (0 < margin) by (unfold margin; lra). field. lra.
Qed.
Lemma right_tan n : tan ((2 * INR n + 2) * PI / 2 - margin) = - tan margin.
Proof.
  replace ((2 * INR n + 2) * PI / 2 - margin) with ((- margin + PI) + INR n * PI) by field. rewrite tan_turns. replace (- margin + PI) with (- margin + INR 1 * PI) by (cbn; ring). now rewrite tan_turns, tan_neg.
Qed.
Lemma inside n y : (2 * INR n + 1) * PI / 2 + margin <= y <= (2 * INR n + 2) * PI / 2 - margin -> falling n y.
Proof. unfold falling, margin. intros [H1 H2]. lra. Qed.
Lemma ends n : (2 * INR n + 1) * PI / 2 + margin < (2 * INR n + 2) * PI / 2 - margin.
Proof. assert (P := PI_3). unfold margin. lra. Qed.
Lemma left_negative c n : c <= 1000000000 -> c + ((2 * INR n + 1) * PI / 2 + margin) * tan ((2 * INR n + 1) * PI / 2 + margin) < 0.
Proof.
  intros H. rewrite left_tan. assert (S := margin_sin). assert (M : 0 < margin) by (unfold margin; lra). assert (C := margin_cos margin ltac:(lra)). assert (P := PI_3). assert (N := pos_INR n).
  assert (Q : 9000000000 < cos margin / sin margin).
  { apply Rmult_lt_reg_r with (sin margin); [lra|]. replace (cos margin / sin margin * sin margin) with (cos margin) by (field; lra). unfold margin in *. lra. }
  assert (L : 1 < (2 * INR n + 1) * PI / 2 + margin) by (assert (0 <= INR n * PI) by (apply Rmult_le_pos; lra); lra).
  assert (9000000000 < ((2 * INR n + 1) * PI / 2 + margin) * (cos margin / sin margin)) by nra. lra.
Qed.
Lemma tan_margin : 9 / 10 * margin < tan margin < 11 / 10 * margin.
Proof.
  assert (S := margin_sin). assert (M : 0 < margin) by (unfold margin; lra). assert (C := margin_cos margin ltac:(lra)). assert (B := COS_bound margin). unfold tan. split.
  - apply Rmult_lt_reg_r with (cos margin); [lra|]. replace (sin margin / cos margin * cos margin) with (sin margin) by (field; lra). nra.
  - apply Rmult_lt_reg_r with (cos margin); [lra|]. replace (sin margin / cos margin * cos margin) with (sin margin) by (field; lra). nra.
Qed.
Lemma right_positive c n : (INR n + 1) * (/ 1000000000) <= c -> 0 < c + ((2 * INR n + 2) * PI / 2 - margin) * tan ((2 * INR n + 2) * PI / 2 - margin).
Proof.
  intros H. rewrite right_tan. assert (T := tan_margin). assert (M : 0 < margin) by (unfold margin; lra). assert (P := PI_3). assert (P4 := PI_4). assert (N := pos_INR n).
  set (y := (2 * INR n + 2) * PI / 2 - margin). assert (Y : y <= 4 * (INR n + 1)) by (unfold y; nra). assert (Y0 : 0 < y) by (unfold y, margin in *; nra).
  assert (y * tan margin <= 4 * (INR n + 1) * (11 / 10 * margin)) by (apply Rmult_le_compat; lra). unfold margin in *. lra.
Qed.
Lemma right_negative c n : c < (INR n + 1) * (/ 5000000000) -> c + ((2 * INR n + 2) * PI / 2 - margin) * tan ((2 * INR n + 2) * PI / 2 - margin) < 0.
Proof.
  intros H. rewrite right_tan. assert (T := tan_margin). assert (M : 0 < margin) by (unfold margin; lra). assert (P := PI_3). assert (N := pos_INR n).
  set (y := (2 * INR n + 2) * PI / 2 - margin). assert (Y : 29 / 10 * (INR n + 1) <= y) by (unfold y, margin in *; nra).
  assert (29 / 10 * (INR n + 1) * (9 / 10 * margin) <= y * tan margin) by (apply Rmult_le_compat; lra). unfold margin in *. lra.
Qed.

(** ** The roots *)
Lemma evanescent_turn k h r : 0 < k -> 0 < h -> evanescent k h r -> exists n, falling n (r * h).
Proof.
  intros K Hh (R0 & C & E). assert (P := PI_3). assert (Y : 0 < r * h) by (apply Rmult_lt_0_compat; lra).
  destruct (nfloor_ex (r * h / PI)) as (n & [N1 N2]); [apply Rlt_le, Rdiv_lt_0_compat; lra|]. exists n.
  assert (M1 : INR n * PI <= r * h) by (apply (Rmult_le_compat_r PI) in N1; [|lra]; replace (r * h / PI * PI) with (r * h) in N1 by (field; lra); exact N1).
  assert (M2 : r * h < (INR n + 1) * PI) by (apply (Rmult_lt_compat_r PI) in N2; [|lra]; replace (r * h / PI * PI) with (r * h) in N2 by (field; lra); exact N2).
  assert (T : 0 < tanh (k * h)) by (apply tanh_pos; apply Rmult_lt_0_compat; lra). assert (T' : 0 < k * tanh (k * h)) by (apply Rmult_lt_0_compat; lra).
  assert (TN : tan (r * h) < 0) by nra. split; [|lra]. destruct (Rle_or_lt (r * h) (PI / 2 + INR n * PI)) as [L|L]; [|exact L]. exfalso.
  set (t := r * h - INR n * PI). assert (Et : r * h = t + INR n * PI) by (unfold t; ring). rewrite Et, tan_turns in TN. rewrite Et in C.
  destruct (Req_dec t (PI / 2)) as [Q|Q].
  - destruct (cos_turns t n) as [D|D]; rewrite D, Q, cos_PI2 in C; lra.
  - assert (T0 : 0 <= t < PI / 2) by (unfold t in *; lra). assert (Ct : 0 < cos t) by (apply cos_gt_0; lra).
    destruct (Req_dec t 0) as [Q0|Q0]; [rewrite Q0, tan_0 in TN; lra|]. assert (St : 0 < sin t) by (apply sin_gt_0; lra).
    assert (0 < tan t) by (unfold tan; apply Rdiv_lt_0_compat; lra). lra.
Qed.
Lemma evanescent_unique k h n r r' : 0 < h -> evanescent k h r -> evanescent k h r' -> falling n (r * h) -> falling n (r' * h) -> r = r'.
Proof.
  intros Hh (_ & _ & E) (_ & _ & E') F F'.
  assert (Q : r * h * tan (r * h) = r' * h * tan (r' * h)) by (replace (r * h * tan (r * h)) with (- h * - (r * tan (r * h))) by ring; replace (r' * h * tan (r' * h)) with (- h * - (r' * tan (r' * h))) by ring; now rewrite E, E').
  apply Rmult_eq_reg_r with h; [|lra]. destruct (Rtotal_order (r * h) (r' * h)) as [L|[L|L]]; [|exact L|]; [assert (X := ytan_increasing n _ _ F F' L)|assert (X := ytan_increasing n _ _ F' F L)]; lra.
Qed.

Section Roots.
  Variable brentq : (R -> R) -> R -> R -> result R.
  Hypothesis search : exact_search brentq.
  Notation root := (root brentq).
  Notation roots := (dispersion_relation_roots brentq).

  Lemma root_cases k h n : 0 < k -> 0 < h -> (exists y, root k h n = Ok y) \/ root k h n = Err ValueError.
  Proof.
    intros K Hh. unfold Model_Hams.root. cbv zeta. set (f := fun y => k * tanh (k * h) * h + y * tan y).
    destruct (search f _ _ (ends n)) as [S1 S2]; [intros x Hx; apply ytan_continuous; apply (falling_cos n); now apply inside|].
    match goal with |- context [brentq f ?a ?b] => destruct (Rlt_or_le 0 (f a * f b)) as [L|L] end.
    - right. rewrite (S1 L). reflexivity.
    - left. destruct (S2 L) as (x & -> & _). cbn. eauto.
  Qed.
  Lemma root_found k h n : 0 < k -> 0 < h -> (INR n + 1) * (/ 1000000000) <= k * h * tanh (k * h) <= 1000000000 ->
    exists r, root k h n = Ok r /\ evanescent k h r /\ falling n (r * h).
  Proof.
    intros K Hh [L U]. unfold Model_Hams.root. cbv zeta. set (f := fun y => k * tanh (k * h) * h + y * tan y).
    destruct (search f _ _ (ends n)) as [_ S2]; [intros x Hx; apply ytan_continuous; apply (falling_cos n); now apply inside|].
    assert (A := left_negative (k * tanh (k * h) * h) n ltac:(lra)). assert (B := right_positive (k * tanh (k * h) * h) n ltac:(lra)).
    destruct S2 as (x & E & I & Z); [unfold f; nra|]. rewrite E. cbn. assert (F := inside n x I). destruct (falling_cos n x F) as (C & T & X1).
    assert (Q : x / h * h = x) by (field; lra). exists (x / h). split; [reflexivity|]. rewrite Q. split; [|exact F]. split; [apply Rdiv_lt_0_compat; lra|]. rewrite Q. split; [exact C|].
    unfold f in Z. apply Rmult_eq_reg_r with h; [|lra]. replace (- (x / h * tan x) * h) with (- (x * tan x)) by (field; lra). lra.
  Qed.
  Lemma root_missed k h n : 0 < k -> 0 < h -> k * h * tanh (k * h) < (INR n + 1) * (/ 5000000000) -> k * h * tanh (k * h) <= 1000000000 -> root k h n = Err ValueError.
  Proof.
    intros K Hh L U. unfold Model_Hams.root. cbv zeta. set (f := fun y => k * tanh (k * h) * h + y * tan y).
    destruct (search f _ _ (ends n)) as [S1 _]; [intros x Hx; apply ytan_continuous; apply (falling_cos n); now apply inside|].
    assert (A := left_negative (k * tanh (k * h) * h) n ltac:(lra)). assert (B := right_negative (k * tanh (k * h) * h) n ltac:(lra)).
    rewrite S1; [reflexivity|]. unfold f. nra.
  Qed.
  Lemma mapM_found {A B} (g : A -> result B) (Q : A -> B -> Prop) l : (forall x, In x l -> exists y, g x = Ok y /\ Q x y) -> exists ys, mapM g l = Ok ys /\ Forall2 Q l ys.
  Proof.
    induction l as [|x l IH]; intros H; [exists []; split; [reflexivity|constructor]|]. destruct (H x (or_introl eq_refl)) as (y & E & Hy). destruct IH as (ys & E' & F); [intros z Hz; apply H; now right|].
    exists (y :: ys). cbn [mapM]. rewrite E. cbn [bind]. rewrite E'. split; [reflexivity|now constructor].
  Qed.
  Lemma mapM_missed {A B} (g : A -> result B) l x : (forall x, In x l -> (exists y, g x = Ok y) \/ g x = Err ValueError) -> In x l -> g x = Err ValueError -> mapM g l = Err ValueError.
  Proof.
    induction l as [|z l IH]; intros H Hx E; [destruct Hx|]. cbn [mapM]. destruct (H z (or_introl eq_refl)) as [(y & Ey)|Ez]; [|now rewrite Ez]. rewrite Ey. cbn [bind].
    rewrite IH; [reflexivity| | |exact E]; [intros z' Hz'; apply H; now right|]. destruct Hx as [-> |Hx]; [congruence|exact Hx].
  Qed.
  Lemma f2_nth {A B} (Q : A -> B -> Prop) l ys : Forall2 Q l ys -> length ys = length l /\ forall i y, nth_error ys i = Some y -> exists x, nth_error l i = Some x /\ Q x y.
  Proof.
    induction 1 as [|x y l ys H F [IH1 IH2]]; [split; [reflexivity|intros [|i] y; discriminate]|]. split; [cbn; congruence|]. intros [|i] z E; cbn in *; [injection E as <-; eauto|now apply IH2].
  Qed.
  Lemma seq_nth_error n i x : nth_error (seq 0 n) i = Some x -> x = i /\ (i < n)%nat.
  Proof.
    intros E. assert (L : (i < n)%nat) by (rewrite <- (seq_length n 0); apply nth_error_Some; congruence). split; [|exact L]. apply (nth_error_nth _ _ O) in E. rewrite seq_nth in E by exact L. cbn in E. congruence.
  Qed.
  Lemma roots_found nk k h : 0 < k -> 0 < h -> INR nk * (/ 1000000000) <= k * h * tanh (k * h) <= 1000000000 ->
    exists rs, roots nk k h = Ok (k :: rs) /\ length rs = (nk - 1)%nat
      /\ (forall i r, nth_error rs i = Some r -> evanescent k h r /\ falling i (r * h))
      /\ (forall r, evanescent k h r -> r * h < INR (nk - 1) * PI -> In r rs).
  Proof.
    intros K Hh [L U].
    destruct (mapM_found (root k h) (fun n r => evanescent k h r /\ falling n (r * h)) (seq 0 (nk - 1))) as (rs & E & F).
    { intros n Hn. apply in_seq in Hn. apply root_found; [exact K|exact Hh|]. split; [|exact U]. assert (INR n + 1 <= INR nk) by (rewrite <- S_INR; apply le_INR; lia). lra. }
    destruct (f2_nth _ _ _ F) as [FL FN]. rewrite seq_length in FL.
    assert (FN' : forall i r, nth_error rs i = Some r -> evanescent k h r /\ falling i (r * h)).
    { intros i r Hr. destruct (FN i r Hr) as (x & Hx & Q). apply seq_nth_error in Hx. destruct Hx as [-> _]. exact Q. }
    exists rs. unfold dispersion_relation_roots. rewrite E. split; [reflexivity|]. split; [exact FL|]. split; [exact FN'|].
    intros r Er Lr. destruct (evanescent_turn k h r K Hh Er) as (n & Fn). assert (P := PI_3).
    assert (Hn : (n < nk - 1)%nat).
    { apply INR_lt. destruct Fn as [F1 _]. apply Rmult_lt_reg_r with PI; lra. }
    destruct (nth_error rs n) as [r'|] eqn:En; [|apply nth_error_None in En; lia]. destruct (FN' n r' En) as [E' F']. rewrite (evanescent_unique k h n r r' Hh Er E' Fn F'). now apply nth_error_In in En.
  Qed.
  Lemma roots_missed nk k h : 0 < k -> 0 < h -> (2 <= nk)%nat -> k * h * tanh (k * h) < INR (nk - 1) * (/ 5000000000) -> k * h * tanh (k * h) <= 1000000000 -> roots nk k h = Err ValueError.
  Proof.
    intros K Hh N L U. unfold dispersion_relation_roots. rewrite (mapM_missed (root k h) _ (nk - 2)%nat); [reflexivity| | |].
    - intros n _. now apply root_cases.
    - apply in_seq. lia.
    - apply root_missed; [exact K|exact Hh| |exact U]. replace (INR (nk - 2) + 1) with (INR (nk - 1)); [exact L|]. rewrite <- S_INR. f_equal. lia.
  Qed.
  Lemma roots_size nk k h l : roots nk k h = Ok l -> length l = S (nk - 1).
  Proof.
    unfold dispersion_relation_roots. destruct (mapM _ _) as [rs|] eqn:E; [|discriminate]. cbn. intros [= <-]. cbn. f_equal.
    assert (G : forall (A B : Type) (g : A -> result B) xs ys, mapM g xs = Ok ys -> length ys = length xs).
    { clear. intros A B g. induction xs as [|x xs IH]; intros ys; cbn; [intros [= <-]; reflexivity|]. destruct (g x); [|discriminate]. cbn. destruct (mapM g xs) as [zs|]; [|discriminate]. cbn. intros [= <-]. cbn. f_equal. now apply IH. }
    rewrite (G _ _ _ _ _ E). apply seq_length.
  Qed.
End Roots.
