(** The names of the files and the invariant of the disk. *)
From Coq Require Import String Ascii.
From Coq Require Import List Bool Arith ZArith Lia.
From Verif Require Import Model_Base Model_Text Proofs_Text Model_TabCache Spec_TabCache.
Import ListNotations.

Lemma text_eqb_spec a b : reflect (a = b) (text_eqb a b).
Proof. unfold text_eqb. destruct (list_eq_dec ascii_dec a b); now constructor. Qed.
Lemma text_eqb_same a : text_eqb a a = true. Proof. destruct (text_eqb_spec a a); congruence. Qed.
Lemma text_eqb_other a b : a <> b -> text_eqb a b = false. Proof. destruct (text_eqb_spec a b); congruence. Qed.

(** ** Paths *)
Fixpoint upto_slash (l : text) : text := match l with [] => [] | c :: r => if ascii_dec c slash then [] else c :: upto_slash r end.
Definition basename (t : text) : text := rev (upto_slash (rev t)).
Lemma upto_slash_free l m : ~ In slash l -> upto_slash (l ++ m) = l ++ upto_slash m.
Proof. induction l as [|c l IH]; intros H; [reflexivity|]. cbn [app upto_slash]. destruct (ascii_dec c slash) as [->|]; [exfalso; apply H; now left|]. rewrite IH; [reflexivity|]. intros X. apply H. now right. Qed.
Lemma basename_join dir name : ~ In slash name -> basename (join_path dir name) = name.
Proof.
  intros H. assert (Hr : ~ In slash (rev name)) by (now rewrite <- in_rev). unfold join_path, basename. destruct (rev dir) as [|c r] eqn:E.
  - rewrite <- (app_nil_r (rev name)), upto_slash_free by exact Hr. cbn. now rewrite app_nil_r, rev_involutive.
  - destruct (ascii_dec c slash) as [->|N].
    + rewrite rev_app_distr, E, upto_slash_free by exact Hr. cbn [upto_slash]. destruct (ascii_dec slash slash); [|congruence]. now rewrite app_nil_r, rev_involutive.
    + rewrite rev_app_distr. cbn [rev]. rewrite <- !app_assoc. cbn [app]. rewrite upto_slash_free by exact Hr. cbn [upto_slash]. destruct (ascii_dec slash slash); [|congruence]. now rewrite app_nil_r, rev_involutive.
Qed.

(** ** Names *)
Lemma cut (u : ascii) x y r s : ~ In u x -> ~ In u y -> x ++ u :: r = y ++ u :: s -> x = y /\ r = s.
Proof.
  revert y. induction x as [|a x IH]; intros [|b y] Hx Hy H; cbn in H.
  - injection H as H. now split.
  - injection H as -> _. exfalso. apply Hy. now left.
  - injection H as -> _. exfalso. apply Hx. now left.
  - injection H as -> H. destruct (IH y) as (-> & ->); try assumption; [intros X; apply Hx; now right|intros X; apply Hy; now right|]. now split.
Qed.
Lemma digit_bounds c : is_digit c = true -> (48 <= nat_of_ascii c <= 57)%nat.
Proof. unfold is_digit, digit_value. destruct (Nat.leb 48 (nat_of_ascii c)) eqn:E1; [|discriminate]. destruct (Nat.leb (nat_of_ascii c) 57) eqn:E2; [|discriminate]. apply Nat.leb_le in E1, E2. lia. Qed.
Lemma dec_free z : ~ In underscore (dec z) /\ ~ In slash (dec z).
Proof.
  pose proof (dec_digits z) as D. split; intros H.
  - assert (X : is_digit underscore = true) by (unfold digits in D; now apply D || (apply (proj1 (Forall_forall _ _)) with (x := underscore) in D; assumption)). now vm_compute in X.
  - assert (X : is_digit slash = true) by (unfold digits in D; now apply D || (apply (proj1 (Forall_forall _ _)) with (x := slash) in D; assumption)). now vm_compute in X.
Qed.
Lemma dec_inj m n : dec (Z.of_nat m) = dec (Z.of_nat n) -> m = n.
Proof. intros H. assert (X : Some (Z.of_nat m) = Some (Z.of_nat n)) by (rewrite <- !nat_value_dec by lia; now rewrite H). injection X as X. lia. Qed.

Section Names.
  Variable F : Type.
  Variable show : F -> text.
  Hypothesis S : readable_numbers show.
  Notation arguments := (arguments F).
  Lemma precision_cases a : known_names F a -> a_precision F a = lit "float32" \/ a_precision F a = lit "float64".
  Proof. intros (H & _). unfold known_precision in H. apply orb_true_iff in H. destruct H as [H|H]; [left|right]; now destruct (text_eqb_spec (a_precision F a) (lit "float32")), (text_eqb_spec (a_precision F a) (lit "float64")). Qed.
  Lemma shape_cases a : known_names F a -> a_shape F a = lit "legacy" \/ a_shape F a = lit "scaled_nemoh3".
  Proof. intros (_ & H). unfold known_shape in H. apply orb_true_iff in H. destruct H as [H|H]; [left|right]; now destruct (text_eqb_spec (a_shape F a) (lit "legacy")), (text_eqb_spec (a_shape F a) (lit "scaled_nemoh3")). Qed.
  Lemma show_free x : ~ In underscore (show x) /\ ~ In slash (show x).
  Proof. destruct S as (_ & H). split; intros X; apply H in X; tauto. Qed.
  Lemma lit_free c t : existsb (fun d => if ascii_dec c d then true else false) t = false -> ~ In c t.
  Proof. intros H X. assert (E : existsb (fun d => if ascii_dec c d then true else false) t = true); [|congruence]. apply existsb_exists. exists c. split; [exact X|]. now destruct (ascii_dec c c). Qed.
  Lemma precision_free a : known_names F a -> ~ In underscore (a_precision F a) /\ ~ In slash (a_precision F a).
  Proof. intros K. destruct (precision_cases a K) as [-> | ->]; split; apply lit_free; reflexivity. Qed.
  Lemma shape_free a : known_names F a -> ~ In slash (a_shape F a).
  Proof. intros K. destruct (shape_cases a K) as [-> | ->]; apply lit_free; reflexivity. Qed.
  Lemma name_free a : known_names F a -> ~ In slash (file_name F show a).
  Proof.
    intros K. unfold file_name. repeat (rewrite in_app_iff || cbn [In]).
    pose proof (lit_free slash (lit "tabulation_") eq_refl). pose proof (lit_free slash (lit ".npz") eq_refl). pose proof (precision_free a K). pose proof (shape_free a K).
    pose proof (dec_free (Z.of_nat (a_nr F a))). pose proof (dec_free (Z.of_nat (a_nz F a))). pose proof (dec_free (Z.of_nat (a_points F a))). pose proof (show_free (a_rmax F a)). pose proof (show_free (a_zmin F a)).
    assert (underscore <> slash) by discriminate. tauto.
  Qed.
  Theorem name_inj a b : known_names F a -> known_names F b -> file_name F show a = file_name F show b -> same_parameters F a b.
  Proof.
    intros Ka Kb H. unfold file_name in H. apply app_inv_head in H.
    apply cut in H; [|apply precision_free; assumption|apply precision_free; assumption]. destruct H as (P & H).
    assert (X : a_shape F a = a_shape F b /\ dec (Z.of_nat (a_nr F a)) ++ underscore :: show (a_rmax F a) ++ underscore :: dec (Z.of_nat (a_nz F a)) ++ underscore :: show (a_zmin F a) ++ underscore :: dec (Z.of_nat (a_points F a)) ++ lit ".npz"
      = dec (Z.of_nat (a_nr F b)) ++ underscore :: show (a_rmax F b) ++ underscore :: dec (Z.of_nat (a_nz F b)) ++ underscore :: show (a_zmin F b) ++ underscore :: dec (Z.of_nat (a_points F b)) ++ lit ".npz").
    { destruct (shape_cases a Ka) as [Ea|Ea], (shape_cases b Kb) as [Eb|Eb]; rewrite Ea, Eb in *.
      - apply app_inv_head in H. injection H as H. now split.
      - discriminate H.
      - discriminate H.
      - apply app_inv_head in H. injection H as H. now split. }
    clear H. destruct X as (Es & H).
    apply cut in H; try apply dec_free. destruct H as (E1 & H). apply cut in H; try apply show_free. destruct H as (E2 & H).
    apply cut in H; try apply dec_free. destruct H as (E3 & H). apply cut in H; try apply show_free. destruct H as (E4 & H).
    apply app_inv_tail in H. apply dec_inj in E1, E3, H. apply (proj1 S) in E2, E4. unfold same_parameters. tauto.
  Qed.
  Theorem path_inj a b d e : known_names F a -> known_names F b -> path_of F show a d = path_of F show b e -> same_parameters F a b.
  Proof.
    intros Ka Kb H. apply name_inj; try assumption. unfold path_of in H. rewrite <- (basename_join d (file_name F show a)), <- (basename_join e (file_name F show b)) by (apply name_free; assumption). now rewrite H.
  Qed.
End Names.
