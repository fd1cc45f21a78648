(** A truncated Nemoh.cal file, and the errors. *)
From Coq Require Import Reals String Ascii.
From Coq Require Import List Bool ZArith Arith Lia Lra.
From Verif Require Import Model_Base Model_Geometry Model_Mesh Model_Tree Model_Text Model_Files Model_Grid Model_Problem Model_Body.
From Verif Require Import Proofs_Text Proofs_Files Spec_Nemoh Model_Nemoh Spec_NemohFiles Proofs_Nemoh.
Import ListNotations.
Open Scope nat_scope.

(** The lines of a truncated text: some first lines, then possibly a line that is cut. *)
Inductive cut : list text -> list text -> Prop :=
| cut_end f : cut [] f
| cut_line p f : cut [p] f
| cut_next l q f : cut q f -> cut (l :: q) (l :: f).

Lemma readlines_cut t u : forall cur, cut (readlines_aux cur t) (readlines_aux cur (t ++ u)).
Proof.
  induction t as [|c t IH]; intros cur; cbn [readlines_aux app].
  - destruct cur; constructor.
  - destruct (is_char 10 c); [constructor; apply IH|apply IH].
Qed.

Lemma bind_inv {A B} (r : result A) (f : A -> result B) y : bind r f = Ok y -> exists x, r = Ok x /\ f x = Ok y.
Proof. destruct r; [|discriminate]. intros H. now exists a. Qed.

Lemma cut_read q f : cut q f ->
  (fst (readline q) = fst (readline f) /\ cut (snd (readline q)) (snd (readline f))) \/ snd (readline q) = [].
Proof. destruct 1; [now right|now right|left; now split]. Qed.
Lemma cut_skip n : forall q f, cut q f -> cut (skipn n q) (skipn n f).
Proof.
  induction n as [|n IH]; intros q f H; [exact H|]. destruct H; cbn [skipn]; [constructor|rewrite skipn_nil; constructor|now apply IH].
Qed.
Lemma no_word i : word [] i = Err IndexError. Proof. unfold word, get. now destruct i. Qed.
Lemma no_float i : float_word [] i = Err IndexError. Proof. unfold float_word. now rewrite no_word. Qed.
Lemma no_int i : int_word [] i = Err IndexError. Proof. unfold int_word. now rewrite no_word. Qed.

Lemma read_dofs_nothing n b y q : read_dofs n [] b = Ok (y, q) -> n = 0 /\ q = [].
Proof. destruct n; cbn [read_dofs readline]; [intros [= _ <-]; auto|]. unfold read_dof. rewrite no_int. discriminate. Qed.
Lemma read_dofs_cut n : forall q f b x f' y q', cut q f -> read_dofs n f b = Ok (x, f') -> read_dofs n q b = Ok (y, q') ->
  (y = x /\ cut q' f') \/ q' = [].
Proof.
  induction n as [|n IH]; intros q f b x f' y q' C F G; cbn [read_dofs] in *.
  - injection F as <- <-. injection G as <- <-. now left.
  - destruct C as [f|p f|l q f C].
    + cbn [readline] in G. unfold read_dof in G. rewrite no_int in G. discriminate.
    + cbn [readline] in G. apply bind_inv in G as (b' & _ & G). apply read_dofs_nothing in G as [_ ->]. now right.
    + cbn [readline] in F, G. apply bind_inv in G as (b' & E & G). rewrite E in F. cbn [bind] in F. exact (IH _ _ _ _ _ _ _ C F G).
Qed.
Lemma read_rows_nothing n y q : read_rows read_force n [] = Ok (y, q) -> n = 0 /\ q = [].
Proof. destruct n; cbn [read_rows readline]; [intros [= _ <-]; auto|]. unfold read_force. rewrite no_int. discriminate. Qed.
Lemma read_rows_cut n : forall q f x f' y q', cut q f -> read_rows read_force n f = Ok (x, f') -> read_rows read_force n q = Ok (y, q') ->
  cut q' f' \/ q' = [].
Proof.
  induction n as [|n IH]; intros q f x f' y q' C F G; cbn [read_rows] in *.
  - injection F as _ <-. injection G as _ <-. now left.
  - destruct C as [f|p f|l q f C].
    + cbn [readline] in G. unfold read_force in G. rewrite no_int in G. discriminate.
    + cbn [readline] in G. apply bind_inv in G as (b' & _ & G). apply bind_inv in G as ((y1 & q1) & G1 & G). apply read_rows_nothing in G1 as [_ ->].
      cbn in G. injection G as _ <-. now right.
    + cbn [readline] in F, G. apply bind_inv in G as (b' & E & G). rewrite E in F. cbn [bind] in F.
      apply bind_inv in G as ((y1 & q1) & G1 & G). apply bind_inv in F as ((x1 & f1) & F1 & F). cbn [fst snd] in *.
      injection G as _ <-. injection F as _ <-. exact (IH _ _ _ _ _ _ C F1 G1).
Qed.

Section Truncated.
  Variable argsort : list R -> list nat.
  Variable heal_normals : mesh -> result mesh.
  Variable other_loader : text -> text -> result tree.
  Variable run_python : text -> result fbody.
  Variable problem : Type.
  Variable DiffractionProblem : fbody -> R -> ext -> R -> R -> ext -> result problem.
  Variable RadiationProblem : fbody -> string -> ext -> R -> R -> ext -> result problem.
  Let loaded := load_body argsort heal_normals other_loader run_python.
  Let body_read := read_body argsort heal_normals other_loader run_python.
  Let bodies_read := read_bodies argsort heal_normals other_loader run_python.
  Let cal_read := read_cal argsort heal_normals other_loader run_python.
  Let import := import_cal_file argsort heal_normals other_loader run_python problem DiffractionProblem RadiationProblem.
  Variables d d' : disk.
  Variable cal : text.
  Hypothesis same : forall p, loaded d' p = loaded d p.

  Ltac next C l q f := let E := fresh in
    match type of C with cut ?q0 ?f0 =>
      destruct (cut_read _ _ C) as [[E C']|E];
      destruct (readline q0) as [l q]; destruct (readline f0) as [?l f]; cbn [fst snd] in *; [subst; clear C; rename C' into C|subst q; clear C] end.
  Lemma read_body_nothing y q : body_read d' cal [] = Ok (y, q) -> False.
  Proof. unfold body_read, read_body. cbn [readline]. rewrite no_word. discriminate. Qed.
  Lemma read_body_cut q f x f' y q' : cut q f -> body_read d cal f = Ok (x, f') -> body_read d' cal q = Ok (y, q') ->
    (y = x /\ cut q' f') \/ q' = [].
  Proof.
    unfold body_read, read_body. intros C F G.
    next C l1 q1 f1; [|cbn [readline] in G; rewrite no_word in G; discriminate].
    next C l2 q2 f2; [|apply bind_inv in G as (? & _ & G); cbn [readline] in G; apply bind_inv in G as (? & _ & G); rewrite no_int in G; discriminate].
    apply bind_inv in G as (name & E & G). rewrite E in F. cbn [bind] in F.
    next C l3 q3 f3; [|cbn [readline] in G; apply bind_inv in G as (? & _ & G); rewrite no_int in G; discriminate].
    fold loaded in F, G. rewrite same in G. apply bind_inv in G as (b & E1 & G). rewrite E1 in F. cbn [bind] in F.
    next C l4 q4 f4.
    2:{ apply bind_inv in G as (n & _ & G). apply bind_inv in G as ((b1 & q5) & G1 & G). apply read_dofs_nothing in G1 as [_ ->].
        cbn [snd readline] in G. rewrite no_int in G. discriminate. }
    apply bind_inv in G as (n & E2 & G). rewrite E2 in F. cbn [bind] in F.
    apply bind_inv in G as ((b1 & q5) & G1 & G). apply bind_inv in F as ((b2 & f5) & F1 & F). cbn [fst snd] in *.
    destruct (read_dofs_cut _ _ _ _ _ _ _ _ C F1 G1) as [[-> C1]| ->]; [|cbn [readline] in G; rewrite no_int in G; discriminate].
    next C1 l5 q6 f6.
    2:{ apply bind_inv in G as (n1 & _ & G). apply bind_inv in G as ((u1 & q7) & G2 & G). apply read_rows_nothing in G2 as [_ ->].
        cbn [snd readline] in G. rewrite no_int in G. discriminate. }
    apply bind_inv in G as (n1 & E3 & G). rewrite E3 in F. cbn [bind] in F.
    apply bind_inv in G as ((u1 & q7) & G2 & G). apply bind_inv in F as ((u2 & f7) & F2 & F). cbn [fst snd] in *.
    destruct (read_rows_cut _ _ _ _ _ _ _ C1 F2 G2) as [C2| ->]; [|cbn [readline] in G; rewrite no_int in G; discriminate].
    next C2 l6 q8 f8.
    - apply bind_inv in G as (n2 & E4 & G). rewrite E4 in F. cbn [bind] in F. injection F as <- <-. injection G as <- <-. left. split; [reflexivity|].
      now apply cut_skip.
    - apply bind_inv in G as (n2 & _ & G). rewrite skipn_nil in G. injection G as _ <-. now right.
  Qed.
  Lemma read_bodies_nothing n y q : bodies_read d' cal n [] = Ok (y, q) -> n = 0 /\ q = [].
  Proof.
    destruct n; unfold bodies_read; cbn [read_bodies]; [intros [= _ <-]; auto|]. intros H. apply bind_inv in H as ((a & b) & H & _).
    exfalso. exact (read_body_nothing _ _ H).
  Qed.
  Lemma read_bodies_cut n : forall q f x f' y q', cut q f -> bodies_read d cal n f = Ok (x, f') -> bodies_read d' cal n q = Ok (y, q') ->
    (y = x /\ cut q' f') \/ q' = [].
  Proof.
    induction n as [|n IH]; intros q f x f' y q' C F G; unfold bodies_read in F, G; cbn [read_bodies] in F, G.
    - injection F as <- <-. injection G as <- <-. now left.
    - apply bind_inv in G as ((b1 & q1) & G1 & G). apply bind_inv in F as ((b2 & f1) & F1 & F). cbn [fst snd] in *.
      apply bind_inv in G as ((bs1 & q2) & G2 & G). apply bind_inv in F as ((bs2 & f2) & F2 & F). cbn [fst snd] in *.
      injection G as <- <-. injection F as <- <-.
      destruct (read_body_cut _ _ _ _ _ _ C F1 G1) as [[-> C1]| ->].
      + destruct (IH _ _ _ _ _ _ C1 F2 G2) as [[-> C2]| ->]; [left; now split|now right].
      + apply read_bodies_nothing in G2 as [_ ->]. now right.
  Qed.

  Lemma no_linspace i j : linspace_words [] i j = Err IndexError.
  Proof. unfold linspace_words. now rewrite no_float. Qed.
  Lemma no_frequencies : read_frequencies [] = Err IndexError. Proof. reflexivity. Qed.
  Lemma no_directions : read_directions [] = Err IndexError. Proof. unfold read_directions. now rewrite no_linspace. Qed.
  Lemma no_point : read_point [] = Err ValueError. Proof. reflexivity. Qed.
  Ltac failed G := repeat (rewrite ?no_word, ?no_float, ?no_int, ?no_linspace, ?no_frequencies, ?no_directions, ?no_point in G; cbn [bind readline snd] in G;
    first [discriminate | apply bind_inv in G as (? & _ & G)]).

  Lemma read_cal_cut q f x y : cut q f -> cal_read d cal f = Ok x -> cal_read d' cal q = Ok y -> y = x.
  Proof.
    unfold cal_read, read_cal. intros C F G.
    next C l1 q1 f1; [|cbn [readline] in G; failed G].
    next C l2 q2 f2; [|cbn [readline] in G; failed G].
    apply bind_inv in G as (rho & E1 & G). rewrite E1 in F. cbn [bind] in F.
    next C l3 q3 f3; [|cbn [readline] in G; failed G].
    apply bind_inv in G as (g & E2 & G). rewrite E2 in F. cbn [bind] in F.
    next C l4 q4 f4; [|cbn [readline] in G; failed G].
    apply bind_inv in G as (depth & E3 & G). rewrite E3 in F. cbn [bind] in F.
    next C l5 q5 f5; [|cbn [readline] in G; failed G].
    apply bind_inv in G as (u & E4 & G). rewrite E4 in F. cbn [bind] in F.
    next C l6 q6 f6; [|cbn [readline] in G; failed G].
    next C l7 q7 f7.
    2:{ apply bind_inv in G as (n & _ & G). fold bodies_read in G. apply bind_inv in G as ((bs1 & q8) & G1 & G).
        apply read_bodies_nothing in G1 as [_ ->]. cbn [snd readline] in G. failed G. }
    apply bind_inv in G as (n & E5 & G). rewrite E5 in F. cbn [bind] in F. fold bodies_read in F, G.
    apply bind_inv in G as ((bs1 & q8) & G1 & G). apply bind_inv in F as ((bs2 & f8) & F1 & F). cbn [fst snd] in *.
    destruct (read_bodies_cut _ _ _ _ _ _ _ C F1 G1) as [[-> C1]| ->]; [|cbn [readline] in G; failed G].
    apply bind_inv in G as (body & E6 & G). rewrite E6 in F. cbn [bind] in F.
    next C1 l8 q9 f9; [|cbn [readline] in G; failed G].
    next C1 l9 q10 f10; [|cbn [readline] in G; failed G].
    apply bind_inv in G as (ws & E7 & G). rewrite E7 in F. cbn [bind] in F.
    next C1 l10 q11 f11; [|cbn [readline] in G; failed G].
    apply bind_inv in G as (ds & E8 & G). rewrite E8 in F. cbn [bind] in F.
    next C1 l11 q12 f12; [|cbn [readline] in G; failed G].
    next C1 l12 q13 f13; [|cbn [readline] in G; failed G].
    next C1 l13 q14 f14; [|cbn [readline] in G; failed G].
    apply bind_inv in G as (w1 & E9 & G). apply bind_inv in F as (w2 & _ & F).
    destruct (readline q14) as [lk q15]. destruct (readline f14) as [lk' f15].
    apply bind_inv in G as (? & _ & G). apply bind_inv in F as (? & _ & F). injection F as <-. injection G as <-. reflexivity.
  Qed.

  (** A file cut anywhere gives an error, or the same problems. *)
  Lemma import_cut content rest ps ps' : d cal = Some (content ++ rest) -> d' cal = Some content ->
    import d cal = Ok ps -> import d' cal = Ok ps' -> ps' = ps.
  Proof.
    unfold import, import_cal_file. intros -> -> F G. apply bind_inv in F as (x & F1 & F). apply bind_inv in G as (y & G1 & G).
    pose proof (read_cal_cut _ _ _ _ (readlines_cut content rest []) F1 G1) as ->. congruence.
  Qed.
End Truncated.
