(** Lemmas about the text of the files of results. *)
From Coq Require Import Reals String Ascii.
From Coq Require Import List Bool ZArith Arith Lia.
From Verif Require Import Model_Base Model_Geometry Model_Problem Model_Solver Model_Text Model_Files Model_Nemoh Model_Dataset Proofs_Text Spec_Tecplot Model_Tecplot.
Import ListNotations.
Open Scope nat_scope.

Lemma emit_ok ts : emit (map Ok ts) = (concat ts, None).
Proof. induction ts as [|t ts IH]; [reflexivity|]. cbn [map emit concat]. now rewrite IH. Qed.
Lemma emit_err ts e l : emit (map Ok ts ++ Err e :: l) = (concat ts, Some e).
Proof. induction ts as [|t ts IH]; [reflexivity|]. cbn [map app emit concat]. now rewrite IH. Qed.

Lemma flat_ext_in {A B} (f g : A -> list B) l : (forall x, In x l -> f x = g x) -> flat_map f l = flat_map g l.
Proof. induction l as [|x l IH]; intros H; [reflexivity|]. cbn [flat_map]. rewrite (H x) by now left. f_equal. apply IH. intros y Hy. apply H. now right. Qed.
Lemma map_flat {A B C} (g : B -> C) (f : A -> list B) l : map g (flat_map f l) = flat_map (fun x => map g (f x)) l.
Proof. induction l as [|x l IH]; [reflexivity|]. cbn [flat_map]. now rewrite map_app, IH. Qed.
Lemma concat_flat {A} (f : A -> list text) l : concat (flat_map f l) = flat_map (fun x => concat (f x)) l.
Proof. induction l as [|x l IH]; [reflexivity|]. cbn [flat_map]. now rewrite concat_app, IH. Qed.

Lemma readlines_lines ls : Forall one_line ls -> readlines (concat (map line ls)) = map line ls.
Proof.
  induction ls as [|l ls IH]; intros H; [reflexivity|]. inversion H; subst. cbn [map concat]. unfold line at 1. rewrite <- app_assoc. cbn [app].
  rewrite readlines_line by assumption. f_equal. now apply IH.
Qed.

Section File.
  Context {V : Type}.
  Variable title : V -> text.
  Variable f : V -> text.
  Variable w1 w2 : V -> V -> V -> text.
  Definition row_words (c o : V) (infl : list V) : list text := f o :: flat_map (fun e => [w1 o c e; w2 o c e]) infl.
  Definition row_line (c o : V) (infl : list V) : text := concat (map (fun w => lit "  " ++ w) (row_words c o infl)) ++ lit "  ".
  Definition row_items (c o : V) (infl : list V) : list text :=
    (lit "  " ++ f o ++ lit "  ") :: flat_map (fun e => [w1 o c e; lit "  "; w2 o c e; lit "  "]) infl ++ [[newline]].

  Lemma row_concat c o infl : concat (row_items c o infl) = line (row_line c o infl).
  Proof.
    assert (G : lit "  " ++ concat (flat_map (fun e => [w1 o c e; lit "  "; w2 o c e; lit "  "]) infl)
      = concat (map (fun w => lit "  " ++ w) (flat_map (fun e => [w1 o c e; w2 o c e]) infl)) ++ lit "  ").
    { induction infl as [|e l IH]; [reflexivity|]. cbn [flat_map app concat map]. rewrite <- !app_assoc, IH. now rewrite <- ?app_assoc. }
    unfold row_items, row_line, row_words, line. cbn [concat map]. rewrite concat_app. cbn [concat]. rewrite !app_nil_r.
    rewrite <- !app_assoc. do 2 f_equal. rewrite !app_assoc. f_equal. exact G.
  Qed.
  Lemma row_split c o infl : is_word (f o) -> (forall e, In e infl -> is_word (w1 o c e) /\ is_word (w2 o c e)) -> split (line (row_line c o infl)) = row_words c o infl.
  Proof.
    intros H1 H2. unfold row_line, line. rewrite <- app_assoc.
    change (concat (map (fun w => lit "  " ++ w) (row_words c o infl))) with (concat (map (fun w => fst (lit "  ", w) ++ snd (lit "  ", w)) (row_words c o infl))).
    assert (E : forall ws, concat (map (fun w => fst (lit "  ", w) ++ snd (lit "  ", w)) ws) = row_text (map (fun w => (lit "  ", w)) ws)) by (intros; unfold row_text; now rewrite map_map).
    rewrite E, split_row.
    - rewrite map_map. cbn [snd]. apply map_id.
    - apply Forall_map. cbn [sound_cell fst snd]. assert (B : blanks (lit "  ")) by (repeat constructor). constructor; [split; assumption|].
      apply Forall_forall. intros w Hw. apply in_flat_map in Hw. destruct Hw as (e & He & Hw). split; [exact B|]. destruct (H2 e He). cbn in Hw. intuition (subst; assumption).
    - apply Forall_forall. intros x Hx. cbn [row_words map tl] in Hx. apply in_map_iff in Hx. destruct Hx as (w & <- & _). discriminate.
    - repeat constructor.
  Qed.
  Lemma row_one_line c o infl : is_word (f o) -> (forall e, In e infl -> is_word (w1 o c e) /\ is_word (w2 o c e)) -> one_line (row_line c o infl).
  Proof.
    intros H1 H2. unfold row_line. apply one_line_app; [|repeat constructor]. apply concat_one_line. apply Forall_map. constructor.
    - apply one_line_app; [repeat constructor|now apply word_one_line].
    - apply Forall_forall. intros w Hw. apply in_flat_map in Hw. destruct Hw as (e & He & Hw). destruct (H2 e He).
      apply one_line_app; [repeat constructor|apply word_one_line]. cbn in Hw. intuition (subst; assumption).
  Qed.

  Variable cs omegas infl : list V.
  Definition items : list text := flat_map (fun c => line (title c) :: flat_map (fun o => row_items c o infl) omegas) cs.
  Definition lines_of : list text := flat_map (fun c => title c :: map (fun o => row_line c o infl) omegas) cs.
  Lemma items_lines : concat items = concat (map line lines_of).
  Proof.
    unfold items, lines_of. rewrite concat_flat, map_flat, concat_flat. apply flat_ext_in. intros c _. cbn [map concat]. f_equal.
    induction omegas as [|o l IH]; [reflexivity|]. cbn [flat_map map concat]. now rewrite concat_app, row_concat, IH.
  Qed.
  Lemma tec_text n : (forall c, In c cs -> one_line (title c)) -> (forall o, In o omegas -> is_word (f o)) ->
    (forall o c e, In o omegas -> In c cs -> In e infl -> is_word (w1 o c e) /\ is_word (w2 o c e)) ->
    exists body, readlines (concat (repeat (line (lit "...")) n ++ items)) = repeat (lit "..." ++ [newline]) n ++ concat body
      /\ Forall2 (fun b ls => exists rows, ls = (fst b ++ [newline]) :: rows /\ map split rows = snd b)
           (map (fun c => (title c, map (fun o => f o :: flat_map (fun e => [w1 o c e; w2 o c e]) infl) omegas)) cs) body.
  Proof.
    intros Ht Hf Hw. exists (map (fun c => line (title c) :: map (fun o => line (row_line c o infl)) omegas) cs). split.
    - rewrite concat_app, items_lines, <- concat_app.
      assert (R : repeat (line (lit "...")) n = map line (repeat (lit "...") n)) by (clear; induction n; cbn [repeat map]; congruence).
      rewrite R, <- map_app, readlines_lines.
      + rewrite map_app, <- R. f_equal. unfold lines_of. rewrite map_flat, flat_map_concat_map. f_equal. apply map_ext. intros c. cbn [map]. now rewrite map_map.
      + apply Forall_app. split; [apply Forall_forall; intros x Hx; apply repeat_spec in Hx; subst; repeat constructor|].
        apply Forall_forall. intros x Hx. apply in_flat_map in Hx. destruct Hx as (c & Hc & [<-|Hx]); [now apply Ht|].
        apply in_map_iff in Hx. destruct Hx as (o & <- & Ho). apply row_one_line; auto.
    - clear Ht. induction cs as [|c l IH]; [constructor|]. cbn [map]. constructor.
      + eexists. split; [reflexivity|]. cbn [snd]. rewrite map_map. apply map_ext_in. intros o Ho. rewrite row_split; [reflexivity|auto|]. intros e He. apply Hw; cbn; auto.
      + apply IH. intros o c' e Ho Hc He. apply Hw; cbn; auto.
  Qed.
End File.
