(** The format PNL. *)
From Coq Require Import Reals String Ascii.
From Coq Require Import List Bool ZArith Arith Lia Lra.
From Verif Require Import Model_Base Model_Geometry Model_Mesh Model_Tree Model_Text Spec_Files Proofs_Text Proofs_Text2 Model_Files Proofs_Files Proofs_Files2 Proofs_Files3.
Import ListNotations.
Open Scope Z_scope.

(** ** Texts without the character of the comments *)

Definition no_hash (t : text) : Prop := Forall (fun c => is_char 35 c = false) t.
Lemma before_hash_none t : no_hash t -> before_hash t = t.
Proof. induction 1 as [|c t H T IH]; cbn [before_hash]; [reflexivity|]. rewrite H, IH. reflexivity. Qed.
Lemma no_hash_app a b : no_hash a -> no_hash b -> no_hash (a ++ b).
Proof. intros; apply Forall_app; split; assumption. Qed.
Lemma is_digit_no_hash c : is_digit c = true -> is_char 35 c = false.
Proof. intros H. apply digit_not_char; [assumption|lia]. Qed.
Lemma digits_no_hash t : digits t -> no_hash t.
Proof. intros H. eapply Forall_impl; [|exact H]. apply is_digit_no_hash. Qed.
Lemma lit_no_hash s : forallb (fun c => negb (is_char 35 c)) (lit s) = true -> no_hash (lit s).
Proof. intros H. apply Forall_forall. intros c I. rewrite forallb_forall in H. specialize (H c I). apply negb_true_iff in H. exact H. Qed.
Lemma sign_no_hash x : no_hash (sign_text x).
Proof. unfold sign_text. destruct (Rltb x 0); [apply lit_no_hash; reflexivity|constructor]. Qed.
Lemma fixed_word_no_hash x : no_hash (fixed_word x).
Proof.
  unfold fixed_word. repeat match goal with |- no_hash (_ ++ _) => apply no_hash_app end; [apply sign_no_hash|apply digits_no_hash, dec_digits|apply lit_no_hash; reflexivity|apply digits_no_hash, fixed_digits].
Qed.
Lemma pad_no_hash n t : no_hash t -> no_hash (pad n t).
Proof. intros H. apply no_hash_app; [|assumption]. apply Forall_forall. intros c I. apply repeat_spec in I. subst. reflexivity. Qed.
Lemma concat_no_hash l : Forall no_hash l -> no_hash (concat l).
Proof. induction 1; cbn [concat]; [constructor|apply no_hash_app; assumption]. Qed.
Lemma line_no_hash t : no_hash t -> no_hash (line t).
Proof. intros H. apply no_hash_app; [assumption|]. repeat constructor. Qed.
Lemma sci_word_no_hash x : no_hash (sci_word "E" x).
Proof.
  unfold sci_word. repeat match goal with |- no_hash (_ ++ _) => apply no_hash_app end; [apply sign_no_hash| |apply lit_no_hash; reflexivity|apply digits_no_hash, fixed_digits|apply lit_no_hash; reflexivity|].
  - apply digits_no_hash. apply Forall_cons; [|constructor]. apply is_digit_digit. destruct (sci_parts_spec x) as [H _]. split; [apply Z.div_pos; lia|apply Z.div_lt_upper_bound; lia].
  - unfold exp_text, exp_sign, exp_digits. apply no_hash_app.
    + destruct (_ <? _); apply lit_no_hash; reflexivity.
    + apply digits_no_hash. destruct (_ <? _); [apply fixed_digits|apply dec_digits].
Qed.
Lemma pad_words_no_hash n l : Forall no_hash l -> no_hash (concat (map (pad n) l)).
Proof. intros H. apply concat_no_hash. apply Forall_map. eapply Forall_impl; [|exact H]. intros; apply pad_no_hash; assumption. Qed.

(** ** The lines *)

Definition pnl_vertex (p : Z * vec) : text := fmt_int 5 (fst p) ++ concat (map (fmt_fixed 18) (coordinates (snd p))).
Lemma pnl_vertex_split p : 0 <= fst p -> at_most 999999999 (vx (snd p)) /\ at_most 999999999 (vy (snd p)) /\ at_most 999999999 (vz (snd p)) ->
  split (before_hash (line (pnl_vertex p))) = dec (fst p) :: map fixed_word (coordinates (snd p)).
Proof.
  intros Hp H. rewrite before_hash_none.
  - unfold pnl_vertex. rewrite map_fmt_fixed. apply split_padded_head; [apply dec_word; assumption|apply fixed_words|].
    apply (fixed_row_length (snd p) 9); [lia|exact H].
  - apply line_no_hash. unfold pnl_vertex. rewrite map_fmt_fixed. apply no_hash_app; [apply pad_no_hash, digits_no_hash, dec_digits|].
    apply pad_words_no_hash. apply Forall_map. apply Forall_forall. intros; apply fixed_word_no_hash.
Qed.
Lemma pnl_vertex_one_line p : 0 <= fst p -> one_line (pnl_vertex p).
Proof.
  intros H. unfold pnl_vertex. rewrite map_fmt_fixed. apply one_line_app; [apply pad_one_line, word_one_line, dec_word; assumption|].
  apply pad_words_one_line, fixed_words.
Qed.

Lemma split_padded_heads w0 a w1 b width (l : list text) : is_word a -> is_word b -> (length b < w1)%nat -> Forall is_word l ->
  Forall (fun t => (length t < width)%nat) l -> split (line (pad w0 a ++ pad w1 b ++ concat (map (pad width) l))) = a :: b :: l.
Proof.
  intros A B Lb W L. unfold line. rewrite concat_pad.
  change (pad w0 a ++ pad w1 b ++ row_text (map (padded width) l)) with (pad w0 a ++ (pad w1 b ++ row_text (map (padded width) l))).
  change (pad w1 b ++ row_text (map (padded width) l)) with (row_text (padded w1 b :: map (padded width) l)).
  change (pad w0 a ++ row_text (padded w1 b :: map (padded width) l)) with (row_text (padded w0 a :: padded w1 b :: map (padded width) l)).
  rewrite split_row.
  - cbn [map snd padded]. do 2 f_equal. rewrite map_map. cbn. apply map_id.
  - constructor; [apply padded_sound; assumption|]. constructor; [apply padded_sound; assumption|]. apply Forall_forall. intros c H. apply in_map_iff in H.
    destruct H as (t & <- & H). apply padded_sound. rewrite Forall_forall in W. auto.
  - cbn [tl]. constructor; [apply padded_apart; assumption|]. apply Forall_forall. intros c H. apply in_map_iff in H. destruct H as (t & <- & H). apply padded_apart.
    rewrite Forall_forall in L. auto.
  - apply newline_blanks.
Qed.

Lemma forall_firstn {A} (P : A -> Prop) n l : Forall P l -> Forall P (firstn n l).
Proof. intros H. revert n. induction H; intros [|n]; cbn; constructor; auto. Qed.
Lemma dec_3 : (length (dec 3) < 5)%nat. Proof. vm_compute. lia. Qed.
Lemma dec_4 : (length (dec 4) < 5)%nat. Proof. vm_compute. lia. Qed.

Definition pnl_words (p : Z * face) : list Z :=
  if Nat.eqb (fc (snd p)) (fd (snd p)) then fst p :: 3 :: firstn 3 (face_row (snd p)) else fst p :: 4 :: face_row (snd p).
Lemma pnl_words_nonneg p : 0 <= fst p -> Forall (fun z => 0 <= z) (pnl_words p).
Proof.
  intros H. unfold pnl_words. destruct (Nat.eqb _ _); (constructor; [assumption|]; constructor; [lia|]); [apply forall_firstn|]; apply face_row_nonneg.
Qed.
Lemma pnl_face_split m p : valid m -> In (snd p) (m_faces m) -> Z.of_nat (nb_vertices m) < 10 ^ 9 -> 0 <= fst p ->
  split (line (pnl_face p)) = map dec (pnl_words p).
Proof.
  intros Va Hf NB Hp. pose proof (face_row_length m (snd p) 9 Va Hf NB ltac:(lia)) as L.
  assert (W : Forall is_word (map dec (face_row (snd p)))) by (apply dec_words, face_row_nonneg).
  destruct p as [i f]. unfold pnl_face, pnl_words. cbn [fst snd] in *. destruct (Nat.eqb (fc f) (fd f)).
  - change (map dec (i :: 3 :: firstn 3 (face_row f))) with (dec i :: dec 3 :: map dec (firstn 3 (face_row f))). rewrite map_fmt_int.
    rewrite <- (firstn_map dec). apply split_padded_heads;
      [apply dec_word; lia|apply dec_word; lia|apply dec_3| |]; apply forall_firstn; assumption.
  - cbn [map]. rewrite map_fmt_int. apply split_padded_heads; [apply dec_word; lia|apply dec_word; lia|apply dec_4|assumption|assumption].
Qed.
Lemma pnl_face_one_line p : 0 <= fst p -> one_line (pnl_face p).
Proof.
  destruct p as [i f]. cbn [fst]. intros H. unfold pnl_face.
  destruct (Nat.eqb (fc f) (fd f)); (apply one_line_app; [apply pad_one_line, dec_line_one_line; lia|]; apply one_line_app; [apply pad_one_line, dec_line_one_line; lia|]).
  - apply zeros_one_line, forall_firstn, face_row_nonneg.
  - apply zeros_one_line, face_row_nonneg.
Qed.

Lemma pnl_faces_block m fs : forall k rest, valid m -> (forall f, In f fs -> In f (m_faces m)) -> Z.of_nat (nb_vertices m) < 10 ^ 9 ->
  pnl_faces (Z.of_nat k) (length fs) (map (fun p => line (pnl_face p)) (combine (map Z.of_nat (seq (S k) (length fs))) fs) ++ rest) = Ok (map face_row fs).
Proof.
  induction fs as [|f fs IH]; intros k rest Va H NB; [reflexivity|].
  cbn [length seq map combine app pnl_faces readline]. unfold ints.
  rewrite (pnl_face_split m) by (try assumption; try apply H; cbn [fst snd]; try lia; left; reflexivity).
  rewrite mapM_dec by (apply pnl_words_nonneg; cbn [fst]; lia). cbn [bind].
  replace (Z.of_nat k + 1) with (Z.of_nat (S k)) by lia.
  specialize (IH (S k) rest Va (fun g Hg => H g (or_intror Hg)) NB).
  unfold pnl_words. cbn [fst snd]. destruct (Nat.eqb_spec (fc f) (fd f)) as [E|E]; rewrite Z.eqb_refl; cbn [negb].
  - unfold face_row at 1. cbn [face_ids map firstn]. cbn [Z.eqb Pos.eqb]. cbn [bind]. rewrite IH. cbn [bind].
    unfold face_row at 2. cbn [face_ids map]. rewrite E. reflexivity.
  - unfold face_row at 1. cbn [face_ids map]. cbn [Z.eqb Pos.eqb]. cbn [bind]. rewrite IH. reflexivity.
Qed.

Lemma genfromtxt_pnl vs : forall k, (forall v, In v vs -> at_most 999999999 (vx v) /\ at_most 999999999 (vy v) /\ at_most 999999999 (vz v)) ->
  exists ws,
  mapM (fun ws => match ws with _ :: x :: y :: z :: _ => mapM float_of [x; y; z] | _ => Err ValueError end)
    (filter (fun ws => match ws with [] => false | _ => true end)
       (map (fun l => split (before_hash l)) (map (fun p => line (pnl_vertex p)) (combine (map Z.of_nat (seq (S k) (length vs))) vs)))) = Ok (map coordinates ws)
  /\ Forall2 (close six_decimals) vs ws.
Proof.
  induction vs as [|v vs IH]; intros k H.
  - exists []. split; [reflexivity|constructor].
  - destruct (IH (S k)) as (ws & E & N); [intros; apply H; right; assumption|].
    destruct (mapM_words fixed_word six_decimals fixed_near (coordinates v)) as (r & Er & Nr).
    apply row_near_shape in Nr. destruct Nr as (w & -> & Nw). exists (w :: ws). split; [|constructor; assumption].
    cbn [length seq map combine]. rewrite pnl_vertex_split by (cbn [fst snd]; try lia; apply H; left; reflexivity).
    cbn [filter fst snd]. change (map fixed_word (coordinates v)) with [fixed_word (vx v); fixed_word (vy v); fixed_word (vz v)] in *.
    match goal with |- mapM ?g (?x :: ?l) = _ => change (mapM g (x :: l)) with (bind (g x) (fun y => bind (mapM g l) (fun ys => Ok (y :: ys)))) end.
    cbv beta. cbn iota. rewrite Er. cbn [bind]. rewrite E. reflexivity.
Qed.

Lemma header_pnl a b : 0 <= a -> 0 <= b ->
  split (line (lit "         " ++ dec a ++ lit "         " ++ dec b ++ lit "         0         0")) = [dec a; dec b; lit "0"; lit "0"].
Proof.
  intros A B. unfold line.
  replace (lit "         " ++ dec a ++ lit "         " ++ dec b ++ lit "         0         0")
    with (row_text [(repeat space 9, dec a); (repeat space 9, dec b); (repeat space 9, lit "0"); (repeat space 9, lit "0")]).
  - rewrite split_row; [reflexivity| | |apply newline_blanks].
    + repeat (apply Forall_cons || apply Forall_nil); (split; [apply repeat_blanks|]); try (apply dec_word; assumption); split; repeat constructor; discriminate.
    + cbn [tl]. repeat (apply Forall_cons || apply Forall_nil); discriminate.
  - unfold row_text. cbn [map concat fst snd]. rewrite <- !app_assoc. reflexivity.
Qed.
Lemma header_line a b : 0 <= a -> 0 <= b -> one_line (lit "         " ++ dec a ++ lit "         " ++ dec b ++ lit "         0         0").
Proof. intros. repeat match goal with |- one_line (_ ++ _) => apply one_line_app end; first [apply dec_line_one_line; assumption | apply lit_one_line; reflexivity]. Qed.

Lemma numbered_length {A} (l : list A) : length (numbered l) = length l.
Proof. unfold numbered. rewrite combine_length, map_length, seq_length. apply Nat.min_id. Qed.

Lemma pnl_readlines m : exists a b c d e f g h tail,
  readlines (write_PNL m) =
  [a; b; c] ++ line (lit "         " ++ dec (Z.of_nat (nb_faces m)) ++ lit "         " ++ dec (Z.of_nat (nb_vertices m)) ++ lit "         0         0") ::
  [d; e] ++ map (fun p => line (pnl_vertex p)) (numbered (m_vertices m)) ++ [f; g; h] ++
  map (fun p => line (pnl_face p)) (numbered (m_faces m)) ++ tail.
Proof.
  do 9 eexists. unfold write_PNL.
  do 3 (rewrite readlines_one by (first [apply lit_one_line; reflexivity | constructor])).
  rewrite readlines_one by (apply header_line; lia).
  do 2 (rewrite readlines_one by (first [apply lit_one_line; reflexivity | constructor])).
  rewrite (readlines_block pnl_vertex) by (intros p Hp; apply pnl_vertex_one_line; pose proof (in_numbered_range _ _ Hp); lia).
  do 3 (rewrite readlines_one by (first [apply lit_one_line; reflexivity | constructor])).
  rewrite (readlines_block pnl_face) by (intros p Hp; apply pnl_face_one_line; pose proof (in_numbered_range _ _ Hp); lia).
  cbn [app]. reflexivity.
Qed.

Lemma firstn_block {A} (l rest : list A) n : length l = n -> firstn n (l ++ rest) = l.
Proof. intros <-. rewrite firstn_app, Nat.sub_diag, firstn_all. apply app_nil_r. Qed.
Lemma skipn_block {A} (l rest : list A) n : length l = n -> skipn n (l ++ rest) = rest.
Proof. intros <-. rewrite skipn_app, Nat.sub_diag, skipn_all. reflexivity. Qed.

Lemma pnl_round_trip m : valid m -> nb_vertices m <> 1%nat -> Z.of_nat (nb_vertices m) < 10 ^ 9 -> coordinates_are (at_most 999999999) m ->
  exists m', load_PNL (write_PNL m) = Ok (Leaf m') /\ same_mesh six_decimals m m'.
Proof.
  intros Va N1 NB Co. destruct (pnl_readlines m) as (a & b & c & d & e & f & g & h & tail & E). unfold load_PNL. rewrite E. clear E.
  unfold skip_lines. cbn [app skipn readline]. unfold ints. rewrite header_pnl by lia.
  change [dec ?x; dec ?y; lit "0"; lit "0"] with (map dec [x; y; 0; 0]).
  rewrite mapM_dec by (repeat (apply Forall_cons || apply Forall_nil); lia). cbn [bind].
  unfold times. rewrite !Nat2Z.id. cbn [skipn]. unfold nb_vertices at 1 2.
  rewrite firstn_block by (rewrite map_length; apply numbered_length). rewrite skipn_block by (rewrite map_length; apply numbered_length). cbn [skipn].
  unfold genfromtxt_columns. cbv zeta. destruct (genfromtxt_pnl (m_vertices m) 0 Co) as (ws & Ew & Nw).
  unfold numbered at 1. rewrite Ew. cbn [bind].
  assert (Lw : length ws <> 1%nat) by (rewrite <- (f2_len _ _ _ Nw); exact N1).
  replace (match map coordinates ws with [_] => Err IndexError | _ => Ok (map coordinates ws) end) with (Ok (map coordinates ws)).
  2: { destruct ws as [|w0 [|w1 ws']]; try reflexivity. exfalso. apply Lw. reflexivity. }
  cbn [bind]. replace (Z.of_nat (nb_faces m) <? 0) with false by (symmetry; apply Z.ltb_ge; lia). cbn [bind].
  unfold nb_faces, numbered. change 0 with (Z.of_nat 0) at 1. rewrite (pnl_faces_block m) by auto. cbn [bind].
  rewrite (new_mesh_rows six_decimals) by assumption. cbn [bind Z.eqb andb]. eexists. split; [reflexivity|]. split; [exact Nw|reflexivity].
Qed.
Lemma pnl_single_vertex m : valid m -> nb_vertices m = 1%nat -> coordinates_are (at_most 999999999) m ->
  load_PNL (write_PNL m) = Err IndexError.
Proof.
  intros Va N1 Co. destruct (pnl_readlines m) as (a & b & c & d & e & f & g & h & tail & E). unfold load_PNL. rewrite E. clear E.
  unfold skip_lines. cbn [app skipn readline]. unfold ints. rewrite header_pnl by lia.
  change [dec ?x; dec ?y; lit "0"; lit "0"] with (map dec [x; y; 0; 0]).
  rewrite mapM_dec by (repeat (apply Forall_cons || apply Forall_nil); lia). cbn [bind].
  unfold times. rewrite !Nat2Z.id. cbn [skipn]. unfold nb_vertices at 1 2.
  rewrite firstn_block by (rewrite map_length; apply numbered_length).
  unfold genfromtxt_columns. cbv zeta. destruct (genfromtxt_pnl (m_vertices m) 0 Co) as (ws & Ew & Nw).
  unfold numbered at 1. rewrite Ew. cbn [bind].
  assert (Lw : length ws = 1%nat) by (rewrite <- (f2_len _ _ _ Nw); exact N1).
  destruct ws as [|w0 [|w1 ws']]; try discriminate. reflexivity.
Qed.
