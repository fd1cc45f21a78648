(** Lemmas about Model_Files: rows, blocks of lines, and the formats NEM and MAR. *)
From Coq Require Import Reals String Ascii.
From Coq Require Import List Bool ZArith Arith Lia Lra.
From Verif Require Import Model_Base Model_Geometry Model_Mesh Model_Tree Model_Text Spec_Files Proofs_Text Proofs_Text2 Model_Files.
Import ListNotations.
Open Scope Z_scope.

Lemma pow10_6 : (/ 2 * pow10 (-6) = 5 / 10 ^ 7)%R.
Proof.
  assert (A : pow10 (-6) = (/ pow10 6)%R) by (change (-6) with (- (6)); apply Raux.bpow_opp).
  rewrite A, pow10_IZR by lia. change (10 ^ 6) with 1000000. lra.
Qed.

Definition parse_relation {A B} (parse : B -> result A) (P : A -> Prop) (t : B) : Prop := exists y, parse t = Ok y /\ P y.

Lemma newline_blanks : blanks [newline]. Proof. repeat constructor. Qed.

(** ** Rows *)

Lemma concat_pad width l : concat (map (pad width) l) = row_text (map (padded width) l).
Proof. unfold row_text. rewrite map_map. reflexivity. Qed.

Lemma split_padded width (l : list text) : Forall is_word l -> Forall (fun t => (length t < width)%nat) (tl l) ->
  split (line (concat (map (pad width) l))) = l.
Proof.
  intros W L. unfold line. rewrite concat_pad, split_row.
  - rewrite map_map. cbn. apply map_id.
  - apply Forall_forall. intros c H. apply in_map_iff in H. destruct H as (t & <- & H). apply padded_sound.
    rewrite Forall_forall in W. auto.
  - replace (tl (map (padded width) l)) with (map (padded width) (tl l)) by (destruct l; reflexivity).
    apply Forall_forall. intros c H. apply in_map_iff in H. destruct H as (t & <- & H). apply padded_apart.
    rewrite Forall_forall in L. auto.
  - apply newline_blanks.
Qed.

Lemma split_padded_head w0 first width (l : list text) : is_word first -> Forall is_word l -> Forall (fun t => (length t < width)%nat) l ->
  split (line (pad w0 first ++ concat (map (pad width) l))) = first :: l.
Proof.
  intros F W L. unfold line. rewrite concat_pad. change (pad w0 first ++ row_text (map (padded width) l)) with (row_text (padded w0 first :: map (padded width) l)).
  rewrite split_row.
  - cbn [map snd padded]. f_equal. rewrite map_map. cbn. apply map_id.
  - constructor; [apply padded_sound; assumption|]. apply Forall_forall. intros c H. apply in_map_iff in H.
    destruct H as (t & <- & H). apply padded_sound. rewrite Forall_forall in W. auto.
  - cbn [tl]. apply Forall_forall. intros c H. apply in_map_iff in H. destruct H as (t & <- & H). apply padded_apart.
    rewrite Forall_forall in L. auto.
  - apply newline_blanks.
Qed.

Lemma split_tabbed width (l : list text) : Forall is_word l -> split (line (tabbed (map (pad width) l))) = l.
Proof.
  intros W. unfold line. destruct l as [|t l]; [reflexivity|].
  cbn [map tabbed].
  replace (pad width t ++ concat (map (fun u => tab :: u) (map (pad width) l)))
    with (row_text (padded width t :: map (fun u => (tab :: fst (padded width u), u)) l)).
  - rewrite split_row.
    + cbn [map snd padded]. f_equal. rewrite map_map. cbn. apply map_id.
    + inversion W; subst. constructor; [apply padded_sound; assumption|]. apply Forall_forall. intros c H.
      apply in_map_iff in H. destruct H as (u & <- & H). split; cbn [fst snd].
      * constructor; [reflexivity|apply repeat_blanks].
      * rewrite Forall_forall in H2. auto.
    + cbn [tl]. apply Forall_forall. intros c H. apply in_map_iff in H. destruct H as (u & <- & H). discriminate.
    + apply newline_blanks.
  - unfold row_text. cbn [map concat]. f_equal. rewrite !map_map. reflexivity.
Qed.

Lemma map_fmt_int width l : map (fmt_int width) l = map (pad width) (map dec l).
Proof. rewrite map_map. reflexivity. Qed.
Lemma map_fmt_fixed width l : map (fmt_fixed width) l = map (pad width) (map fixed_word l).
Proof. rewrite map_map. apply map_ext. intros. apply fmt_fixed_word. Qed.
Lemma map_fmt_sci s width l : map (fmt_sci s width) l = map (pad width) (map (sci_word s) l).
Proof. rewrite map_map. apply map_ext. intros. apply fmt_sci_word. Qed.

Lemma dec_words l : Forall (fun z => 0 <= z) l -> Forall is_word (map dec l).
Proof. intros H. apply Forall_forall. intros t K. apply in_map_iff in K. destruct K as (z & <- & K). apply dec_word. rewrite Forall_forall in H. auto. Qed.
Lemma fixed_words l : Forall is_word (map fixed_word l).
Proof. apply Forall_forall. intros t K. apply in_map_iff in K. destruct K as (z & <- & K). apply fixed_word_is_word. Qed.
Lemma sci_words l : Forall is_word (map (sci_word "E") l).
Proof. apply Forall_forall. intros t K. apply in_map_iff in K. destruct K as (z & <- & K). apply sci_word_is_word. auto. Qed.

Lemma mapM_dec l : Forall (fun z => 0 <= z) l -> mapM int_of (map dec l) = Ok l.
Proof. induction 1 as [|z l Hz Hl IH]; cbn [map mapM]; [reflexivity|]. rewrite int_of_dec, IH by assumption. reflexivity. Qed.
Lemma mapM_words (word : R -> text) (near : R -> R -> Prop) :
  (forall x, exists v, float_of (word x) = Ok v /\ near x v) ->
  forall l, exists vs, mapM float_of (map word l) = Ok vs /\ Forall2 near l vs.
Proof.
  intros H l. induction l as [|x l IH]; cbn [map mapM].
  - exists []. split; [reflexivity|constructor].
  - destruct (H x) as (v & E & N). destruct IH as (vs & Es & Ns). exists (v :: vs). rewrite E, Es. cbn [bind].
    split; [reflexivity|constructor; assumption].
Qed.
Lemma fixed_near x : exists v, float_of (fixed_word x) = Ok v /\ six_decimals x v.
Proof. destruct (fixed_word_value x) as (v & E & N). exists v. split; [assumption|]. unfold six_decimals. rewrite <- pow10_6. exact N. Qed.
Lemma sci_near l x : l = "E"%string \/ l = "e"%string -> exists v, float_of (sci_word l x) = Ok v /\ seven_digits x v.
Proof.
  intros L. destruct (sci_word_value l x L) as (v & E & N). exists v. split; [assumption|]. unfold seven_digits.
  rewrite <- pow10_6. exact N.
Qed.

Lemma face_row_nonneg f : Forall (fun z => 0 <= z) (face_row f).
Proof. unfold face_row. cbn. repeat (apply Forall_cons || apply Forall_nil); lia. Qed.

(** A row of three coordinates. *)
Definition row_near (near : R -> R -> Prop) (v : vec) (row : list R) : Prop := Forall2 near (coordinates v) row.
Lemma row_near_shape near v row : row_near near v row -> exists w, row = coordinates w /\ close near v w.
Proof.
  unfold row_near, coordinates. intros H. inversion H as [|? a ? r1 Ha H1]; subst.
  inversion H1 as [|? b ? r2 Hb H2]; subst. inversion H2 as [|? c ? r3 Hc H3]; subst. inversion H3; subst.
  exists (V a b c). repeat split; assumption.
Qed.

(** ** Blocks of lines *)

Lemma readlines_block {A} (g : A -> text) l rest : (forall x, In x l -> one_line (g x)) ->
  readlines (concat (map (fun x => line (g x)) l) ++ rest) = map (fun x => line (g x)) l ++ readlines rest.
Proof.
  induction l as [|x l IH]; intros H; cbn [map concat app]; [reflexivity|].
  unfold line at 1. rewrite <- !app_assoc. cbn [app]. rewrite readlines_line by (apply H; left; reflexivity).
  rewrite IH by (intros; apply H; right; assumption). reflexivity.
Qed.
Lemma readlines_one t rest : one_line t -> readlines (line t ++ rest) = line t :: readlines rest.
Proof. intros H. unfold line. rewrite <- app_assoc. apply readlines_line. assumption. Qed.

Lemma read_rows_block {A B} (parse : text -> result B) (g : A -> text) (P : A -> B -> Prop) l rest :
  (forall x, In x l -> exists y, parse (line (g x)) = Ok y /\ P x y) ->
  exists ys, read_rows parse (length l) (map (fun x => line (g x)) l ++ rest) = Ok (ys, rest) /\ Forall2 P l ys.
Proof.
  induction l as [|x l IH]; intros H; cbn [length map app read_rows].
  - exists []. split; [reflexivity|constructor].
  - destruct (H x (or_introl eq_refl)) as (y & E & Py). destruct IH as (ys & Es & Pys); [intros; apply H; right; assumption|].
    exists (y :: ys). cbn [readline]. rewrite E. cbn [bind]. rewrite Es. cbn [bind fst snd].
    split; [reflexivity|constructor; assumption].
Qed.

Lemma pad_words_one_line width l : Forall is_word l -> one_line (concat (map (pad width) l)).
Proof.
  intros H. apply concat_one_line. apply Forall_forall. intros t K. apply in_map_iff in K. destruct K as (u & <- & K).
  apply pad_one_line, word_one_line. rewrite Forall_forall in H. auto.
Qed.
Lemma tabbed_one_line width l : Forall is_word l -> one_line (tabbed (map (pad width) l)).
Proof.
  intros H. destruct l as [|t l]; [constructor|]. cbn [map tabbed]. inversion H; subst.
  apply one_line_app; [apply pad_one_line, word_one_line; assumption|].
  apply concat_one_line. apply Forall_forall. intros u K. rewrite map_map in K. apply in_map_iff in K. destruct K as (w & <- & K).
  constructor; [reflexivity|]. apply pad_one_line, word_one_line. rewrite Forall_forall in H3. auto.
Qed.

(** ** The constructor of meshes *)

Lemma all_length_forall {A} n (rows : list (list A)) : (forall r, In r rows -> length r = n) -> all_length n rows = true.
Proof. intros H. apply forallb_forall. intros r K. apply Nat.eqb_eq. auto. Qed.
Lemma same_lengths_forall {A} n (rows : list (list A)) : (forall r, In r rows -> length r = n) -> same_lengths rows = true.
Proof.
  intros H. destruct rows as [|r rows]; [reflexivity|]. cbn [same_lengths]. rewrite (H r (or_introl eq_refl)).
  apply all_length_forall. exact H.
Qed.

Lemma rows_shape near vs rows : Forall2 (row_near near) vs rows ->
  exists ws, rows = map coordinates ws /\ Forall2 (close near) vs ws.
Proof.
  induction 1 as [|v row vs rows H _ (ws & -> & W)].
  - exists []. split; [reflexivity|constructor].
  - apply row_near_shape in H. destruct H as (w & -> & N). exists (w :: ws). split; [reflexivity|constructor; assumption].
Qed.
Lemma row_vec_coordinates w : row_vec (coordinates w) = w.
Proof. destruct w. reflexivity. Qed.
Lemma minus_one_rows fs : minus_one (map face_row fs) = map (fun f => map Z.of_nat (face_ids f)) fs.
Proof.
  unfold minus_one. rewrite map_map. apply map_ext. intros f. unfold face_row. rewrite map_map. apply map_ext. intros. lia.
Qed.
Lemma row_face_row f : row_face (map Z.of_nat (face_ids f)) = f.
Proof. destruct f. unfold row_face; cbn -[Z.of_nat Z.to_nat]. rewrite !Nat2Z.id. reflexivity. Qed.

Lemma np_array_coordinates ws : np_array (map coordinates ws) = Ok (map coordinates ws).
Proof.
  unfold np_array. rewrite (same_lengths_forall 3); [reflexivity|]. intros r H. apply in_map_iff in H. destruct H as (w & <- & _). reflexivity.
Qed.
Lemma np_array_faces fs : np_array (map face_row fs) = Ok (map face_row fs).
Proof.
  unfold np_array. rewrite (same_lengths_forall 4); [reflexivity|]. intros r H. apply in_map_iff in H. destruct H as (w & <- & _). reflexivity.
Qed.

Lemma new_mesh_ids ws fs : (forall f i, In f fs -> In i (face_ids f) -> (i < length ws)%nat) ->
  new_mesh (map coordinates ws) (map (fun f => map Z.of_nat (face_ids f)) fs) = Ok (Mesh ws fs).
Proof.
  intros H. unfold new_mesh.
  rewrite (same_lengths_forall 3) by (intros r K; apply in_map_iff in K; destruct K as (w & <- & _); reflexivity).
  rewrite (all_length_forall 3) by (intros r K; apply in_map_iff in K; destruct K as (w & <- & _); reflexivity).
  rewrite (same_lengths_forall 4) by (intros r K; apply in_map_iff in K; destruct K as (w & <- & _); reflexivity).
  rewrite (all_length_forall 4) by (intros r K; apply in_map_iff in K; destruct K as (w & <- & _); reflexivity).
  cbn [negb].
  replace (forallb _ _) with true at 1.
  2: { symmetry. apply forallb_forall. intros r K. apply in_map_iff in K. destruct K as (f & <- & K).
       apply forallb_forall. intros z Kz. apply in_map_iff in Kz. destruct Kz as (i & <- & _). apply Z.leb_le. lia. }
  cbn [negb].
  replace (forallb _ _) with true.
  2: { symmetry. apply forallb_forall. intros r K. apply in_map_iff in K. destruct K as (f & <- & K).
       apply forallb_forall. intros z Kz. apply in_map_iff in Kz. destruct Kz as (i & <- & Ki). apply Z.leb_le.
       rewrite map_length. specialize (H f i K Ki). lia. }
  cbn [negb]. rewrite !map_map. f_equal. f_equal.
  - rewrite <- (map_id ws) at 2. apply map_ext. apply row_vec_coordinates.
  - rewrite <- (map_id fs) at 2. apply map_ext. apply row_face_row.
Qed.
Lemma f2_len {A B} (P : A -> B -> Prop) l l' : Forall2 P l l' -> length l = length l'.
Proof. induction 1; cbn; congruence. Qed.
Lemma f2_map {A B} (g : A -> B) l l' : Forall2 (fun x y => y = g x) l l' -> l' = map g l.
Proof. induction 1 as [|x y l l' E _ IH]; [reflexivity|]. cbn [map]. rewrite E, IH. reflexivity. Qed.
Lemma new_mesh_rows near m ws : valid m -> Forall2 (close near) (m_vertices m) ws ->
  new_mesh (map coordinates ws) (minus_one (map face_row (m_faces m))) = Ok (Mesh ws (m_faces m)).
Proof.
  intros Va H. rewrite minus_one_rows. apply new_mesh_ids. intros f i Hf Hi. rewrite <- (f2_len _ _ _ H). exact (Va f i Hf Hi).
Qed.

(** ** NEM *)

Lemma dec_line_one_line z : 0 <= z -> one_line (dec z).
Proof. intros. apply word_one_line, dec_word. assumption. Qed.

Lemma nem_round_trip m : valid m -> exists m', load_NEM (write_NEM m) = Ok (Leaf m') /\ same_mesh six_decimals m m'.
Proof.
  intros Va. unfold load_NEM, write_NEM.
  rewrite !readlines_one by (apply dec_line_one_line; lia). cbn [readline].
  assert (I : forall z, 0 <= z -> int_of (line (dec z)) = Ok z).
  { intros z Hz. apply (int_of_dec_blanks [] z [newline]); [constructor|apply newline_blanks|assumption]. }
  rewrite (I (Z.of_nat (nb_vertices m))) by lia. cbn [bind]. rewrite (I (Z.of_nat (nb_faces m))) by lia. cbn [bind]. unfold times. rewrite !Nat2Z.id.
  rewrite readlines_block.
  2: { intros v _. rewrite map_fmt_fixed. apply tabbed_one_line, fixed_words. }
  rewrite <- (app_nil_r (concat _)). rewrite readlines_block.
  2: { intros f _. rewrite map_fmt_int. apply tabbed_one_line, dec_words, face_row_nonneg. }
  rewrite readlines_nil.
  destruct (read_rows_block floats (fun v => tabbed (map (fmt_fixed 15) (coordinates v))) (row_near six_decimals) (m_vertices m)
             (map (fun f => line (tabbed (map (fmt_int 10) (face_row f)))) (m_faces m) ++ [])) as (rows & Er & Nr).
  { intros v _. unfold floats. rewrite map_fmt_fixed, split_tabbed by apply fixed_words. apply mapM_words. apply fixed_near. }
  unfold nb_vertices, nb_faces. rewrite Er. cbn [bind fst snd].
  apply rows_shape in Nr. destruct Nr as (ws & -> & Nr). rewrite np_array_coordinates. cbn [bind].
  destruct (read_rows_block ints (fun f => tabbed (map (fmt_int 10) (face_row f))) (fun f r => r = face_row f) (m_faces m) [])
    as (rows & Ef & Nf).
  { intros f _. exists (face_row f). split; [|reflexivity]. unfold ints.
    rewrite map_fmt_int, split_tabbed by apply dec_words, face_row_nonneg. apply mapM_dec, face_row_nonneg. }
  rewrite Ef. cbn [bind fst snd].
  assert (rows = map face_row (m_faces m)) as ->.
  { apply f2_map. exact Nf. }
  rewrite np_array_faces. cbn [bind]. rewrite (new_mesh_rows six_decimals) by assumption. cbn [bind].
  eexists. split; [reflexivity|]. split; [exact Nr|reflexivity].
Qed.
