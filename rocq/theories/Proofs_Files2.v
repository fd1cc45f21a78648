(** The formats MAR. *)
From Coq Require Import Reals String Ascii.
From Coq Require Import List Bool ZArith Arith Lia Lra.
From Verif Require Import Model_Base Model_Geometry Model_Mesh Model_Tree Model_Text Spec_Files Proofs_Text Proofs_Text2 Model_Files Proofs_Files.
Import ListNotations.
Open Scope Z_scope.

Lemma numbered_cons {A} (P : Z * A -> Prop) (l : list A) : (forall i x, 0 <= i -> In x l -> P (i + 1, x)) -> Forall P (numbered l).
Proof.
  intros H. unfold numbered. apply Forall_forall. intros [i x] K.
  pose proof (in_combine_l _ _ _ _ K) as K1. pose proof (in_combine_r _ _ _ _ K) as K2.
  apply in_map_iff in K1. destruct K1 as (n & <- & K1). apply in_seq in K1.
  replace (Z.of_nat n) with ((Z.of_nat n - 1) + 1) by lia. apply H; [lia|assumption].
Qed.
Lemma numbered_snd {A} (l : list A) : map snd (numbered l) = l.
Proof.
  unfold numbered. assert (E : length (map Z.of_nat (seq 1 (length l))) = length l) by (rewrite map_length, seq_length; reflexivity).
  remember (map Z.of_nat (seq 1 (length l))) as s eqn:Es. clear Es. revert s E.
  induction l as [|x l IH]; intros [|a s] E; try discriminate; [reflexivity|]. cbn. f_equal. apply IH. cbn in E. congruence.
Qed.

Lemma in_numbered_range {A} (l : list A) p : In p (numbered l) -> 1 <= fst p.
Proof.
  intros H. assert (F : Forall (fun p => 1 <= fst p) (numbered l)) by (apply numbered_cons; intros; cbn; lia).
  rewrite Forall_forall in F. auto.
Qed.
Lemma in_numbered_in {A} (l : list A) p : In p (numbered l) -> In (snd p) l.
Proof. intros H. rewrite <- (numbered_snd l). apply in_map. assumption. Qed.

Lemma text_eqb_refl t : text_eqb t t = true.
Proof. unfold text_eqb. destruct (list_eq_dec ascii_dec t t); [reflexivity|contradiction]. Qed.
Lemma text_eqb_neq t u : t <> u -> text_eqb t u = false.
Proof. intros N. unfold text_eqb. destruct (list_eq_dec ascii_dec t u); [contradiction|reflexivity]. Qed.
Lemma dec_not_zero z : 1 <= z -> text_eqb (dec z) (lit "0") = false.
Proof.
  intros H. apply text_eqb_neq. intros E. apply (f_equal nat_value) in E. rewrite nat_value_dec in E by lia.
  change (nat_value (lit "0")) with (Some 0) in E. injection E. lia.
Qed.

Lemma read_until_zero_block {A B} (parse : list text -> result B) (g : A -> text) (P : A -> B -> Prop) l last rest :
  (forall x, In x l -> exists w ws y, split (line (g x)) = w :: ws /\ text_eqb w (lit "0") = false /\ parse (w :: ws) = Ok y /\ P x y) ->
  (exists ws, split last = lit "0" :: ws) ->
  exists ys, read_until_zero parse (map (fun x => line (g x)) l ++ last :: rest) = Ok (ys, rest) /\ Forall2 P l ys.
Proof.
  intros H (ws0 & L). induction l as [|x l IH]; cbn [map app read_until_zero].
  - exists []. rewrite L. change (text_eqb (lit "0") (lit "0")) with true. split; [reflexivity|constructor].
  - destruct (H x (or_introl eq_refl)) as (w & ws & y & S & Z & E & Py).
    destruct IH as (ys & Es & Pys); [intros; apply H; right; assumption|].
    exists (y :: ys). rewrite S, Z, E. cbn [bind]. rewrite Es. cbn [bind fst snd]. split; [reflexivity|constructor; assumption].
Qed.

Lemma join_lines_block {A} (g : A -> text) (l : list A) : l <> [] -> line (join_lines (map g l)) = concat (map (fun x => line (g x)) l).
Proof.
  induction l as [|x l IH]; [contradiction|]. intros _. destruct l as [|y l].
  - cbn. rewrite app_nil_r. reflexivity.
  - change (join_lines (map g (x :: y :: l))) with (g x ++ newline :: join_lines (map g (y :: l))).
    cbn [map concat]. cbn [map concat] in IH. rewrite <- IH by discriminate. unfold line. rewrite <- !app_assoc. reflexivity.
Qed.

(** The rows of the faces, in columns. *)
Lemma face_row_length m f width : valid m -> In f (m_faces m) -> Z.of_nat (nb_vertices m) < 10 ^ Z.of_nat width -> (1 <= width)%nat ->
  Forall (fun t => (length t < S width)%nat) (map dec (face_row f)).
Proof.
  intros Va Hf B W. apply Forall_forall. intros t K. apply in_map_iff in K. destruct K as (z & <- & K).
  unfold face_row in K. apply in_map_iff in K. destruct K as (i & <- & K). specialize (Va f i Hf K).
  apply Nat.lt_succ_r. apply dec_length; [lia|assumption].
Qed.
Lemma face_row_split m f : valid m -> In f (m_faces m) -> Z.of_nat (nb_vertices m) < 10 ^ 9 ->
  split (line (concat (map (fmt_int 10) (face_row f)))) = map dec (face_row f).
Proof.
  intros Va Hf B. rewrite map_fmt_int. apply split_padded.
  - apply dec_words, face_row_nonneg.
  - pose proof (face_row_length m f 9 Va Hf ltac:(exact B) ltac:(lia)) as K. destruct (map dec (face_row f)); [constructor|].
    inversion K; assumption.
Qed.
Lemma face_lines_one_line f : one_line (concat (map (fmt_int 10) (face_row f))).
Proof. rewrite map_fmt_int. apply pad_words_one_line, dec_words, face_row_nonneg. Qed.
Lemma face_row_head f : exists z l, face_row f = z :: l /\ 1 <= z.
Proof. unfold face_row. cbn [face_ids map]. do 2 eexists. split; [reflexivity|]. lia. Qed.

Lemma fixed_row_length v k : (1 <= k)%nat -> at_most (IZR (10 ^ Z.of_nat k - 1)) (vx v) /\ at_most (IZR (10 ^ Z.of_nat k - 1)) (vy v) /\ at_most (IZR (10 ^ Z.of_nat k - 1)) (vz v) ->
  Forall (fun t => (length t < k + 9)%nat) (map fixed_word (coordinates v)).
Proof.
  intros K (X & Y & Z). unfold coordinates. cbn [map].
  repeat (apply Forall_cons || apply Forall_nil); apply (Nat.le_lt_trans _ (k + 8)); try lia; apply fixed_word_length; assumption.
Qed.

(** ** MAR *)

Lemma zeros_one_line n l : Forall (fun z => 0 <= z) l -> one_line (concat (map (fmt_int n) l)).
Proof. intros. rewrite map_fmt_int. apply pad_words_one_line, dec_words. assumption. Qed.

Section Mar.
  Variable m : mesh.
  Hypothesis Hvertices : coordinates_are (at_most 9999999) m.

  Definition mar_vertex (p : Z * vec) : text := fmt_int 6 (fst p) ++ concat (map (fmt_fixed 16) (coordinates (snd p))).
  Lemma mar_vertex_split p : In p (numbered (m_vertices m)) ->
    split (line (mar_vertex p)) = dec (fst p) :: map fixed_word (coordinates (snd p)).
  Proof.
    intros H. unfold mar_vertex. rewrite map_fmt_fixed. pose proof (in_numbered_range _ _ H).
    apply split_padded_head; [apply dec_word; lia|apply fixed_words|].
    apply (fixed_row_length (snd p) 7); [lia|]. change (10 ^ Z.of_nat 7 - 1) with 9999999. apply Hvertices.
    apply in_numbered_in. assumption.
  Qed.
  Lemma mar_vertex_line p : In p (numbered (m_vertices m)) -> one_line (mar_vertex p).
  Proof.
    intros H. unfold mar_vertex. rewrite map_fmt_fixed. pose proof (in_numbered_range _ _ H). apply one_line_app.
    - apply pad_one_line, word_one_line, dec_word. lia.
    - apply pad_words_one_line, fixed_words.
  Qed.
  Lemma mar_vertices_read rest : exists rows,
    read_until_zero (fun ws => mapM float_of (tl ws))
      (map (fun p => line (mar_vertex p)) (numbered (m_vertices m)) ++ line (concat (map (fmt_int 6) [0; 0; 0; 0; 0])) :: rest) = Ok (rows, rest)
    /\ Forall2 (row_near six_decimals) (m_vertices m) rows.
  Proof.
    destruct (read_until_zero_block (fun ws => mapM float_of (tl ws)) mar_vertex (fun p => row_near six_decimals (snd p)) (numbered (m_vertices m))
      (line (concat (map (fmt_int 6) [0; 0; 0; 0; 0]))) rest) as (rows & E & N).
    - intros p Hp. destruct (mapM_words fixed_word six_decimals fixed_near (coordinates (snd p))) as (vs & Ev & Nv).
      exists (dec (fst p)), (map fixed_word (coordinates (snd p))), vs.
      split; [apply mar_vertex_split; assumption|]. split; [apply dec_not_zero; apply (in_numbered_range _ _ Hp)|].
      split; [exact Ev|exact Nv].
    - eexists. reflexivity.
    - exists rows. split; [exact E|]. rewrite <- (numbered_snd (m_vertices m)). clear -N. induction N; cbn [map]; constructor; assumption.
  Qed.
End Mar.

Lemma mar_readlines m : m_faces m <> [] ->
  readlines (write_MAR m) =
  line (fmt_int 6 2 ++ fmt_int 6 0) :: map (fun p => line (mar_vertex p)) (numbered (m_vertices m)) ++
  line (concat (map (fmt_int 6) [0; 0; 0; 0; 0])) ::
  map (fun f => line (concat (map (fmt_int 10) (face_row f)))) (m_faces m) ++ [line (concat (map (fmt_int 6) [0; 0; 0; 0]))].
Proof.
  intros NE. unfold write_MAR. rewrite readlines_one by (apply one_line_app; apply pad_one_line, dec_line_one_line; lia).
  f_equal. rewrite (readlines_block mar_vertex) by (intros; apply (mar_vertex_line m); assumption). f_equal.
  rewrite readlines_one by (apply zeros_one_line; repeat constructor; lia). f_equal.
  rewrite join_lines_block by assumption. rewrite readlines_block by (intros; apply face_lines_one_line). f_equal.
Qed.

Lemma mar_header : split (line (fmt_int 6 2 ++ fmt_int 6 0)) = [lit "2"; lit "0"].
Proof. reflexivity. Qed.

Lemma mar_round_trip m : valid m -> m_faces m <> [] -> Z.of_nat (nb_vertices m) < 10 ^ 9 -> coordinates_are (at_most 9999999) m ->
  exists m', load_MAR (write_MAR m) = Ok (Leaf m') /\ same_mesh six_decimals m m'.
Proof.
  intros Va NE NB Co. unfold load_MAR. rewrite mar_readlines by assumption. cbn [readline]. rewrite mar_header.
  destruct (mar_vertices_read m Co (map (fun f => line (concat (map (fmt_int 10) (face_row f)))) (m_faces m) ++ [line (concat (map (fmt_int 6) [0; 0; 0; 0]))])) as (rows & Er & Nr).
  rewrite Er. cbn [bind fst snd]. apply rows_shape in Nr. destruct Nr as (ws & -> & Nr). rewrite np_array_coordinates. cbn [bind].
  destruct (read_until_zero_block (mapM int_of) (fun f => concat (map (fmt_int 10) (face_row f))) (fun f r => r = face_row f) (m_faces m)
     (line (concat (map (fmt_int 6) [0; 0; 0; 0]))) []) as (rows & Ef & Nf).
  { intros f Hf. destruct (face_row_head f) as (z & l & E & Hz). exists (dec z), (map dec l), (face_row f).
    split; [rewrite (face_row_split m) by assumption; rewrite E; reflexivity|]. split; [apply dec_not_zero; assumption|].
    split; [|reflexivity]. change (dec z :: map dec l) with (map dec (z :: l)). rewrite <- E. apply mapM_dec, face_row_nonneg. }
  { eexists. reflexivity. }
  rewrite Ef. cbn [bind fst snd]. apply f2_map in Nf. subst rows. rewrite np_array_faces. cbn [bind].
  change (int_of (lit "0")) with (Ok 0). cbn [bind]. rewrite (new_mesh_rows six_decimals) by assumption. cbn [bind].
  eexists. split; [reflexivity|]. split; [exact Nr|reflexivity].
Qed.

(** A mesh without faces cannot be loaded back. *)
Lemma mar_no_faces m : m_faces m = [] -> coordinates_are (at_most 9999999) m -> load_MAR (write_MAR m) = Err IndexError.
Proof.
  intros NE Co. unfold load_MAR, write_MAR. rewrite NE.
  rewrite readlines_one by (apply one_line_app; apply pad_one_line, dec_line_one_line; lia). cbn [readline]. rewrite mar_header.
  rewrite (readlines_block mar_vertex) by (intros; apply (mar_vertex_line m); assumption).
  rewrite readlines_one by (apply zeros_one_line; repeat constructor; lia).
  rewrite readlines_one by constructor.
  match goal with |- context [read_until_zero _ (_ ++ _ :: ?rest)] => destruct (mar_vertices_read m Co rest) as (rows & Er & Nr) end.
  rewrite Er. cbn [bind fst snd]. apply rows_shape in Nr. destruct Nr as (ws & -> & Nr). rewrite np_array_coordinates. cbn [bind].
  reflexivity.
Qed.

(** A coordinate with more than nine figures before the decimal point runs into the number of the vertex. *)
Lemma fixed_word_long x : (1000000000 <= Rabs x)%R -> (17 <= length (fixed_word x))%nat.
Proof.
  intros H. unfold fixed_word. rewrite !app_length, fixed_length. change (length (lit ".")) with 1%nat.
  assert (B : 10 ^ 15 <= nearest (Rabs x * pow10 6)).
  { unfold nearest. eapply Z.le_trans; [|apply Generic_fmt.Znearest_ge_floor]. apply Raux.Zfloor_lub.
    rewrite pow10_IZR by lia. change (10 ^ 15) with (1000000000 * 10 ^ 6). rewrite mult_IZR.
    apply Rmult_le_compat_r; [apply IZR_le; lia|assumption]. }
  assert (L : (10 <= length (dec (nearest (Rabs x * pow10 6) / 10 ^ 6)))%nat).
  { unfold dec. rewrite fixed_length. apply nb_digits_ge. change (10 ^ Z.of_nat 9) with (10 ^ 9).
    apply Z.div_le_lower_bound; [lia|]. change (10 ^ 6 * 10 ^ 9) with (10 ^ 15). exact B. }
  lia.
Qed.
Lemma pad_long n t : (n <= length t)%nat -> pad n t = t.
Proof. intros H. unfold pad. replace (n - length t)%nat with O by lia. reflexivity. Qed.
Lemma word_app a b : is_word a -> is_word b -> is_word (a ++ b).
Proof. intros [A A'] [B B']. split; [|apply Forall_app; auto]. intros E. apply app_eq_nil in E. tauto. Qed.

Lemma mar_large_coordinate m v vs : m_vertices m = v :: vs -> vs <> [] -> m_faces m <> [] ->
  (1000000000 <= Rabs (vx v))%R -> at_most 9999999 (vy v) -> at_most 9999999 (vz v) ->
  coordinates_are (at_most 9999999) (Mesh vs []) -> load_MAR (write_MAR m) = Err ValueError.
Proof.
  intros Ev Nvs NE X Y Z3 Co. unfold load_MAR. rewrite mar_readlines by assumption. cbn [readline]. rewrite mar_header. rewrite Ev.
  remember (map (fun f => line (concat (map (fmt_int 10) (face_row f)))) (m_faces m) ++ [line (concat (map (fmt_int 6) [0; 0; 0; 0]))]) as rest eqn:Erest. clear Erest.
  set (glued := fun p : Z * vec => if Z.eqb (fst p) 1 then [dec 1 ++ fixed_word (vx v); fixed_word (vy v); fixed_word (vz v)]
                                   else dec (fst p) :: map fixed_word (coordinates (snd p))).
  assert (G : forall p, In p (numbered (v :: vs)) -> split (line (mar_vertex p)) = glued p).
  { intros p Hp. unfold numbered in Hp. cbn [length seq map combine] in Hp. destruct Hp as [<-|Hp].
    - unfold glued. cbn [fst snd]. change (Z.of_nat 1) with 1. cbn [Z.eqb Pos.eqb].
      unfold mar_vertex. cbn [fst snd]. rewrite map_fmt_fixed. unfold coordinates. cbn [map concat].
      rewrite (pad_long 16 (fixed_word (vx v))) by (pose proof (fixed_word_long _ X); lia).
      unfold line.
      match goal with |- split (?a ++ [newline]) = _ => replace a with (row_text [(repeat space (6 - length (dec 1)), dec 1 ++ fixed_word (vx v)); padded 16 (fixed_word (vy v)); padded 16 (fixed_word (vz v))]) end.
      2: { unfold row_text, fmt_int, pad, padded. cbn [map concat fst snd]. change (Z.of_nat 1) with 1. rewrite <- ?app_assoc. reflexivity. }
      rewrite split_row; [reflexivity| | |apply newline_blanks].
      + repeat (apply Forall_cons || apply Forall_nil).
        * split; [apply repeat_blanks|]. apply word_app; [apply dec_word; lia|apply fixed_word_is_word].
        * apply padded_sound, fixed_word_is_word.
        * apply padded_sound, fixed_word_is_word.
      + cbn [tl]. repeat (apply Forall_cons || apply Forall_nil); apply padded_apart; apply (Nat.le_lt_trans _ 15); try lia;
          apply (fixed_word_length 7); try lia; change (10 ^ Z.of_nat 7 - 1) with 9999999; assumption.
    - assert (Hi : 2 <= fst p /\ In (snd p) vs).
      { destruct p as [i w]. pose proof (in_combine_l _ _ _ _ Hp) as K1. pose proof (in_combine_r _ _ _ _ Hp) as K2.
        apply in_map_iff in K1. destruct K1 as (n & <- & K1). apply in_seq in K1. cbn. split; [lia|assumption]. }
      destruct Hi as [Hi Hw]. unfold glued. replace (fst p =? 1) with false by (symmetry; apply Z.eqb_neq; lia).
      unfold mar_vertex. rewrite map_fmt_fixed. apply split_padded_head; [apply dec_word; lia|apply fixed_words|].
      apply (fixed_row_length (snd p) 7); [lia|]. change (10 ^ Z.of_nat 7 - 1) with 9999999. apply Co. assumption. }
  destruct (read_until_zero_block (fun ws => mapM float_of (tl ws)) mar_vertex (fun p r => length r = if fst p =? 1 then 2%nat else 3%nat) (numbered (v :: vs))
      (line (concat (map (fmt_int 6) [0; 0; 0; 0; 0]))) rest) as (rows & E & N).
  - intros p Hp. pose proof (in_numbered_range _ _ Hp) as Rp. specialize (G p Hp). unfold glued in G. destruct (Z.eqb_spec (fst p) 1) as [E1|E1].
    + destruct (mapM_words fixed_word six_decimals fixed_near [vy v; vz v]) as (xs & Ex & Nx).
      eexists _, _, xs. split; [exact G|]. split.
      { apply text_eqb_neq. intros E. apply (f_equal (@length _)) in E. rewrite app_length in E. change (length (lit "0")) with 1%nat in E.
        pose proof (fixed_word_long _ X). lia. }
      split; [exact Ex|]. apply f2_len in Nx. rewrite <- Nx. reflexivity.
    + destruct (mapM_words fixed_word six_decimals fixed_near (coordinates (snd p))) as (xs & Ex & Nx).
      eexists _, _, xs. split; [exact G|]. split; [apply dec_not_zero; assumption|]. split; [exact Ex|].
      apply f2_len in Nx. rewrite <- Nx. reflexivity.
  - eexists. reflexivity.
  - rewrite E. cbn [bind fst snd]. unfold np_array. destruct vs as [|w vs]; [contradiction|].
    unfold numbered in N. cbn [length seq map combine] in N. inversion N as [|? r1 ? ? L1 N1]; subst. inversion N1 as [|? r2 ? ? L2 N2]; subst.
    cbn [fst] in L1, L2. change (Z.of_nat 1 =? 1) with true in L1. change (Z.of_nat 2 =? 1) with false in L2. cbn iota in L1, L2.
    match goal with |- bind (if same_lengths ?q then _ else _) _ = _ => assert (F : same_lengths q = false) end.
    { cbn [same_lengths]. unfold all_length. cbn [forallb]. rewrite L1, L2. reflexivity. }
    rewrite F. reflexivity.
Qed.
