(** The formats NAT and HST. *)
From Coq Require Import Reals String Ascii.
From Coq Require Import List Bool ZArith Arith Lia Lra.
From Verif Require Import Model_Base Model_Geometry Model_Mesh Model_Tree Model_Text Spec_Files Proofs_Text Proofs_Text2 Model_Files Proofs_Files Proofs_Files2.
Import ListNotations.
Open Scope Z_scope.

Lemma pow_pow10 n : (10 ^ n)%R = pow10 (Z.of_nat n).
Proof. unfold pow10. rewrite Raux.bpow_powerRZ. rewrite pow_powerRZ. reflexivity. Qed.
Lemma float_range_pow x : float_range x -> (pow10 (-998) <= Rabs x <= pow10 998)%R \/ x = 0%R.
Proof.
  intros [H|[A B]]; [right; assumption|left].
  assert (E : (10 ^ 400)%R = pow10 400).
  { unfold pow10. rewrite Raux.bpow_powerRZ. change 400 with (Z.of_nat 400). rewrite <- pow_powerRZ. reflexivity. }
  rewrite E in A, B. assert (I : (/ pow10 400)%R = pow10 (-400)) by (symmetry; apply (Raux.bpow_opp radix10 400)).
  rewrite I in A. split.
  - eapply Rle_trans; [|exact A]. apply Raux.bpow_le. lia.
  - eapply Rle_trans; [exact B|]. apply Raux.bpow_le. lia.
Qed.
Lemma sci_row_length v : float_range (vx v) /\ float_range (vy v) /\ float_range (vz v) ->
  Forall (fun t => (length t < 15)%nat) (map (sci_word "E") (coordinates v)).
Proof.
  intros (X & Y & Z). unfold coordinates. cbn [map].
  repeat (apply Forall_cons || apply Forall_nil); apply (Nat.le_lt_trans _ 14); try lia; apply sci_word_length; auto using float_range_pow.
Qed.
Lemma forall_tl {A} (P : A -> Prop) l : Forall P l -> Forall P (tl l).
Proof. intros H. destruct H; [constructor|assumption]. Qed.
Lemma sci_near_E x : exists v, float_of (sci_word "E" x) = Ok v /\ seven_digits x v.
Proof. apply sci_near. auto. Qed.

Lemma sci_row_split width v : (15 <= width)%nat -> float_range (vx v) /\ float_range (vy v) /\ float_range (vz v) ->
  split (line (concat (map (fmt_sci "E" width) (coordinates v)))) = map (sci_word "E") (coordinates v).
Proof.
  intros W H. rewrite map_fmt_sci. apply split_padded; [apply sci_words|]. apply forall_tl.
  eapply Forall_impl; [|apply sci_row_length; exact H]. cbn. intros; lia.
Qed.
Lemma sci_row_line width v : one_line (concat (map (fmt_sci "E" width) (coordinates v))).
Proof. rewrite map_fmt_sci. apply pad_words_one_line, sci_words. Qed.

(** ** NAT *)

Lemma max_shape_nonneg {A} n (l : list A) : 0 <= max_shape n l. Proof. unfold max_shape. lia. Qed.

Lemma nat_readlines m :
  readlines (write_NAT m) =
  line (fmt_int 6 0 ++ fmt_int 6 0) :: line (fmt_int 6 (max_shape 3 (m_vertices m)) ++ fmt_int 6 (max_shape 4 (m_faces m))) ::
  map (fun v => line (concat (map (fmt_sci "E" 15) (coordinates v)))) (m_vertices m) ++
  map (fun f => line (concat (map (fmt_int 10) (face_row f)))) (m_faces m).
Proof.
  unfold write_NAT. rewrite readlines_one by (apply one_line_app; apply pad_one_line, dec_line_one_line; lia).
  rewrite readlines_one by (apply one_line_app; apply pad_one_line, dec_line_one_line; apply max_shape_nonneg).
  rewrite readlines_block by (intros; apply sci_row_line).
  rewrite <- (app_nil_r (concat (map (fun f => line _) (m_faces m)))). rewrite readlines_block by (intros; apply face_lines_one_line).
  rewrite readlines_nil, app_nil_r. reflexivity.
Qed.

Lemma header_split a b : 0 <= a -> 0 <= b < 10 ^ 5 -> split (line (fmt_int 6 a ++ fmt_int 6 b)) = [dec a; dec b].
Proof.
  intros A B. replace (fmt_int 6 a ++ fmt_int 6 b) with (concat (map (pad 6) [dec a; dec b])) by (cbn [map concat]; rewrite app_nil_r; reflexivity).
  apply split_padded.
  - repeat (apply Forall_cons || apply Forall_nil); apply dec_word; lia.
  - cbn [tl]. repeat (apply Forall_cons || apply Forall_nil). apply Nat.lt_succ_r. apply dec_length; [exact B|lia].
Qed.

Lemma nat_vertices_read m rest : coordinates_are float_range m -> exists ws,
  read_rows floats (length (m_vertices m)) (map (fun v => line (concat (map (fmt_sci "E" 15) (coordinates v)))) (m_vertices m) ++ rest)
   = Ok (map coordinates ws, rest) /\ Forall2 (close seven_digits) (m_vertices m) ws.
Proof.
  intros Co. destruct (read_rows_block floats (fun v => concat (map (fmt_sci "E" 15) (coordinates v))) (row_near seven_digits) (m_vertices m) rest) as (rows & E & N).
  - intros v Hv. unfold floats. rewrite sci_row_split by (try lia; apply Co; assumption). apply mapM_words. apply sci_near_E.
  - apply rows_shape in N. destruct N as (ws & -> & N). exists ws. split; assumption.
Qed.
Lemma nat_faces_read m rest : valid m -> Z.of_nat (nb_vertices m) < 10 ^ 9 ->
  read_rows ints (length (m_faces m)) (map (fun f => line (concat (map (fmt_int 10) (face_row f)))) (m_faces m) ++ rest)
   = Ok (map face_row (m_faces m), rest).
Proof.
  intros Va NB. destruct (read_rows_block ints (fun f => concat (map (fmt_int 10) (face_row f))) (fun f r => r = face_row f) (m_faces m) rest) as (rows & E & N).
  - intros f Hf. exists (face_row f). split; [|reflexivity]. unfold ints. rewrite (face_row_split m) by assumption.
    apply mapM_dec, face_row_nonneg.
  - apply f2_map in N. subst rows. exact E.
Qed.

Lemma nat_round_trip m : valid m -> (3 <= nb_vertices m)%nat -> (4 <= nb_faces m)%nat -> Z.of_nat (nb_faces m) < 10 ^ 5 ->
  Z.of_nat (nb_vertices m) < 10 ^ 9 -> coordinates_are float_range m ->
  exists m', load_NAT (write_NAT m) = Ok (Leaf m') /\ same_mesh seven_digits m m'.
Proof.
  intros Va V3 F4 FB NB Co. unfold load_NAT. rewrite nat_readlines. cbn [readline]. unfold ints at 1.
  assert (Ev : max_shape 3 (m_vertices m) = Z.of_nat (nb_vertices m)) by (unfold max_shape, nb_vertices in *; lia).
  assert (Ef : max_shape 4 (m_faces m) = Z.of_nat (nb_faces m)) by (unfold max_shape, nb_faces in *; lia).
  rewrite Ev, Ef. rewrite header_split by lia. change [dec ?a; dec ?b] with (map dec [a; b]).
  rewrite mapM_dec by (repeat (apply Forall_cons || apply Forall_nil); lia). cbn [bind]. unfold times. rewrite !Nat2Z.id.
  destruct (nat_vertices_read m (map (fun f => line (concat (map (fmt_int 10) (face_row f)))) (m_faces m)) Co) as (ws & Er & Nr).
  unfold nb_vertices, nb_faces. rewrite Er. cbn [bind fst snd]. rewrite np_array_coordinates. cbn [bind].
  rewrite <- (app_nil_r (map (fun f => line _) (m_faces m))). rewrite nat_faces_read by assumption. cbn [bind fst snd].
  rewrite np_array_faces. cbn [bind]. rewrite (new_mesh_rows seven_digits) by assumption. cbn [bind].
  eexists. split; [reflexivity|]. split; [exact Nr|reflexivity].
Qed.

(** With one, two or three faces, the header announces four faces. *)
Lemma read_rows_more {B} (parse : text -> result B) n k f rows y : read_rows parse n f = Ok (rows, []) -> parse [] = Ok y ->
  read_rows parse (n + k) f = Ok (rows ++ repeat y k, []).
Proof.
  intros H Y. revert f rows H. induction n as [|n IH]; intros f rows H; cbn [read_rows plus] in *.
  - injection H as <- ->. cbn [app]. induction k as [|k IHk]; cbn [read_rows repeat]; [reflexivity|].
    cbn [readline]. rewrite Y. cbn [bind]. rewrite IHk. reflexivity.
  - destruct (readline f) as [l f']. destruct (parse l) as [x|e]; [|discriminate]. cbn [bind] in *.
    destruct (read_rows parse n f') as [[xs r]|e] eqn:E; [|discriminate]. cbn [bind fst snd] in *. injection H as <- ->.
    rewrite (IH _ _ E). reflexivity.
Qed.
Lemma nat_few_faces m : valid m -> (3 <= nb_vertices m)%nat -> (1 <= nb_faces m < 4)%nat ->
  Z.of_nat (nb_vertices m) < 10 ^ 9 -> coordinates_are float_range m -> load_NAT (write_NAT m) = Err ValueError.
Proof.
  intros Va V3 F4 NB Co. unfold load_NAT. rewrite nat_readlines. cbn [readline]. unfold ints at 1.
  assert (Ev : max_shape 3 (m_vertices m) = Z.of_nat (nb_vertices m)) by (unfold max_shape, nb_vertices in *; lia).
  assert (Ef : max_shape 4 (m_faces m) = 4) by (unfold max_shape, nb_faces in *; lia).
  rewrite Ev, Ef. rewrite header_split by lia. change [dec ?a; dec ?b] with (map dec [a; b]).
  rewrite mapM_dec by (repeat (apply Forall_cons || apply Forall_nil); lia). cbn [bind]. unfold times. rewrite !Nat2Z.id.
  destruct (nat_vertices_read m (map (fun f => line (concat (map (fmt_int 10) (face_row f)))) (m_faces m)) Co) as (ws & Er & Nr).
  unfold nb_vertices. rewrite Er. cbn [bind fst snd]. rewrite np_array_coordinates. cbn [bind].
  rewrite <- (app_nil_r (map (fun f => line _) (m_faces m))).
  assert (E4 : Z.to_nat 4 = (length (m_faces m) + (4 - length (m_faces m)))%nat) by (unfold nb_faces in F4; lia). rewrite E4.
  rewrite (read_rows_more ints _ _ _ (map face_row (m_faces m)) []) by (try reflexivity; apply nat_faces_read; assumption).
  cbn [bind fst snd]. unfold np_array.
  replace (same_lengths _) with false; [reflexivity|]. symmetry. unfold nb_faces in F4.
  destruct (m_faces m) as [|f fs]; [cbn in F4; lia|]. cbn [map app same_lengths]. unfold all_length.
  apply not_true_is_false. intros H. rewrite forallb_forall in H. specialize (H []).
  assert (K : In [] (face_row f :: map face_row fs ++ repeat [] (4 - length (f :: fs)))).
  { right. apply in_or_app. right. cbn [length] in *. replace (4 - S (length fs))%nat with (S (2 - length fs)) by lia. left. reflexivity. }
  specialize (H K). discriminate.
Qed.

(** With a hundred thousand faces, the two numbers of the header run together. *)
Lemma glued_header a b : 0 <= a -> 10 ^ 5 <= b -> split (line (fmt_int 6 a ++ fmt_int 6 b)) = [dec a ++ dec b].
Proof.
  intros A B. unfold fmt_int at 2. rewrite pad_long.
  - unfold line. replace (fmt_int 6 a ++ dec b) with (row_text [(repeat space (6 - length (dec a)), dec a ++ dec b)])
      by (unfold row_text, fmt_int, pad; cbn [map concat fst snd]; rewrite app_nil_r, <- app_assoc; reflexivity).
    rewrite split_row; [reflexivity| |constructor|apply newline_blanks].
    constructor; [|constructor]. split; [apply repeat_blanks|]. apply word_app; apply dec_word; lia.
  - unfold dec. rewrite fixed_length. pose proof (nb_digits_ge b 5 ltac:(exact B)). lia.
Qed.
Lemma int_of_error t e : int_of t = Err e -> e = ValueError.
Proof. unfold int_of. destruct (signed (strip t)) as [n u]. destruct (nat_value u); congruence. Qed.
Lemma nat_many_faces m : 10 ^ 5 <= Z.of_nat (nb_faces m) -> load_NAT (write_NAT m) = Err ValueError.
Proof.
  intros F. unfold load_NAT. rewrite nat_readlines. cbn [readline]. unfold ints at 1.
  rewrite glued_header; [|apply max_shape_nonneg|unfold max_shape, nb_faces in *; lia]. cbn [mapM].
  destruct (int_of _) as [z|e] eqn:E; cbn [bind]; [reflexivity|]. apply int_of_error in E. congruence.
Qed.

(** ** HST *)

Lemma startswith_digit a w c t : is_digit c = true -> is_digit a = false -> startswith (a :: w) (c :: t) = false.
Proof. intros C A. cbn. destruct (ascii_dec a c); [subst; congruence|reflexivity]. Qed.
Lemma split_lstrip t : split (lstrip t) = split t.
Proof.
  unfold split. induction t as [|c t IH]; [reflexivity|]. cbn [lstrip]. destruct (blank c) eqn:B; [|reflexivity].
  rewrite IH. cbn [split_aux]. rewrite B. reflexivity.
Qed.

(** A line whose first word starts with a digit. *)
Definition digit_line (l : text) : Prop := exists c t, lstrip l = c :: t /\ is_digit c = true.
Lemma digit_line_row width z rest : 0 <= z -> digit_line (line (fmt_int width z ++ rest)).
Proof.
  intros H. pose proof (dec_digits z) as D. pose proof (dec_nonempty z H) as N. unfold digit_line, line, fmt_int, pad.
  rewrite <- !app_assoc. rewrite lstrip_blanks by apply repeat_blanks. destruct (dec z) as [|c t]; [contradiction|].
  inversion D; subst. exists c. eexists. split; [|assumption]. cbn [app lstrip]. rewrite digit_not_blank by assumption. reflexivity.
Qed.

Lemma hst_vertex_line l rest s i x y z n : digit_line l -> split l = [i; x; y; z] -> context s = InVertices ->
  int_of i = Ok n -> n = Z.of_nat (length (hst_vertices s)) + 1 ->
  hst_loop (l :: rest) s = hst_loop rest (Hst (context s) (Some [x; y; z]) (v1234 s) (i_face s) (hst_vertices s ++ [[x; y; z]]) (hst_faces s) (project s) (symmetry s)).
Proof.
  intros (c & t & L & C) S Cx I Hn. cbn [hst_loop]. rewrite split_lstrip, S, Cx, L.
  cbn [is_vertices is_panels]. unfold lit; cbn [list_ascii_of_string]. rewrite !startswith_digit by (assumption || reflexivity).
  change (text_eqb (c :: t) []) with false. cbn iota. rewrite I. cbn [bind]. rewrite (proj2 (Z.eqb_eq _ _) Hn). cbn [add_vertex bind]. rewrite Cx. reflexivity.
Qed.
Lemma hst_face_line l rest s a b c0 d : digit_line l -> split l = [a; b; c0; d] -> context s = InPanels 0 ->
  hst_loop (l :: rest) s = hst_loop rest (Hst (context s) (xyz s) (Some [a; b; c0; d]) (i_face s) (hst_vertices s) (hst_faces s ++ [[a; b; c0; d]]) (project s) (symmetry s)).
Proof.
  intros (c & t & L & C) S Cx. cbn [hst_loop]. rewrite split_lstrip, S, Cx, L.
  cbn [is_vertices is_panels]. unfold lit; cbn [list_ascii_of_string]. rewrite !startswith_digit by (assumption || reflexivity).
  change (text_eqb (c :: t) []) with false. cbn [Z.eqb orb andb]. cbn iota. cbn [add_face bind]. rewrite Cx. reflexivity.
Qed.

Definition hst_vertex (p : Z * vec) : text := fmt_int 10 (fst p) ++ concat (map (fmt_sci "E" 16) (coordinates (snd p))).
Definition hst_face (f : face) : text := concat (map (fmt_int 10) (face_row f)).

Lemma hst_vertex_split i v : 0 <= i -> float_range (vx v) /\ float_range (vy v) /\ float_range (vz v) ->
  split (line (hst_vertex (i, v))) = dec i :: map (sci_word "E") (coordinates v).
Proof.
  intros Hi H. unfold hst_vertex. cbn [fst snd]. rewrite map_fmt_sci. apply split_padded_head; [apply dec_word; assumption|apply sci_words|].
  eapply Forall_impl; [|apply sci_row_length; exact H]. cbn. intros; lia.
Qed.
Lemma hst_vertex_one_line p : 0 <= fst p -> one_line (hst_vertex p).
Proof.
  intros H. unfold hst_vertex. rewrite map_fmt_sci. apply one_line_app; [apply pad_one_line, word_one_line, dec_word; assumption|].
  apply pad_words_one_line, sci_words.
Qed.

Lemma hst_vertices_block vs : forall k rest s, (forall v, In v vs -> float_range (vx v) /\ float_range (vy v) /\ float_range (vz v)) ->
  context s = InVertices -> length (hst_vertices s) = k -> exists last,
  hst_loop (map (fun p => line (hst_vertex p)) (combine (map Z.of_nat (seq (S k) (length vs))) vs) ++ rest) s =
  hst_loop rest (Hst InVertices last (v1234 s) (i_face s) (hst_vertices s ++ map (fun v => map (sci_word "E") (coordinates v)) vs) (hst_faces s) (project s) (symmetry s)).
Proof.
  induction vs as [|v vs IH]; intros k rest s H C L.
  - exists (xyz s). cbn [length seq map combine app]. rewrite app_nil_r. rewrite <- C. destruct s; reflexivity.
  - cbn [length seq map combine app].
    assert (Sp : split (line (hst_vertex (Z.of_nat (S k), v))) = [dec (Z.of_nat (S k)); sci_word "E" (vx v); sci_word "E" (vy v); sci_word "E" (vz v)]).
    { apply hst_vertex_split; [lia|apply H; left; reflexivity]. }
    assert (Dl : digit_line (line (hst_vertex (Z.of_nat (S k), v)))) by (apply digit_line_row; cbn [fst]; lia).
    assert (Iv : int_of (dec (Z.of_nat (S k))) = Ok (Z.of_nat (S k))) by (apply int_of_dec; lia).
    rewrite (hst_vertex_line _ _ s _ _ _ _ (Z.of_nat (S k)) Dl Sp C Iv) by lia.
    match goal with |- context [hst_loop _ ?s'] => destruct (IH (S k) rest s') as (last & E) end.
    + intros; apply H; right; assumption.
    + cbn [context]. exact C.
    + cbn [hst_vertices]. rewrite app_length. cbn. lia.
    + exists last. rewrite E. cbn [hst_vertices hst_faces v1234 i_face project symmetry]. rewrite <- app_assoc. reflexivity.
Qed.
Lemma hst_faces_block m fs : forall rest s, valid m -> (forall f, In f fs -> In f (m_faces m)) -> Z.of_nat (nb_vertices m) < 10 ^ 9 ->
  context s = InPanels 0 -> exists last,
  hst_loop (map (fun f => line (hst_face f)) fs ++ rest) s =
  hst_loop rest (Hst (InPanels 0) (xyz s) last (i_face s) (hst_vertices s) (hst_faces s ++ map (fun f => map dec (face_row f)) fs) (project s) (symmetry s)).
Proof.
  induction fs as [|f fs IH]; intros rest s Va H NB C.
  - exists (v1234 s). cbn [map app]. rewrite app_nil_r. rewrite <- C. destruct s; reflexivity.
  - cbn [map app].
    assert (Sp : split (line (hst_face f)) = map dec (face_row f)) by (apply (face_row_split m); auto; apply H; left; reflexivity).
    assert (Dl : digit_line (line (hst_face f))).
    { unfold hst_face, face_row. cbn [face_ids map concat]. apply digit_line_row. pose proof (Nat2Z.is_nonneg (fa f)). lia. }
    rewrite (hst_face_line _ _ s _ _ _ _ Dl Sp C).
    match goal with |- context [hst_loop _ ?s'] => destruct (IH rest s') as (last & E) end.
    + assumption.
    + intros; apply H; right; assumption.
    + assumption.
    + exact C.
    + exists last. rewrite E. cbn [hst_vertices hst_faces xyz i_face project symmetry]. rewrite <- app_assoc. reflexivity.
Qed.

(** A block that may be empty: an empty block leaves a blank line, which is skipped. *)
Lemma hst_blank rest s : hst_loop (line [] :: rest) s = hst_loop rest s.
Proof. reflexivity. Qed.

Lemma mapM_mapM_dec l : mapM (mapM int_of) (map (fun f => map dec (face_row f)) l) = Ok (map face_row l).
Proof. induction l as [|f l IH]; cbn [map mapM]; [reflexivity|]. rewrite mapM_dec by apply face_row_nonneg. cbn [bind]. rewrite IH. reflexivity. Qed.
Lemma mapM_mapM_sci l : exists ws, mapM (mapM float_of) (map (fun v => map (sci_word "E") (coordinates v)) l) = Ok (map coordinates ws)
  /\ Forall2 (close seven_digits) l ws.
Proof.
  induction l as [|v l (ws & E & N)].
  - exists []. split; [reflexivity|constructor].
  - destruct (mapM_words (sci_word "E") seven_digits sci_near_E (coordinates v)) as (r & Er & Nr).
    apply row_near_shape in Nr. destruct Nr as (w & -> & Nw). exists (w :: ws). split; [|constructor; assumption].
    change (map (fun v0 => map (sci_word "E") (coordinates v0)) (v :: l)) with (map (sci_word "E") (coordinates v) :: map (fun v0 => map (sci_word "E") (coordinates v0)) l).
    cbn [mapM]. rewrite Er. cbn [bind]. rewrite E. reflexivity.
Qed.

Lemma readlines_joined {A} (g : A -> text) (l : list A) rest : (forall x, In x l -> one_line (g x)) ->
  readlines (line (join_lines (map g l)) ++ rest) = (match l with [] => [line []] | _ => map (fun x => line (g x)) l end) ++ readlines rest.
Proof.
  intros H. destruct l as [|x l].
  - cbn [map join_lines app]. apply readlines_one. constructor.
  - rewrite join_lines_block by discriminate. apply readlines_block. exact H.
Qed.
Lemma hst_loop_joined {A} (g : A -> text) (l : list A) rest s :
  hst_loop ((match l with [] => [line []] | _ => map (fun x => line (g x)) l end) ++ rest) s = hst_loop (map (fun x => line (g x)) l ++ rest) s.
Proof. destruct l; reflexivity. Qed.

Lemma hst_round_trip m : valid m -> Z.of_nat (nb_vertices m) < 10 ^ 9 -> coordinates_are float_range m ->
  exists m', load_HST (write_HST m) = Ok (Leaf m') /\ same_mesh seven_digits m m'.
Proof.
  intros Va NB Co. unfold load_HST, write_HST.
  do 8 (rewrite readlines_one by (first [apply lit_one_line; reflexivity | constructor])).
  rewrite (readlines_joined hst_vertex).
  2: { intros p Hp. apply hst_vertex_one_line. pose proof (in_numbered_range _ _ Hp). lia. }
  do 3 (rewrite readlines_one by (first [apply lit_one_line; reflexivity | constructor])).
  rewrite (readlines_joined hst_face) by (intros; apply face_lines_one_line).
  do 2 (rewrite readlines_one by (first [apply lit_one_line; reflexivity | constructor])).
  rewrite <- (app_nil_r (line (lit "ENDFILE"))). rewrite readlines_one by (apply lit_one_line; reflexivity). rewrite readlines_nil.
  match goal with |- context [hst_loop (?a :: ?b :: ?c :: ?d :: ?e :: ?f :: ?g :: ?h :: ?rest) hst_start] =>
    assert (H0 : hst_loop (a :: b :: c :: d :: e :: f :: g :: h :: rest) hst_start = hst_loop rest (Hst InVertices None None None [] [] (Some []) None)) by reflexivity
  end.
  rewrite H0. clear H0. rewrite hst_loop_joined. unfold numbered.
  match goal with |- context [hst_loop (_ ++ ?rest) ?s] => destruct (hst_vertices_block (m_vertices m) 0 rest s) as (last & E) end.
  { exact Co. } { reflexivity. } { reflexivity. }
  rewrite E. clear E. cbn [hst_vertices hst_faces v1234 i_face project symmetry app].
  match goal with |- context [hst_loop (?a :: ?b :: ?c :: ?rest) (Hst ?c0 ?x ?v ?i ?vs ?fs ?p ?y)] =>
    assert (H0 : hst_loop (a :: b :: c :: rest) (Hst c0 x v i vs fs p y) = hst_loop rest (Hst (InPanels 0) x v i vs fs p y)) by reflexivity
  end.
  rewrite H0. clear H0. rewrite hst_loop_joined.
  match goal with |- context [hst_loop (_ ++ ?rest) ?s] => destruct (hst_faces_block m (m_faces m) rest s) as (last' & E) end.
  { assumption. } { auto. } { assumption. } { reflexivity. }
  rewrite E. clear E. cbn [hst_vertices hst_faces xyz i_face project symmetry app].
  match goal with |- context [hst_loop ?rest (Hst ?c0 ?x ?v ?i ?vs ?fs ?p ?y)] =>
    assert (H0 : hst_loop rest (Hst c0 x v i vs fs p y) = Ok (Hst Nowhere x v i vs fs p y)) by reflexivity
  end.
  rewrite H0. clear H0. cbn [bind hst_vertices hst_faces symmetry].
  destruct (mapM_mapM_sci (m_vertices m)) as (ws & Ew & Nw). rewrite Ew. cbn [bind]. rewrite mapM_mapM_dec. cbn [bind].
  rewrite (new_mesh_rows seven_digits) by assumption. cbn [bind]. eexists. split; [reflexivity|]. split; [exact Nw|reflexivity].
Qed.
