(** The files of hydrostatics. *)
From Coq Require Import Reals String Ascii.
From Coq Require Import List Bool ZArith Arith Lia.
From Verif Require Import Spec_NemohFiles Proofs_Nemoh3 Proofs_Nemoh4 Model_Base Model_Geometry Model_Problem Model_Solver Model_Text Model_Files Model_Nemoh
  Proofs_Text Spec_Tecplot Model_Tecplot Proofs_Tecplot Proofs_Tecplot3.
Import ListNotations.
Open Scope nat_scope.

Lemma split_skip b t : Forall (fun c => blank c = true) b -> split (b ++ t) = split t.
Proof. intros H. unfold split. now apply split_aux_blanks. Qed.
Lemma split_last w : is_word w -> split w = [w].
Proof.
  intros [N W]. unfold split. rewrite <- (app_nil_r w) at 1. rewrite (split_aux_word w [] [] W), app_nil_r. rewrite split_aux_stop; [now rewrite rev_involutive| |constructor].
  intros E. apply N. rewrite <- (rev_involutive w), E. reflexivity.
Qed.
Lemma readlines_end u : one_line u -> u <> [] -> readlines u = [u].
Proof.
  intros H N. unfold readlines. assert (K : forall u cur, one_line u -> (u <> [] \/ cur <> []) -> readlines_aux cur u = [rev cur ++ u]).
  { clear. induction u as [|c u IH]; intros cur H Hn; cbn [readlines_aux].
    - rewrite app_nil_r. destruct cur; [destruct Hn; contradiction|reflexivity].
    - inversion H; subst. rewrite H2. rewrite IH; [|assumption|right; discriminate]. cbn [rev]. now rewrite <- app_assoc. }
  rewrite K; [reflexivity|exact H|now left].
Qed.
Lemma dec_inj m n : dec (Z.of_nat m) = dec (Z.of_nat n) -> m = n.
Proof. intros E. assert (H := nat_value_dec (Z.of_nat m) ltac:(lia)). rewrite E, nat_value_dec in H by lia. injection H. lia. Qed.

Section Hydro.
  Variable show_length : R -> text.
  Variable show_e : R -> text.
  Variable word_length : R -> text.
  Hypothesis length_word : forall x, one_word (word_length x) /\ exists n, show_length x = repeat space n ++ word_length x.
  Hypothesis e_word : forall x, one_word (show_e x).
  Notation write_hydrostatics := (write_hydrostatics show_length show_e).
  Notation write_all := (write_all show_length show_e).
  Notation export := (export_hydrostatics show_length show_e).

  Lemma show_length_line x : one_line (show_length x).
  Proof. destruct (length_word x) as (W & n & ->). apply one_line_app; [apply spaces_one_line|now apply word_one_line]. Qed.
  Lemma word_lit s : forallb (fun c => negb (blank c)) (lit s) = true -> lit s <> [] -> is_word (lit s).
  Proof. intros H N. split; [exact N|]. apply Forall_forall. intros c Hc. rewrite forallb_forall in H. specialize (H c Hc). now destruct (blank c). Qed.
  Lemma center_split x y : split (line (lit "XF = " ++ show_length x ++ lit " - XG = " ++ show_length y ++ lit " "))
    = [lit "XF"; lit "="; word_length x; lit "-"; lit "XG"; lit "="; word_length y].
  Proof.
    destruct (length_word x) as (Wx & n & ->). destruct (length_word y) as (Wy & m & ->). unfold line. rewrite <- !app_assoc.
    change (lit "XF = " ++ ?t) with (lit "XF" ++ space :: lit "=" ++ space :: t). rewrite split_word_then by (reflexivity || now apply word_lit).
    rewrite split_word_then by (reflexivity || now apply word_lit). rewrite split_skip by apply repeat_blanks.
    change (lit " - XG = " ++ ?t) with (space :: lit "-" ++ space :: lit "XG" ++ space :: lit "=" ++ space :: t).
    rewrite split_word_then by (reflexivity || exact Wx). do 3 rewrite split_word_then by (reflexivity || now apply word_lit). rewrite split_skip by apply repeat_blanks.
    change (word_length y ++ lit " " ++ [newline]) with (word_length y ++ space :: [newline]). rewrite split_word_then by (reflexivity || exact Wy). reflexivity.
  Qed.
  Lemma center_line x y : one_line (lit "XF = " ++ show_length x ++ lit " - XG = " ++ show_length y ++ lit " ").
  Proof. repeat (apply one_line_app; [apply show_length_line || (apply lit_one_line; reflexivity)|]). apply lit_one_line. reflexivity. Qed.
  Lemma row_split x l : split (row_of_matrix show_e (x :: l)) = map show_e (x :: l) /\ one_line (show_e x ++ concat (map (fun y => lit " " ++ show_e y) l)).
  Proof.
    split.
    - cbn [row_of_matrix]. revert x. induction l as [|y l IH]; intros x; cbn [map concat app].
      + rewrite split_word_then by (reflexivity || apply e_word). reflexivity.
      + change (lit " " ++ show_e y) with (space :: show_e y). cbn [app]. rewrite split_word_then by (reflexivity || apply e_word). f_equal. rewrite <- app_assoc. apply IH.
    - apply one_line_app; [apply word_one_line; apply e_word|]. apply concat_one_line. apply Forall_forall. intros t Ht. apply in_map_iff in Ht. destruct Ht as (y & <- & _).
      apply one_line_app; [apply lit_one_line; reflexivity|apply word_one_line; apply e_word].
  Qed.
  Lemma matrix_text k : matrix_file show_e k (concat (map (row_of_matrix show_e) k)).
  Proof.
    unfold matrix_file. induction k as [|row k IH]; [constructor|]. cbn [map concat]. destruct row as [|x l].
    - cbn [row_of_matrix app]. change (newline :: ?t) with ([] ++ newline :: t). rewrite readlines_line by constructor. constructor; [reflexivity|exact IH].
    - destruct (row_split x l) as [S L]. cbn [row_of_matrix]. rewrite (app_assoc (show_e x)), <- app_assoc. cbn [app].
      rewrite readlines_line by exact L. constructor; [|exact IH]. rewrite <- app_assoc. exact S.
  Qed.
  Lemma hydrostatics_text b g : let one (x : vec -> R) := line (lit "XF = " ++ show_length (x (h_buoyancy b)) ++ lit " - XG = " ++ show_length (x g) ++ lit " ") in
    hydrostatics_file word_length show_e (h_buoyancy b) g (h_volume b) (one vx ++ one vy ++ one vz ++ lit "Displacement = " ++ show_e (h_volume b)).
  Proof.
    cbv zeta. do 4 eexists. split; [|split].
    - unfold line at 1 2 3. rewrite <- (app_assoc (_ ++ _) [newline]). cbn [app]. rewrite readlines_line by apply center_line. f_equal.
      rewrite <- (app_assoc (_ ++ _) [newline]). cbn [app]. rewrite readlines_line by apply center_line. f_equal.
      rewrite <- (app_assoc (_ ++ _) [newline]). cbn [app]. rewrite readlines_line by apply center_line. f_equal.
      apply readlines_end; [|discriminate]. apply one_line_app; [apply lit_one_line; reflexivity|apply word_one_line; apply e_word].
    - cbv zeta. repeat split; apply center_split.
    - change (lit "Displacement = " ++ ?t) with (lit "Displacement" ++ space :: lit "=" ++ space :: t). do 2 rewrite split_word_then by (reflexivity || now apply word_lit).
      now rewrite split_last by apply e_word.
  Qed.
  (** One body *)
  Lemma one_ok f k b g m d : f <> k -> h_mass b = Some g -> h_stiffness b = Some m ->
    exists d', write_hydrostatics f k b d = (d', None) /\ only_touches [f; k] d d'
      /\ (exists t, d' f = Some t /\ hydrostatics_file word_length show_e (h_buoyancy b) g (h_volume b) t) /\ (exists t, d' k = Some t /\ matrix_file show_e m t).
  Proof.
    intros N E1 E2. unfold Model_Tecplot.write_hydrostatics. rewrite E1, E2. eexists. split; [reflexivity|]. split; [|split].
    - intros p Hp. cbn in Hp. rewrite !unwritten by (intros ->; tauto). reflexivity.
    - eexists. split; [rewrite unwritten by exact N; apply written|]. apply hydrostatics_text.
    - eexists. split; [apply written|]. apply matrix_text.
  Qed.
  Definition hname (i : nat) : text := lit "Hydrostatics_" ++ dec (Z.of_nat i) ++ lit ".dat".
  Definition kname (i : nat) : text := lit "KH_" ++ dec (Z.of_nat i) ++ lit ".dat".
  Lemma digits_no_slash t : digits t -> without slash t.
  Proof. intros H. eapply Forall_impl; [|exact H]. intros c Hc. apply (digit_not_char c 47 Hc). lia. Qed.
  Lemma hname_file i : file_name (hname i).
  Proof. split; [discriminate|]. unfold hname, without. apply Forall_app. split; [repeat constructor|]. apply Forall_app. split; [apply digits_no_slash, dec_digits|repeat constructor]. Qed.
  Lemma kname_file i : file_name (kname i).
  Proof. split; [discriminate|]. unfold kname, without. apply Forall_app. split; [repeat constructor|]. apply Forall_app. split; [apply digits_no_slash, dec_digits|repeat constructor]. Qed.
  Lemma hname_inj i j : hname i = hname j -> i = j.
  Proof. unfold hname. intros E. apply app_inv_head in E. apply app_inv_tail in E. now apply dec_inj. Qed.
  Lemma kname_inj i j : kname i = kname j -> i = j.
  Proof. unfold kname. intros E. apply app_inv_head in E. apply app_inv_tail in E. now apply dec_inj. Qed.
  Definition names (dir : text) (l : list nat) : list text := flat_map (fun i => [path_join dir (hname i); path_join dir (kname i)]) l.
  Lemma names_hk dir i j : directory_name dir -> path_join dir (hname i) <> path_join dir (kname j).
  Proof. intros D E. apply (join_inj dir _ _ D (hname_file i) (kname_file j)) in E. discriminate. Qed.
  Lemma names_in dir l i : directory_name dir -> (In (path_join dir (hname i)) (names dir l) -> In i l) /\ (In (path_join dir (kname i)) (names dir l) -> In i l).
  Proof.
    intros D. split; intros H; apply in_flat_map in H; destruct H as (j & Hj & [E|[E|[]]]).
    - apply (join_inj dir _ _ D (hname_file j) (hname_file i)) in E. apply hname_inj in E. now subst.
    - symmetry in E. now apply names_hk in E.
    - now apply names_hk in E.
    - apply (join_inj dir _ _ D (kname_file j) (kname_file i)) in E. apply kname_inj in E. now subst.
  Qed.
  Definition holds (dir : text) (d' : disk) (f k : text) (b : hydro) : Prop :=
    exists g m, h_mass b = Some g /\ h_stiffness b = Some m
      /\ (exists t, d' (path_join dir f) = Some t /\ hydrostatics_file word_length show_e (h_buoyancy b) g (h_volume b) t)
      /\ (exists t, d' (path_join dir k) = Some t /\ matrix_file show_e m t).
  Definition complete (b : hydro) : Prop := h_mass b <> None /\ h_stiffness b <> None.
  Lemma all_ok dir : directory_name dir -> forall bodies i d, Forall complete bodies ->
    exists d', write_all dir i bodies d = (d', None) /\ only_touches (names dir (seq i (length bodies))) d d'
      /\ forall j b, nth_error bodies j = Some b -> holds dir d' (hname (i + j)) (kname (i + j)) b.
  Proof.
    intros D. induction bodies as [|b bodies IH]; intros i d H.
    - exists d. split; [reflexivity|]. split; [intros p _; reflexivity|]. intros [|j] b Hb; discriminate.
    - inversion H as [|? ? [C1 C2] H']; subst. destruct (h_mass b) as [g|] eqn:E1; [|contradiction]. destruct (h_stiffness b) as [m|] eqn:E2; [|contradiction].
      destruct (one_ok (path_join dir (hname i)) (path_join dir (kname i)) b g m d (names_hk dir i i D) E1 E2) as (d1 & W & T & (t & Et & Ft) & (u & Eu & Fu)).
      destruct (IH (S i) d1 H') as (d' & W' & T' & N'). exists d'. cbn [Model_Tecplot.write_all]. fold (hname i) (kname i). rewrite W. split; [exact W'|]. split.
      + intros p Hp. cbn [length seq] in Hp. unfold names in Hp. cbn [flat_map] in Hp. rewrite T'; [|intros Hn; apply Hp; right; right; exact Hn]. apply T. intros Hn. apply Hp. cbn in Hn |- *. tauto.
      + intros [|j] b' Hb'.
        * injection Hb' as <-. rewrite Nat.add_0_r. exists g, m. split; [exact E1|]. split; [exact E2|]. split.
          -- exists t. split; [|exact Ft]. rewrite T'; [exact Et|]. intros Hn. apply (proj1 (names_in dir _ i D)) in Hn. apply in_seq in Hn. lia.
          -- exists u. split; [|exact Fu]. rewrite T'; [exact Eu|]. intros Hn. apply (proj2 (names_in dir _ i D)) in Hn. apply in_seq in Hn. lia.
        * rewrite <- Nat.add_succ_comm. now apply N'.
  Qed.
  Lemma hname_numbered n i : n <> 1 -> hname i = numbered "Hydrostatics" n i.
  Proof. intros N. unfold numbered. apply Nat.eqb_neq in N. rewrite N. reflexivity. Qed.
  Lemma kname_numbered n i : n <> 1 -> kname i = numbered "KH" n i.
  Proof. intros N. unfold numbered. apply Nat.eqb_neq in N. rewrite N. reflexivity. Qed.
  Lemma export_many dir bodies d : length bodies <> 1 -> export dir bodies d = write_all dir 0 bodies d.
  Proof. destruct bodies as [|b [|b' bodies]]; [reflexivity|intros H; now contradiction H|reflexivity]. Qed.
  Lemma single_names dir : directory_name dir -> path_join dir (lit "Hydrostatics.dat") <> path_join dir (lit "KH.dat").
  Proof.
    intros D E. apply (join_inj dir) in E; [discriminate|exact D| |]; (split; [discriminate|repeat constructor]).
  Qed.
  Lemma export_ok dir bodies d : directory_name dir -> Forall complete bodies ->
    let n := length bodies in
    exists d', export dir bodies d = (d', None)
      /\ only_touches (flat_map (fun i => [path_join dir (numbered "Hydrostatics" n i); path_join dir (numbered "KH" n i)]) (seq 0 n)) d d'
      /\ forall i b, nth_error bodies i = Some b -> holds dir d' (numbered "Hydrostatics" n i) (numbered "KH" n i) b.
  Proof.
    intros D H n. destruct (Nat.eq_dec n 1) as [E|N].
    - unfold n in *. destruct bodies as [|b [|b' bodies]]; try discriminate. inversion H as [|? ? [C1 C2] _]; subst.
      destruct (h_mass b) as [g|] eqn:E1; [|contradiction]. destruct (h_stiffness b) as [m|] eqn:E2; [|contradiction].
      destruct (one_ok (path_join dir (lit "Hydrostatics.dat")) (path_join dir (lit "KH.dat")) b g m d (single_names dir D) E1 E2) as (d1 & W & T & F & K).
      exists d1. split; [exact W|]. split; [exact T|]. intros [|[|i]] b' Hb'; try discriminate. injection Hb' as <-. exists g, m. auto.
    - destruct (all_ok dir D bodies 0 d H) as (d' & W & T & F). exists d'. split; [rewrite export_many by exact N; exact W|]. split.
      + intros p Hp. apply T. intros Hn. apply Hp. unfold names in Hn. apply in_flat_map in Hn. destruct Hn as (i & Hi & Hn). apply in_flat_map. exists i. split; [exact Hi|].
        rewrite <- hname_numbered, <- kname_numbered by exact N. exact Hn.
      + intros i b Hb. rewrite <- hname_numbered, <- kname_numbered by exact N. apply (F i b Hb).
  Qed.
  (** The first body that is not complete stops the export. *)
  Lemma all_stops dir : directory_name dir -> forall before b after i d, Forall complete before -> ~ complete b ->
    exists d', write_all dir i (before ++ b :: after) d = (d', Some (match h_mass b with None => TypeError | Some _ => AttributeError end))
      /\ (forall j b', nth_error before j = Some b' -> holds dir d' (hname (i + j)) (kname (i + j)) b')
      /\ (h_mass b = None -> d' (path_join dir (hname (i + length before))) = Some [])
      /\ (forall j, i + length before < j -> d' (path_join dir (hname j)) = d (path_join dir (hname j)))
      /\ (forall j, i + length before <= j -> d' (path_join dir (kname j)) = d (path_join dir (kname j))).
  Proof.
    intros D. induction before as [|b0 before IH]; intros b after i d H NC.
    - cbn [app length Model_Tecplot.write_all]. rewrite Nat.add_0_r. fold (hname i) (kname i). unfold Model_Tecplot.write_hydrostatics.
      assert (HH : forall j, i < j -> path_join dir (hname j) <> path_join dir (hname i)).
      { intros j Hj E. apply (join_inj dir _ _ D (hname_file j) (hname_file i)) in E. apply hname_inj in E. lia. }
      assert (KK : forall j, path_join dir (kname j) <> path_join dir (hname i)) by (intros j E; symmetry in E; now apply names_hk in E).
      destruct (h_mass b) as [g|] eqn:E1; [destruct (h_stiffness b) as [m|] eqn:E2|].
      + exfalso. apply NC. split; congruence.
      + eexists. split; [reflexivity|]. split; [intros [|j] b' Hb'; discriminate|]. split; [discriminate|]. split; intros j Hj; apply unwritten; auto.
      + eexists. split; [reflexivity|]. split; [intros [|j] b' Hb'; discriminate|]. split; [intros _; apply written|]. split; intros j Hj; apply unwritten; auto.
    - inversion H as [|? ? [C1 C2] H']; subst. destruct (h_mass b0) as [g|] eqn:E1; [|contradiction]. destruct (h_stiffness b0) as [m|] eqn:E2; [|contradiction].
      destruct (one_ok (path_join dir (hname i)) (path_join dir (kname i)) b0 g m d (names_hk dir i i D) E1 E2) as (d1 & W & T & (t & Et & Ft) & (u & Eu & Fu)).
      assert (KEEP : forall bodies i0 d0, exists k, only_touches (names dir (seq i0 k)) d0 (fst (write_all dir i0 bodies d0))).
      { clear - D. induction bodies as [|b bodies IH]; intros i0 d0.
        - exists 0. intros p _. reflexivity.
        - cbn [Model_Tecplot.write_all]. fold (hname i0) (kname i0). destruct (write_hydrostatics (path_join dir (hname i0)) (path_join dir (kname i0)) b d0) as [d1 e] eqn:E.
          assert (T : only_touches [path_join dir (hname i0); path_join dir (kname i0)] d0 d1).
          { unfold Model_Tecplot.write_hydrostatics in E. intros p Hp. cbn in Hp. destruct (h_mass b); [destruct (h_stiffness b)|]; injection E as <- _; rewrite !unwritten by (intros ->; tauto); reflexivity. }
          destruct e.
          + exists 1. intros q Hq. apply T. exact Hq.
          + destruct (IH (S i0) d1) as (k & K). exists (S k). intros p Hp. cbn [seq] in Hp. unfold names in Hp. cbn [flat_map] in Hp.
            rewrite K; [|intros Hn; apply Hp; right; right; exact Hn]. apply T. intros Hn. apply Hp. cbn in Hn |- *. tauto. }
      destruct (IH b after (S i) d1 H' NC) as (d' & W' & N' & M' & P1 & P2). destruct (KEEP (before ++ b :: after) (S i) d1) as (k & T'). rewrite W' in T'. cbn [fst] in T'.
      exists d'. cbn [app length Model_Tecplot.write_all]. fold (hname i) (kname i). rewrite W. split; [exact W'|]. split; [|split; [|split]].
      + intros [|j] b' Hb'.
        * injection Hb' as <-. rewrite Nat.add_0_r. exists g, m. split; [exact E1|]. split; [exact E2|]. split.
          -- exists t. split; [|exact Ft]. rewrite T'; [exact Et|]. intros Hn. apply (proj1 (names_in dir _ i D)) in Hn. apply in_seq in Hn. lia.
          -- exists u. split; [|exact Fu]. rewrite T'; [exact Eu|]. intros Hn. apply (proj2 (names_in dir _ i D)) in Hn. apply in_seq in Hn. lia.
        * rewrite <- Nat.add_succ_comm. now apply N'.
      + intros Hm. rewrite <- Nat.add_succ_comm. now apply M'.
      + intros j Hj. rewrite P1 by lia. apply T. intros [E|[E|[]]].
        * apply (join_inj dir _ _ D (hname_file i) (hname_file j)) in E. apply hname_inj in E. lia.
        * symmetry in E. now apply names_hk in E.
      + intros j Hj. rewrite P2 by lia. apply T. intros [E|[E|[]]].
        * now apply names_hk in E.
        * apply (join_inj dir _ _ D (kname_file i) (kname_file j)) in E. apply kname_inj in E. lia.
  Qed.
End Hydro.
