(** The files of results. *)
From Coq Require Import Reals String Ascii.
From Coq Require Import List Bool ZArith Arith Lia Permutation.
From Verif Require Import Spec_Nemoh Spec_NemohFiles Proofs_Nemoh3 Model_Base Model_Geometry Model_Problem Model_Solver Model_Text Model_Files Model_Nemoh Model_Dataset Spec_Dataset Model_Matrices Spec_Matrices
  Proofs_Dataset Proofs_Dataset2 Proofs_Dataset3 Proofs_Matrices Proofs_Matrices2 Proofs_Matrices3 Proofs_Text Spec_Tecplot Model_Tecplot Proofs_Tecplot Proofs_Tecplot2.
Import ListNotations.
Open Scope nat_scope.

Lemma map_repeat {A B} (g : A -> B) x n : map g (repeat x n) = repeat (g x) n.
Proof. induction n; cbn [repeat map]; congruence. Qed.
Lemma written p t d : write_file p t d p = Some t.
Proof. unfold write_file, text_eqb. destruct (list_eq_dec ascii_dec p p); [reflexivity|contradiction]. Qed.
Lemma unwritten p q t d : q <> p -> write_file p t d q = d q.
Proof. intros N. unfold write_file, text_eqb. destruct (list_eq_dec ascii_dec q p); [contradiction|reflexivity]. Qed.
Lemma radiation_file_name : file_name radiation_name. Proof. split; [discriminate|repeat constructor]. Qed.
Lemma excitation_file_name : file_name excitation_name. Proof. split; [discriminate|repeat constructor]. Qed.

Section Files.
  Variable cell : Type.
  Variable nan : cell.
  Variable cell_add : cell -> cell -> cell.
  Hypothesis nan_add : cell_add nan nan = nan.
  Variable arrange : column -> list value -> list value.
  Hypothesis arranged : forall c l, Permutation l (arrange c l).
  Variable show_cell : cell -> text.
  Variable show_freq : value -> text.
  Variable show_dir : value -> text.
  Variable modulus : cell -> cell.
  Variable argument : cell -> cell.
  Hypothesis cell_word : forall x, one_word (show_cell x).
  Hypothesis freq_word : forall v, one_word (show_freq v).
  Hypothesis dir_line : forall v, no_newline (show_dir v).
  Notation assemble := (assemble_dataset cell nan cell_add arrange).
  Notation column_of := (column_of cell).
  Notation ticks := (ticks cell).
  Notation picked := (picked cell).
  Notation radiation_items := (radiation_items cell show_cell show_freq).
  Notation excitation_items := (excitation_items cell show_cell show_freq show_dir modulus argument).
  Notation write := (write_tecplot cell cell_add show_cell show_freq show_dir modulus argument).
  Let value_of (a : assembled cell) (q : quantity) (k : pkind) (o c e : value) : cell := match picked (a_data _ a) q (params k o c e) with Ok x => x | Err _ => nan end.

  Lemma radiation_text results a rad : assemble results = Ok a -> a_main _ a = Omega -> rows_of cell Radiation results rad -> rad <> [] -> same_conditions cell Radiation rad ->
    (forall d, In (Name d) (ticks a RadiatingDof) -> no_newline (lit d)) ->
    exists t A B, emit (radiation_items (a_data _ a)) = (t, None)
      /\ (forall o c e, In o (ticks a COmega) -> In c (ticks a RadiatingDof) -> In e (ticks a InfluencedDof) ->
            coefficient cell nan rad [(COmega, o); (RadiatingDof, c); (InfluencedDof, e)] (fun r => cell_of cell r AddedMass) (A o c e)
            /\ coefficient cell nan rad [(COmega, o); (RadiatingDof, c); (InfluencedDof, e)] (fun r => cell_of cell r RadiationDamping) (B o c e))
      /\ tec_file (length (ticks a RadiatingDof) + 1) (tec_blocks dof_text show_freq (fun o c e => [show_cell (A o c e); show_cell (B o c e)]) (ticks a RadiatingDof) (ticks a COmega) (ticks a InfluencedDof)) t.
  Proof.
    intros HA HM HR HN HV HL. set (A := value_of a AddedMass Radiation). set (B := value_of a RadiationDamping Radiation).
    assert (L : forall c, In c [COmega; RadiatingDof; InfluencedDof] -> loop_labels cell (a_data _ a) c = Ok (ticks a c)).
    { intros c Hc. apply (loop_ok cell nan cell_add nan_add arrange arranged Radiation results a rad); auto; [discriminate|]. rewrite HM. exact Hc. }
    assert (PK : forall q o c e, wanted Radiation q -> In o (ticks a COmega) -> In c (ticks a RadiatingDof) -> In e (ticks a InfluencedDof) ->
      exists x, picked (a_data _ a) q (params Radiation o c e) = Ok x /\ coefficient cell nan rad (params Radiation o c e) (meaning cell cell_add q) x).
    { intros q o c e Hq Ho Hc He. apply (picked_ok cell nan cell_add nan_add arrange arranged Radiation results a rad q); auto. discriminate. }
    assert (W1 : wanted Radiation AddedMass) by (left; cbn; tauto). assert (W2 : wanted Radiation RadiationDamping) by (left; cbn; tauto).
    assert (E : radiation_items (a_data _ a) = map Ok (repeat (line (lit "...")) (length (ticks a RadiatingDof) + 1)
      ++ items dof_text show_freq (fun o c e => show_cell (A o c e)) (fun o c e => show_cell (B o c e)) (ticks a RadiatingDof) (ticks a COmega) (ticks a InfluencedDof))).
    { unfold Model_Tecplot.radiation_items. rewrite !(L RadiatingDof), (L COmega), (L InfluencedDof) by (cbn; tauto). rewrite map_app, map_repeat. f_equal.
      unfold items. rewrite map_flat. apply flat_ext_in. intros c Hc. cbn [map]. f_equal. rewrite map_flat. apply flat_ext_in. intros o Ho. unfold row_items. cbn [map]. f_equal.
      rewrite map_app. f_equal. rewrite map_flat. apply flat_ext_in. intros e He. cbn [map].
      destruct (PK AddedMass o c e W1 Ho Hc He) as (x & X & _). destruct (PK RadiationDamping o c e W2 Ho Hc He) as (y & Y & _).
      change [(COmega, o); (RadiatingDof, c); (InfluencedDof, e)] with (params Radiation o c e). unfold A, B, value_of. rewrite X, Y. reflexivity. }
    eexists. exists A, B. split; [rewrite E; apply emit_ok|]. split.
    - intros o c e Ho Hc He. change [(COmega, o); (RadiatingDof, c); (InfluencedDof, e)] with (params Radiation o c e). unfold A, B, value_of.
      destruct (PK AddedMass o c e W1 Ho Hc He) as (x & X & Cx). destruct (PK RadiationDamping o c e W2 Ho Hc He) as (y & Y & Cy). rewrite X, Y. split; assumption.
    - apply tec_text.
      + intros c Hc. destruct c as [x|s|]; [repeat constructor|now apply HL|repeat constructor].
      + intros o _. apply freq_word.
      + intros o c e _ _ _. split; apply cell_word.
  Qed.
  Lemma excitation_text results a dif ds' : assemble results = Ok a -> a_main _ a = Omega -> rows_of cell Diffraction results dif -> dif <> [] -> same_conditions cell Diffraction dif ->
    d_coords _ _ ds' = d_coords _ _ (a_data _ a) -> (forall q, find_var q ds' = find_var q (a_data _ a)) ->
    exists t F, emit (excitation_items ds') = (t, None)
      /\ (forall o c e, In o (ticks a COmega) -> In c (ticks a WaveDirection) -> In e (ticks a InfluencedDof) ->
            coefficient cell nan dif [(COmega, o); (WaveDirection, c); (InfluencedDof, e)]
              (fun r => cell_add (cell_of cell r FroudeKrylovForce) (cell_of cell r DiffractionForce)) (F o c e))
      /\ tec_file (length (ticks a InfluencedDof) + 1) (tec_blocks (fun b => lit "angle=" ++ show_dir b) show_freq
           (fun o c e => [show_cell (modulus (F o c e)); show_cell (argument (F o c e))]) (ticks a WaveDirection) (ticks a COmega) (ticks a InfluencedDof)) t.
  Proof.
    intros HA HM HR HN HV E1 E2. set (F := value_of a ExcitationForce Diffraction).
    assert (L : forall c, In c [COmega; WaveDirection; InfluencedDof] -> loop_labels cell ds' c = Ok (ticks a c)).
    { intros c Hc. rewrite (loop_same cell (a_data _ a) ds' c E1). apply (loop_ok cell nan cell_add nan_add arrange arranged Diffraction results a dif); auto; [discriminate|]. rewrite HM. exact Hc. }
    assert (PK : forall o c e, In o (ticks a COmega) -> In c (ticks a WaveDirection) -> In e (ticks a InfluencedDof) ->
      exists x, picked (a_data _ a) ExcitationForce (params Diffraction o c e) = Ok x /\ coefficient cell nan dif (params Diffraction o c e) (meaning cell cell_add ExcitationForce) x).
    { intros o c e Ho Hc He. apply (picked_ok cell nan cell_add nan_add arrange arranged Diffraction results a dif ExcitationForce); auto; [discriminate|]. right. now split. }
    assert (E : excitation_items ds' = map Ok (repeat (line (lit "...")) (length (ticks a InfluencedDof) + 1)
      ++ items (fun b => lit "angle=" ++ show_dir b) show_freq (fun o c e => show_cell (modulus (F o c e))) (fun o c e => show_cell (argument (F o c e))) (ticks a WaveDirection) (ticks a COmega) (ticks a InfluencedDof))).
    { unfold Model_Tecplot.excitation_items. rewrite !(L InfluencedDof), (L COmega), (L WaveDirection) by (cbn; tauto). rewrite map_app, map_repeat. f_equal.
      unfold items. rewrite map_flat. apply flat_ext_in. intros c Hc. cbn [map]. f_equal. rewrite map_flat. apply flat_ext_in. intros o Ho. unfold row_items. cbn [map]. f_equal.
      rewrite map_app. f_equal. rewrite map_flat. apply flat_ext_in. intros e He. cbn [map]. rewrite (picked_same cell (a_data _ a) ds' ExcitationForce _ E1 E2).
      destruct (PK o c e Ho Hc He) as (x & X & _). change [(COmega, o); (WaveDirection, c); (InfluencedDof, e)] with (params Diffraction o c e). unfold F, value_of. rewrite X. reflexivity. }
    eexists. exists F. split; [rewrite E; apply emit_ok|]. split.
    - intros o c e Ho Hc He. change [(COmega, o); (WaveDirection, c); (InfluencedDof, e)] with (params Diffraction o c e). unfold F, value_of.
      destruct (PK o c e Ho Hc He) as (x & X & Cx). rewrite X. exact Cx.
    - apply tec_text.
      + intros c _. apply one_line_app; [repeat constructor|apply dir_line].
      + intros o _. apply freq_word.
      + intros o c e _ _ _. split; apply cell_word.
  Qed.

  Lemma has_some q ds dims xs : find_var q ds = Some (dims, xs) -> has_var cell q ds = true.
  Proof. intros H. unfold has_var. now rewrite H. Qed.
  Lemma has_none q ds : find_var q ds = None -> has_var cell q ds = false.
  Proof. intros H. unfold has_var. now rewrite H. Qed.

  Lemma tecplot_ok results a rad dif dir d : assemble results = Ok a -> a_main _ a = Omega -> rows_of cell Radiation results rad -> rows_of cell Diffraction results dif ->
    same_conditions cell Radiation rad -> same_conditions cell Diffraction dif -> directory_name dir ->
    (forall x, In (Name x) (ticks a RadiatingDof) -> no_newline (lit x)) ->
    exists d' ds', write dir (a_data _ a) d = (d', Ok ds')
      /\ d_coords _ _ ds' = d_coords _ _ (a_data _ a) /\ (forall q, find_var q ds' = find_var q (a_data _ a))
      /\ only_touches ((if rad then [] else [path_join dir radiation_name]) ++ (if dif then [] else [path_join dir excitation_name])) d d'
      /\ (rad <> [] -> exists t A B, d' (path_join dir radiation_name) = Some t
           /\ (forall o c e, In o (ticks a COmega) -> In c (ticks a RadiatingDof) -> In e (ticks a InfluencedDof) ->
                 coefficient cell nan rad [(COmega, o); (RadiatingDof, c); (InfluencedDof, e)] (fun r => cell_of cell r AddedMass) (A o c e)
                 /\ coefficient cell nan rad [(COmega, o); (RadiatingDof, c); (InfluencedDof, e)] (fun r => cell_of cell r RadiationDamping) (B o c e))
           /\ tec_file (length (ticks a RadiatingDof) + 1) (tec_blocks dof_text show_freq (fun o c e => [show_cell (A o c e); show_cell (B o c e)]) (ticks a RadiatingDof) (ticks a COmega) (ticks a InfluencedDof)) t)
      /\ (dif <> [] -> exists t F, d' (path_join dir excitation_name) = Some t
           /\ (forall o c e, In o (ticks a COmega) -> In c (ticks a WaveDirection) -> In e (ticks a InfluencedDof) ->
                 coefficient cell nan dif [(COmega, o); (WaveDirection, c); (InfluencedDof, e)]
                   (fun r => cell_add (cell_of cell r FroudeKrylovForce) (cell_of cell r DiffractionForce)) (F o c e))
           /\ tec_file (length (ticks a InfluencedDof) + 1) (tec_blocks (fun b => lit "angle=" ++ show_dir b) show_freq
                (fun o c e => [show_cell (modulus (F o c e)); show_cell (argument (F o c e))]) (ticks a WaveDirection) (ticks a COmega) (ticks a InfluencedDof)) t).
  Proof.
    intros HA HM HR HD VR VD HP HL.
    assert (NE : path_join dir radiation_name <> path_join dir excitation_name).
    { intros E. apply (join_inj dir _ _ HP radiation_file_name excitation_file_name) in E. discriminate. }
    (* the first file *)
    assert (S1 : exists d1, (if has_var cell AddedMass (a_data _ a) then let '(t, e) := emit (radiation_items (a_data _ a)) in (write_file (path_join dir radiation_name) t d, e) else (d, None)) = (d1, None)
      /\ (rad = [] -> d1 = d) /\ (rad <> [] -> exists t A B, d1 = write_file (path_join dir radiation_name) t d
           /\ (forall o c e, In o (ticks a COmega) -> In c (ticks a RadiatingDof) -> In e (ticks a InfluencedDof) ->
                 coefficient cell nan rad [(COmega, o); (RadiatingDof, c); (InfluencedDof, e)] (fun r => cell_of cell r AddedMass) (A o c e)
                 /\ coefficient cell nan rad [(COmega, o); (RadiatingDof, c); (InfluencedDof, e)] (fun r => cell_of cell r RadiationDamping) (B o c e))
           /\ tec_file (length (ticks a RadiatingDof) + 1) (tec_blocks dof_text show_freq (fun o c e => [show_cell (A o c e); show_cell (B o c e)]) (ticks a RadiatingDof) (ticks a COmega) (ticks a InfluencedDof)) t)).
    { assert (CR : rad = [] \/ rad <> []) by (destruct rad; [now left|right; discriminate]). destruct CR as [HN|HN].
      - rewrite HN in HR. rewrite (has_none AddedMass); [|apply (no_var cell nan cell_add arrange Radiation results a); cbn; auto; discriminate]. exists d. split; [reflexivity|]. split; [reflexivity|contradiction].
      - destruct (some_var cell nan cell_add arrange arranged Radiation results a rad ltac:(discriminate) HA HR HN AddedMass) as (dims & xs & X & _); [cbn; tauto|].
        rewrite (has_some _ _ _ _ X). destruct (radiation_text results a rad HA HM HR HN VR HL) as (t & A & B & E & C & T). rewrite E. eexists. split; [reflexivity|]. split; [contradiction|]. intros _. exists t, A, B. auto. }
    destruct S1 as (d1 & S1 & S1a & S1b). unfold write_tecplot. rewrite S1.
    assert (CD : dif = [] \/ dif <> []) by (destruct dif; [now left|right; discriminate]). destruct CD as [HN|HN].
    - assert (HD' := HD). rewrite HN in HD'. rewrite (has_none DiffractionForce); [|apply (no_var cell nan cell_add arrange Diffraction results a); cbn; auto; discriminate]. exists d1, (a_data _ a).
      split; [reflexivity|]. split; [reflexivity|]. split; [reflexivity|]. split; [|split; [|contradiction]].
      + intros p Hp. rewrite HN, app_nil_r in Hp. destruct rad as [|r rad]; [now rewrite S1a|]. destruct S1b as (t & A & B & -> & _); [discriminate|]. apply unwritten. intros ->. apply Hp. now left.
      + intros H. destruct (S1b H) as (t & A & B & -> & C & T). exists t, A, B. split; [apply written|]. auto.
    - destruct (some_var cell nan cell_add arrange arranged Diffraction results a dif ltac:(discriminate) HA HD HN DiffractionForce) as (dims & xs & X & _); [cbn; tauto|].
      rewrite (has_some _ _ _ _ X). destruct (set_again cell nan cell_add arrange results a dif HA HD HN) as (ds' & Eds & C1 & C2). rewrite Eds.
      destruct (excitation_text results a dif ds' HA HM HD HN VD C1 C2) as (t & F & E & CF & T). rewrite E. eexists. exists ds'. split; [reflexivity|].
      split; [exact C1|]. split; [exact C2|]. split; [|split].
      + intros p Hp. assert (Np : p <> path_join dir excitation_name) by (intros ->; apply Hp; apply in_or_app; right; destruct dif; [contradiction|now left]).
        rewrite unwritten by exact Np. destruct rad as [|r rad]; [now rewrite S1a|]. destruct S1b as (t' & A & B & -> & _); [discriminate|]. apply unwritten. intros ->. apply Hp. now left.
      + intros H. destruct (S1b H) as (t' & A & B & -> & C & T'). exists t', A, B. split; [|auto]. rewrite unwritten by exact NE. apply written.
      + intros _. exists t, F. split; [apply written|]. auto.
  Qed.

  (** ** The datasets that cannot be written *)
  Lemma first_error {T} (f : T -> list (result text)) (l : list T) x l' pre e rest : l = x :: l' -> f x = map Ok pre ++ Err e :: rest -> exists rest', flat_map f l = map Ok pre ++ Err e :: rest'.
  Proof. intros -> H. cbn [flat_map]. rewrite H, <- app_assoc. cbn [app]. eauto. Qed.
  Lemma tecplot_period results a rad dir d : assemble results = Ok a -> a_main _ a <> Omega -> rows_of cell Radiation results rad -> rad <> [] ->
    exists d', write dir (a_data _ a) d = (d', Err KeyError).
  Proof.
    intros HA HM HR HN. destruct (some_var cell nan cell_add arrange arranged Radiation results a rad ltac:(discriminate) HA HR HN AddedMass) as (dims & xs & X & _); [cbn; tauto|].
    unfold write_tecplot. rewrite (has_some _ _ _ _ X). unfold Model_Tecplot.radiation_items.
    destruct (loop_ok cell nan cell_add nan_add arrange arranged Radiation results a rad ltac:(discriminate) HA HR HN RadiatingDof) as [L NT]; [destruct (a_main _ a); cbn; tauto|]. rewrite L.
    rewrite (no_omega cell nan cell_add arrange results a HA HM). destruct (ticks a RadiatingDof) as [|c l] eqn:El; [contradiction|]. set (n := length (c :: l) + 1).
    assert (ED : repeat dots n = map Ok (repeat (line (lit "...")) n)) by (now rewrite map_repeat).
    assert (EF : exists rest, flat_map (fun dof => [Ok (line (dof_text dof)); Err KeyError]) (c :: l) = map Ok [line (dof_text c)] ++ Err KeyError :: rest) by (cbn [flat_map app map]; eauto).
    destruct EF as (rest & EF). rewrite ED, EF, app_assoc, <- map_app, emit_err. eauto.
  Qed.
  Lemma tecplot_several results a rad dir d c0 : assemble results = Ok a -> a_main _ a = Omega -> rows_of cell Radiation results rad -> rad <> [] -> In c0 (other_dims Radiation) -> varying cell rad c0 ->
    (forall x, In (Name x) (ticks a RadiatingDof) -> no_newline (lit x)) ->
    exists d' t dof o, write dir (a_data _ a) d = (d', Err TypeError) /\ d' = write_file (path_join dir radiation_name) t d
      /\ readlines t = repeat (lit "..." ++ [newline]) (length (ticks a RadiatingDof) + 1) ++ [dof_text dof ++ [newline]; lit "  " ++ show_freq o ++ lit "  "].
  Proof.
    intros HA HM HR HN Hc0 Hv HL. destruct (some_var cell nan cell_add arrange arranged Radiation results a rad ltac:(discriminate) HA HR HN AddedMass) as (dims & xs & X & DF); [cbn; tauto|].
    unfold write_tecplot. rewrite (has_some _ _ _ _ X). unfold Model_Tecplot.radiation_items.
    assert (L : forall c, In c [COmega; RadiatingDof; InfluencedDof] -> loop_labels cell (a_data _ a) c = Ok (ticks a c) /\ ticks a c <> []).
    { intros c Hc. apply (loop_ok cell nan cell_add nan_add arrange arranged Radiation results a rad); auto; [discriminate|]. rewrite HM. exact Hc. }
    destruct (L COmega) as [L1 N1]; [cbn; tauto|]. destruct (L RadiatingDof) as [L2 N2]; [cbn; tauto|]. destruct (L InfluencedDof) as [L3 N3]; [cbn; tauto|]. rewrite L1, L2, L3.
    assert (PE : forall o c e, picked (a_data _ a) AddedMass [(COmega, o); (RadiatingDof, c); (InfluencedDof, e)] = Err TypeError).
    { intros o c e. unfold Model_Tecplot.picked. rewrite X. rewrite HM in DF.
      assert (M1 : forallb (fun cv => mem (fst cv) dims) [(COmega, o); (RadiatingDof, c); (InfluencedDof, e)] = true).
      { apply forallb_forall. intros [c' v] Hc'. apply mem_In. apply DF. left. cbn [fst]. destruct Hc' as [E|[E|[E|[]]]]; injection E as <- <-; cbn; tauto. }
      rewrite M1. cbn [negb]. destruct (forallb _ dims) eqn:M2; [|reflexivity]. exfalso. rewrite forallb_forall in M2.
      assert (H := M2 c0 (proj2 (DF c0) (or_intror (conj Hc0 Hv)))). apply mem_In in H. cbn in H. cbn in Hc0. intuition (subst; discriminate). }
    destruct (ticks a COmega) as [|o l1] eqn:E1; [contradiction|]. destruct (ticks a RadiatingDof) as [|dof l2] eqn:E2; [contradiction|]. destruct (ticks a InfluencedDof) as [|e l3] eqn:E3; [contradiction|].
    set (n := length (dof :: l2) + 1). assert (ED : repeat dots n = map Ok (repeat (line (lit "...")) n)) by (now rewrite map_repeat).
    match goal with |- context [emit (_ ++ flat_map ?f _)] => set (block := f) end.
    assert (EF : exists rest, flat_map block (dof :: l2) = map Ok [line (dof_text dof); lit "  " ++ show_freq o ++ lit "  "] ++ Err TypeError :: rest).
    { cbn [flat_map]. unfold block at 1. cbn [flat_map]. rewrite PE. cbn [shown bind app map]. eexists. reflexivity. }
    destruct EF as (rest & EF). rewrite ED, EF, app_assoc, <- map_app, emit_err. do 4 eexists. split; [reflexivity|]. split; [reflexivity|].
    assert (R : repeat (line (lit "...")) n = map line (repeat (lit "...") n)) by (now rewrite map_repeat).
    change [line (dof_text dof); lit "  " ++ show_freq o ++ lit "  "] with (map line [dof_text dof] ++ [lit "  " ++ show_freq o ++ lit "  "]).
    rewrite app_assoc, R, <- map_app, concat_app. cbn [concat]. rewrite app_nil_r.
    assert (G : forall ls u, Forall one_line ls -> one_line u -> u <> [] -> readlines (concat (map line ls) ++ u) = map line ls ++ [u]).
    { clear. intros ls u H Hu Nu. induction ls as [|l ls IH]; cbn [map concat app].
      - unfold readlines. assert (K : forall u cur, one_line u -> (u <> [] \/ cur <> []) -> readlines_aux cur u = [rev cur ++ u]).
        { clear. induction u as [|c u IH]; intros cur H Hn; cbn [readlines_aux].
          - rewrite app_nil_r. destruct cur; [destruct Hn; contradiction|reflexivity].
          - inversion H; subst. rewrite H2. rewrite IH; [|assumption|right; discriminate]. cbn [rev]. now rewrite <- app_assoc. }
        rewrite K; [reflexivity|exact Hu|now left].
      - inversion H; subst. unfold line at 1. rewrite <- !app_assoc. cbn [app]. rewrite readlines_line by assumption. f_equal. now apply IH. }
    rewrite G.
    - rewrite map_app, <- R, <- app_assoc. reflexivity.
    - apply Forall_app. split; [apply Forall_forall; intros x Hx; apply repeat_spec in Hx; subst; repeat constructor|]. constructor; [|constructor].
      assert (Hd : In dof (dof :: l2)) by now left. destruct dof as [x|s|]; [repeat constructor|exact (HL s Hd)|repeat constructor].
    - apply one_line_app; [repeat constructor|]. apply one_line_app; [apply word_one_line; apply freq_word|repeat constructor].
    - discriminate.
  Qed.
End Files.
