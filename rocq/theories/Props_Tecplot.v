(** C89: the files of results and of hydrostatics. *)
From Coq Require Import Reals String Ascii.
From Coq Require Import List Bool ZArith Arith Permutation Lra Lia.
From Verif Require Import Spec_NemohFiles Proofs_Text Model_Base Model_Geometry Model_Problem Spec_Problem Model_Solver Model_Text Model_Files Model_Nemoh Proofs_Problem3 Model_Dataset Spec_Dataset
  Proofs_Dataset Proofs_Dataset2 Proofs_Dataset3 Proofs_Dataset4 Props_Dataset Model_Matrices Spec_Matrices Props_Matrices Spec_Tecplot Model_Tecplot Proofs_Tecplot3 Proofs_Tecplot4 Proofs_Tecplot5.
Import ListNotations.
Open Scope nat_scope.

(** The numbers are written as words, and the wave directions on one line. *)
Definition printed {cell} (show_cell : cell -> text) (show_freq show_dir : value -> text) : Prop :=
  (forall x, one_word (show_cell x)) /\ (forall v, one_word (show_freq v)) /\ (forall v, no_newline (show_dir v)).

(** The results of one density, gravity, body, depth, speed (and wave direction, for the radiation) given by their pulsations. The file of the
    radiation has a block for each radiating dof, a row for each pulsation, and the added mass and the damping for each influenced dof. The file of the
    excitation has a block for each wave direction, and the modulus and the phase of the sum of the forces. Nothing else is written, and the arrays of the dataset
    are left as they were. Partial: see the four next theorems. *)
Theorem tecplot_files_partial : forall cell (nan : cell) cell_add arrange, proper nan cell_add arrange ->
  forall show_cell show_freq show_dir modulus argument, printed show_cell show_freq show_dir ->
  forall results a rad dif dir d, assemble_dataset cell nan cell_add arrange results = Ok a -> a_main _ a = Omega -> rows_of cell Radiation results rad -> rows_of cell Diffraction results dif ->
  same_conditions cell Radiation rad -> same_conditions cell Diffraction dif -> directory_name dir -> (forall x, In (Name x) (ticks _ a RadiatingDof) -> no_newline (lit x)) ->
  exists d' ds', write_tecplot cell cell_add show_cell show_freq show_dir modulus argument dir (a_data _ a) d = (d', Ok ds')
    /\ d_coords _ _ ds' = d_coords _ _ (a_data _ a) /\ (forall q, find_var q ds' = find_var q (a_data _ a))
    /\ only_touches ((if rad then [] else [path_join dir (lit "RadiationCoefficients.tec")]) ++ (if dif then [] else [path_join dir (lit "ExcitationForce.tec")])) d d'
    /\ (rad <> [] -> exists t A B, d' (path_join dir (lit "RadiationCoefficients.tec")) = Some t
         /\ (forall o c e, In o (ticks _ a COmega) -> In c (ticks _ a RadiatingDof) -> In e (ticks _ a InfluencedDof) ->
               coefficient cell nan rad [(COmega, o); (RadiatingDof, c); (InfluencedDof, e)] (fun r => cell_of cell r AddedMass) (A o c e)
               /\ coefficient cell nan rad [(COmega, o); (RadiatingDof, c); (InfluencedDof, e)] (fun r => cell_of cell r RadiationDamping) (B o c e))
         /\ tec_file (List.length (ticks _ a RadiatingDof) + 1) (tec_blocks (fun v => match v with Name s => lit s | _ => lit "nan" end) show_freq
              (fun o c e => [show_cell (A o c e); show_cell (B o c e)]) (ticks _ a RadiatingDof) (ticks _ a COmega) (ticks _ a InfluencedDof)) t)
    /\ (dif <> [] -> exists t F, d' (path_join dir (lit "ExcitationForce.tec")) = Some t
         /\ (forall o c e, In o (ticks _ a COmega) -> In c (ticks _ a WaveDirection) -> In e (ticks _ a InfluencedDof) ->
               coefficient cell nan dif [(COmega, o); (WaveDirection, c); (InfluencedDof, e)]
                 (fun r => cell_add (cell_of cell r FroudeKrylovForce) (cell_of cell r DiffractionForce)) (F o c e))
         /\ tec_file (List.length (ticks _ a InfluencedDof) + 1) (tec_blocks (fun b => lit "angle=" ++ show_dir b) show_freq
              (fun o c e => [show_cell (modulus (F o c e)); show_cell (argument (F o c e))]) (ticks _ a WaveDirection) (ticks _ a COmega) (ticks _ a InfluencedDof)) t).
Proof.
  intros cell nan cell_add arrange [H1 H2] show_cell show_freq show_dir modulus argument (W1 & W2 & W3).
  exact (tecplot_ok cell nan cell_add H1 arrange H2 show_cell show_freq show_dir modulus argument W1 W2 W3).
Qed.
Print Assumptions tecplot_files_partial.

(** With two values of another parameter, the writer raises an error and leaves a file that stops before its first coefficient. *)
Theorem tecplot_several_conditions_refused : forall cell (nan : cell) cell_add arrange, proper nan cell_add arrange ->
  forall show_cell show_freq show_dir modulus argument, printed show_cell show_freq show_dir ->
  forall results a rad dir d c0, assemble_dataset cell nan cell_add arrange results = Ok a -> a_main _ a = Omega -> rows_of cell Radiation results rad -> rad <> [] ->
  In c0 [Gravity; Rho; BodyName; WaterDepth; ForwardSpeed; WaveDirection] -> varying cell rad c0 -> (forall x, In (Name x) (ticks _ a RadiatingDof) -> no_newline (lit x)) ->
  exists d' t title o, write_tecplot cell cell_add show_cell show_freq show_dir modulus argument dir (a_data _ a) d = (d', Err TypeError)
    /\ d' = write_file (path_join dir (lit "RadiationCoefficients.tec")) t d
    /\ readlines t = repeat (lit "..." ++ [newline]) (List.length (ticks _ a RadiatingDof) + 1) ++ [dof_text title ++ [newline]; lit "  " ++ show_freq o ++ lit "  "].
Proof.
  intros cell nan cell_add arrange [H1 H2] show_cell show_freq show_dir modulus argument (W1 & W2 & W3).
  exact (tecplot_several cell nan cell_add H1 arrange H2 show_cell show_freq show_dir modulus argument W2).
Qed.
Print Assumptions tecplot_several_conditions_refused.

(** A dataset whose main frequency is a period, a wavenumber or a wavelength is refused. *)
Theorem tecplot_other_frequency_refused : forall cell (nan : cell) cell_add arrange, proper nan cell_add arrange ->
  forall show_cell show_freq show_dir modulus argument results a rad dir d, assemble_dataset cell nan cell_add arrange results = Ok a -> a_main _ a <> Omega ->
  rows_of cell Radiation results rad -> rad <> [] ->
  exists d', write_tecplot cell cell_add show_cell show_freq show_dir modulus argument dir (a_data _ a) d = (d', Err KeyError).
Proof.
  intros cell nan cell_add arrange [H1 H2] show_cell show_freq show_dir modulus argument.
  exact (tecplot_period cell nan cell_add H1 arrange H2 show_cell show_freq show_dir modulus argument).
Qed.
Print Assumptions tecplot_other_frequency_refused.

(** The same when it is in the diffraction results only that another parameter has two values, or when there are diffraction results only. *)
Theorem tecplot_several_excitations_refused : forall cell (nan : cell) cell_add arrange, proper nan cell_add arrange ->
  forall show_cell show_freq show_dir modulus argument, printed show_cell show_freq show_dir ->
  forall results a rad dif dir d c0, assemble_dataset cell nan cell_add arrange results = Ok a -> a_main _ a = Omega -> rows_of cell Radiation results rad -> rows_of cell Diffraction results dif ->
  same_conditions cell Radiation rad -> In c0 [Gravity; Rho; BodyName; WaterDepth; ForwardSpeed] -> varying cell dif c0 -> (forall x, In (Name x) (ticks _ a RadiatingDof) -> no_newline (lit x)) ->
  exists d', write_tecplot cell cell_add show_cell show_freq show_dir modulus argument dir (a_data _ a) d = (d', Err TypeError).
Proof.
  intros cell nan cell_add arrange [H1 H2] show_cell show_freq show_dir modulus argument (W1 & W2 & W3).
  exact (tecplot_several_dif cell nan cell_add H1 arrange H2 show_cell show_freq show_dir modulus argument W1 W2).
Qed.
Print Assumptions tecplot_several_excitations_refused.
Theorem tecplot_other_frequency_excitation_refused : forall cell (nan : cell) cell_add arrange, proper nan cell_add arrange ->
  forall show_cell show_freq show_dir modulus argument results a dif dir d, assemble_dataset cell nan cell_add arrange results = Ok a -> a_main _ a <> Omega ->
  rows_of cell Radiation results [] -> rows_of cell Diffraction results dif -> dif <> [] ->
  exists d', write_tecplot cell cell_add show_cell show_freq show_dir modulus argument dir (a_data _ a) d = (d', Err KeyError).
Proof.
  intros cell nan cell_add arrange [H1 H2] show_cell show_freq show_dir modulus argument.
  exact (tecplot_period_dif cell nan cell_add H1 arrange H2 show_cell show_freq show_dir modulus argument).
Qed.
Print Assumptions tecplot_other_frequency_excitation_refused.

(** The formats of the numbers of the hydrostatics: words, with spaces before the lengths. *)
Definition printed_lengths (show_length show_e word_length : R -> text) : Prop :=
  (forall x, one_word (word_length x) /\ exists n, show_length x = repeat space n ++ word_length x) /\ (forall x, one_word (show_e x)).
(** The two files of a body. *)
Definition files_of (show_e word_length : R -> text) (d : disk) (file kh_file : text) (b : hydro) : Prop :=
  exists g m, h_mass b = Some g /\ h_stiffness b = Some m
    /\ (exists t, d file = Some t /\ hydrostatics_file word_length show_e (h_buoyancy b) g (h_volume b) t)
    /\ (exists t, d kh_file = Some t /\ matrix_file show_e m t).

(** Each body with a centre of mass and a stiffness gets its two files, and nothing else is written. *)
Theorem hydrostatics_files : forall show_length show_e word_length, printed_lengths show_length show_e word_length ->
  forall dir bodies d, directory_name dir -> Forall (fun b => h_mass b <> None /\ h_stiffness b <> None) bodies ->
  let n := List.length bodies in let file i := path_join dir (numbered "Hydrostatics" n i) in let kh_file i := path_join dir (numbered "KH" n i) in
  exists d', export_hydrostatics show_length show_e dir bodies d = (d', None)
    /\ only_touches (flat_map (fun i => [file i; kh_file i]) (seq 0 n)) d d'
    /\ forall i b, nth_error bodies i = Some b -> files_of show_e word_length d' (file i) (kh_file i) b.
Proof. intros show_length show_e word_length [H1 H2]. exact (export_ok show_length show_e word_length H1 H2). Qed.
Print Assumptions hydrostatics_files.

(** Among several bodies, the first without a centre of mass or a stiffness stops the export: the bodies before it have their files, the files of the
    bodies after it are not written. *)
Theorem hydrostatics_files_stop : forall show_length show_e word_length, printed_lengths show_length show_e word_length ->
  forall dir before b after d, directory_name dir -> Forall (fun b => h_mass b <> None /\ h_stiffness b <> None) before -> ~ (h_mass b <> None /\ h_stiffness b <> None) ->
  let n := List.length (before ++ b :: after) in let m := List.length before in
  let file i := path_join dir (numbered "Hydrostatics" n i) in let kh_file i := path_join dir (numbered "KH" n i) in
  1 < n ->
  exists d', export_hydrostatics show_length show_e dir (before ++ b :: after) d = (d', Some (match h_mass b with None => TypeError | Some _ => AttributeError end))
    /\ (forall j b', nth_error before j = Some b' -> files_of show_e word_length d' (file j) (kh_file j) b')
    /\ (h_mass b = None -> d' (file m) = Some [])
    /\ (forall j, m < j -> d' (file j) = d (file j)) /\ (forall j, m <= j -> d' (kh_file j) = d (kh_file j)).
Proof.
  intros show_length show_e word_length [H1 H2] dir before b after d D HB HN n m file kh_file N.
  assert (N1 : n <> 1) by lia. rewrite (export_many show_length show_e dir _ d N1).
  destruct (all_stops show_length show_e word_length H1 H2 dir D before b after 0 d HB HN) as (d' & W & F & E & P1 & P2). exists d'. unfold file, kh_file.
  split; [exact W|]. split; [|split; [|split]]; intros *; rewrite <- ?hname_numbered, <- ?kname_numbered by exact N1.
  - apply (F j b').
  - exact E.
  - apply P1.
  - apply P2.
Qed.
Print Assumptions hydrostatics_files_stop.

(** ** Examples *)
Definition show_nat (n : nat) : text := dec (Z.of_nat n).
Lemma printed_ex : printed show_nat (fun _ => lit "1.0") (fun _ => lit "0.0").
Proof. split; [intros x; apply dec_word; lia|]. split; intros v; [split; [discriminate|]|]; repeat constructor. Qed.
Lemma directory_ex : directory_name (lit "results").
Proof. intros d' c E. assert (H := f_equal (fun t => last t newline) E). cbn beta in H. rewrite last_last in H. vm_compute in H. subst c. reflexivity. Qed.
Lemma main_same results a t : results <> [] -> assemble_dataset nat O Nat.add (fun _ l => l) results = Ok a ->
  (forall s, In s results -> f_type (p_freqs (s_problem _ s)) = t) -> a_main _ a = t.
Proof.
  intros N HA HT. destruct results as [|s0 l]; [contradiction|]. revert HA. unfold assemble_dataset.
  match goal with |- bind ?X _ = _ -> _ => destruct X; [|discriminate] end. cbn [bind]. cbv zeta.
  match goal with |- bind ?X _ = _ -> _ => destruct X; [|discriminate] end. cbn [bind].
  match goal with |- bind ?X _ = _ -> _ => destruct X; [|discriminate] end. cbn [bind]. intros [= <-]. cbn [a_main].
  assert (G : forall types x l, x = t -> (forall y, In y l -> y = t) -> most_common_from x l types = t).
  { clear. intros types x l. revert x. induction l as [|y l IH]; intros x Hx H; cbn [most_common_from]; [exact Hx|]. apply IH; [|intros z Hz; apply H; now right].
    match goal with |- (if ?b then _ else _) = _ => destruct b end; [apply H; now left|exact Hx]. }
  apply G; [destruct (Nat.ltb _ _); apply HT; now left|]. intros y Hy. apply in_map_iff in Hy. destruct Hy as (s & <- & Hs). apply HT. now right.
Qed.
(** Two radiation results and a diffraction result: both files are written. *)
Example tecplot_files_ex : exists a d' ds' t u, assemble_dataset nat O Nat.add (fun _ l => l) sway = Ok a
  /\ write_tecplot nat Nat.add show_nat (fun _ => lit "1.0") (fun _ => lit "0.0") (fun x => x) (fun _ => 0) (lit "results") (a_data _ a) (fun _ => None) = (d', Ok ds')
  /\ d' (lit "results/RadiationCoefficients.tec") = Some t /\ d' (lit "results/ExcitationForce.tec") = Some u /\ d' (lit "results/other") = None.
Proof.
  destruct sway_assembled as (a & HA). destruct sway_rows as [HR HD].
  assert (C1 : same_conditions nat Radiation sway_rad) by exact (sway_same Radiation sway_rad (fun r H => in_or_app _ _ r (or_introl H)) ltac:(discriminate)).
  assert (C2 : same_conditions nat Diffraction sway_dif) by exact (sway_same Diffraction sway_dif (fun r H => in_or_app _ _ r (or_intror H)) ltac:(discriminate)).
  assert (HM : a_main _ a = Omega).
  { apply (main_same sway); [discriminate|exact HA|]. intros s Hs. cbn in Hs. destruct Hs as [<-|[<-|[<-|[]]]]; reflexivity. }
  assert (HL : forall x, In (Name x) (ticks _ a RadiatingDof) -> no_newline (lit x)).
  { intros x Hx. destruct (matrices_labels nat O Nat.add (fun _ l => l) plain sway a _ _ HA HR HD) as (_ & L1 & _).
    apply L1 in Hx. destruct Hx as (r & Hr & E). cbn in Hr. destruct Hr as [<-|[<-|[<-|[<-|[]]]]]; cbn in E; injection E as <-; repeat constructor. }
  destruct (tecplot_files_partial nat O Nat.add (fun _ l => l) plain show_nat _ _ (fun x => x) (fun _ => 0) printed_ex sway a sway_rad sway_dif (lit "results") (fun _ => None)
    HA HM HR HD C1 C2 directory_ex HL) as (d' & ds' & W & _ & _ & T & R1 & R2).
  destruct (R1 ltac:(discriminate)) as (t & _ & _ & Et & _). destruct (R2 ltac:(discriminate)) as (u & _ & Eu & _).
  exists a, d', ds', t, u. split; [exact HA|]. split; [exact W|]. split; [exact Et|]. split; [exact Eu|]. apply T. intros [E|[E|[]]]; discriminate.
Qed.

Definition in_water (rho : R) (t : freq_type) : problem := {| p_body := Some (one_panel 0 "buoy" (-1) None); p_fs := Fin 0; p_depth := PInf;
  p_freqs := Freqs (FVal (Fin 1)) (FVal (Fin (2 * PI))) (FVal (Fin (/ 10))) (FVal (Fin (20 * PI))) t;
  p_enc := Freqs (FVal (Fin 1)) (FVal (Fin (2 * PI))) (FVal (Fin (/ 10))) (FVal (Fin (20 * PI))) t;
  p_speed := 0; p_rho := rho; p_g := 10; p_dir := 0; p_enc_dir := 0; p_bc := None |}.
Definition in_density (rho : R) (t : freq_type) : res nat := Res nat Radiation (in_water rho t) (Some "Surge"%string) (fun _ _ => 7).
Lemma densities_assembled t : let l := [in_density 1000 t; in_density 1025 t] in
  rows_of nat Radiation l [(in_density 1000 t, "Surge"%string); (in_density 1025 t, "Surge"%string)] /\ rows_of nat Diffraction l []
  /\ exists a, assemble_dataset nat O Nat.add (fun _ l => l) l = Ok a /\ a_main _ a = t.
Proof.
  intros l.
  assert (HR : rows_of nat Radiation l [(in_density 1000 t, "Surge"%string); (in_density 1025 t, "Surge"%string)]).
  { apply rows_one; try reflexivity. apply rows_one; try reflexivity. constructor. }
  assert (HD : rows_of nat Diffraction l []).
  { apply rows_skip; [intros [H _]; discriminate|]. apply rows_skip; [intros [H _]; discriminate|]. constructor. }
  split; [exact HR|]. split; [exact HD|]. destruct (dataset_accepted nat O Nat.add (fun _ l => l) plain) as (_ & _ & A).
  destruct (proj2 (A l _ _ ltac:(discriminate) ltac:(intros s Hs; cbn in Hs; intuition (subst; discriminate)) HR HD)) as (a & HA); [intros (c & r & r' & _ & _ & _ & _ & [] & _)|].
  exists a. split; [exact HA|]. apply (main_same l); [discriminate|exact HA|]. intros s Hs. cbn in Hs. destruct Hs as [<-|[<-|[]]]; reflexivity.
Qed.
(** Two densities. *)
Example tecplot_several_conditions_ex : exists a d', assemble_dataset nat O Nat.add (fun _ l => l) [in_density 1000 Omega; in_density 1025 Omega] = Ok a
  /\ write_tecplot nat Nat.add show_nat (fun _ => lit "1.0") (fun _ => lit "0.0") (fun x => x) (fun _ => 0) (lit "results") (a_data _ a) (fun _ => None) = (d', Err TypeError).
Proof.
  destruct (densities_assembled Omega) as (HR & HD & a & HA & HM).
  destruct (tecplot_several_conditions_refused nat O Nat.add (fun _ l => l) plain show_nat _ _ (fun x => x) (fun _ => 0) printed_ex _ a _ (lit "results") (fun _ => None) Rho
    HA HM HR ltac:(discriminate)) as (d' & t & title & o & W & _).
  - cbn; tauto.
  - exists (in_density 1000 Omega, "Surge"%string), (in_density 1025 Omega, "Surge"%string). split; [now left|]. split; [right; now left|]. cbn. intros [= H]. lra.
  - intros x Hx. destruct (matrices_labels nat O Nat.add (fun _ l => l) plain _ a _ _ HA HR HD) as (_ & L1 & _).
    apply L1 in Hx. destruct Hx as (r & Hr & E). cbn in Hr. destruct Hr as [<-|[<-|[]]]; cbn in E; injection E as <-; repeat constructor.
  - exists a, d'. split; [exact HA|exact W].
Qed.
(** Results given by their period. *)
Example tecplot_other_frequency_ex : exists a d', assemble_dataset nat O Nat.add (fun _ l => l) [in_density 1000 Period; in_density 1025 Period] = Ok a
  /\ write_tecplot nat Nat.add show_nat (fun _ => lit "1.0") (fun _ => lit "0.0") (fun x => x) (fun _ => 0) (lit "results") (a_data _ a) (fun _ => None) = (d', Err KeyError).
Proof.
  destruct (densities_assembled Period) as (HR & _ & a & HA & HM).
  destruct (tecplot_other_frequency_refused nat O Nat.add (fun _ l => l) plain show_nat (fun _ => lit "1.0") (fun _ => lit "0.0") (fun x => x) (fun _ => 0) _ a _ (lit "results") (fun _ => None) HA
    ltac:(rewrite HM; discriminate) HR ltac:(discriminate)) as (d' & W). exists a, d'. split; [exact HA|exact W].
Qed.

Definition held (rho : R) (t : freq_type) : res nat := Res nat Diffraction (in_water rho t) None (fun _ _ => 7).
Lemma held_assembled t : let l := [held 1000 t; held 1025 t] in
  rows_of nat Diffraction l [(held 1000 t, "Surge"%string); (held 1025 t, "Surge"%string)] /\ rows_of nat Radiation l []
  /\ exists a, assemble_dataset nat O Nat.add (fun _ l => l) l = Ok a /\ a_main _ a = t.
Proof.
  intros l.
  assert (HD : rows_of nat Diffraction l [(held 1000 t, "Surge"%string); (held 1025 t, "Surge"%string)]).
  { apply rows_one; try reflexivity. apply rows_one; try reflexivity. constructor. }
  assert (HR : rows_of nat Radiation l []).
  { apply rows_skip; [intros [H _]; discriminate|]. apply rows_skip; [intros [H _]; discriminate|]. constructor. }
  split; [exact HD|]. split; [exact HR|]. destruct (dataset_accepted nat O Nat.add (fun _ l => l) plain) as (_ & _ & A).
  destruct (proj2 (A l _ _ ltac:(discriminate) ltac:(intros s Hs; cbn in Hs; intuition (subst; discriminate)) HR HD)) as (a & HA); [intros (c & r & r' & _ & _ & _ & [] & _)|].
  exists a. split; [exact HA|]. apply (main_same l); [discriminate|exact HA|]. intros s Hs. cbn in Hs. destruct Hs as [<-|[<-|[]]]; reflexivity.
Qed.
Example tecplot_several_excitations_ex : exists a d', assemble_dataset nat O Nat.add (fun _ l => l) [held 1000 Omega; held 1025 Omega] = Ok a
  /\ write_tecplot nat Nat.add show_nat (fun _ => lit "1.0") (fun _ => lit "0.0") (fun x => x) (fun _ => 0) (lit "results") (a_data _ a) (fun _ => None) = (d', Err TypeError).
Proof.
  destruct (held_assembled Omega) as (HD & HR & a & HA & HM).
  destruct (tecplot_several_excitations_refused nat O Nat.add (fun _ l => l) plain show_nat _ _ (fun x => x) (fun _ => 0) printed_ex _ a _ _ (lit "results") (fun _ => None) Rho
    HA HM HR HD) as (d' & W).
  - intros c _ (r & _ & [] & _).
  - cbn; tauto.
  - exists (held 1000 Omega, "Surge"%string), (held 1025 Omega, "Surge"%string). split; [now left|]. split; [right; now left|]. cbn. intros [= H]. lra.
  - intros x Hx. destruct (matrices_labels nat O Nat.add (fun _ l => l) plain _ a _ _ HA HR HD) as (_ & L1 & _). apply L1 in Hx. destruct Hx as (r & [] & _).
  - exists a, d'. split; [exact HA|exact W].
Qed.
Example tecplot_other_frequency_excitation_ex : exists a d', assemble_dataset nat O Nat.add (fun _ l => l) [held 1000 Wavelength; held 1025 Wavelength] = Ok a
  /\ write_tecplot nat Nat.add show_nat (fun _ => lit "1.0") (fun _ => lit "0.0") (fun x => x) (fun _ => 0) (lit "results") (a_data _ a) (fun _ => None) = (d', Err KeyError).
Proof.
  destruct (held_assembled Wavelength) as (HD & HR & a & HA & HM).
  destruct (tecplot_other_frequency_excitation_refused nat O Nat.add (fun _ l => l) plain show_nat (fun _ => lit "1.0") (fun _ => lit "0.0") (fun x => x) (fun _ => 0) _ a _ (lit "results") (fun _ => None) HA
    ltac:(rewrite HM; discriminate) HR HD ltac:(discriminate)) as (d' & W). exists a, d'. split; [exact HA|exact W].
Qed.

Definition raft (k : option (list (list R))) : hydro := Hydro (V 0 0 (-1)) (Some (V 0 0 (-2))) 3 k.
Lemma printed_lengths_ex : printed_lengths (fun _ => lit " 0.5") (fun _ => lit "1E3") (fun _ => lit "0.5").
Proof.
  split; intros x; [split|]; try (split; [discriminate|repeat constructor]). exists 1. reflexivity.
Qed.
Example hydrostatics_files_ex : exists d', export_hydrostatics (fun _ => lit " 0.5") (fun _ => lit "1E3") (lit "results") [raft (Some [[1%R; 2%R]]); raft (Some [])] (fun _ => None) = (d', None)
  /\ d' (lit "results/Hydrostatics_1.dat") <> None /\ d' (lit "results/KH_0.dat") = Some (lit "1E3 1E3" ++ [newline]).
Proof.
  destruct (hydrostatics_files _ _ _ printed_lengths_ex (lit "results") [raft (Some [[1%R; 2%R]]); raft (Some [])] (fun _ => None) directory_ex) as (d' & W & _ & F).
  { repeat constructor; discriminate. }
  exists d'. split; [exact W|]. split.
  - destruct (F 1 _ eq_refl) as (g & m & _ & _ & (t & E & _) & _). change (lit "results/Hydrostatics_1.dat") with (path_join (lit "results") (numbered "Hydrostatics" 2 1)).
    cbn [List.length] in E. rewrite E. discriminate.
  - assert (X := W). cbv - [Rplus Rmult Rdiv Rminus Ropp IZR] in X. injection X as <-. reflexivity.
Qed.
(** The second of three rafts has no stiffness. *)
Example hydrostatics_files_stop_ex : exists d',
  export_hydrostatics (fun _ => lit " 0.5") (fun _ => lit "1E3") (lit "results") [raft (Some []); raft None; raft (Some [])] (fun _ => None) = (d', Some AttributeError)
  /\ d' (lit "results/Hydrostatics_0.dat") <> None /\ d' (lit "results/KH_1.dat") = None /\ d' (lit "results/Hydrostatics_2.dat") = None.
Proof.
  destruct (hydrostatics_files_stop _ _ _ printed_lengths_ex (lit "results") [raft (Some [])] (raft None) [raft (Some [])] (fun _ => None) directory_ex) as (d' & W & F & _ & P1 & P2).
  { repeat constructor; discriminate. }
  { intros [_ H]. now apply H. }
  { cbn. lia. }
  exists d'. split; [exact W|]. split; [|split].
  - destruct (F 0 _ eq_refl) as (g & m & _ & _ & (t & E & _) & _). change (lit "results/Hydrostatics_0.dat") with (path_join (lit "results") (numbered "Hydrostatics" 3 0)).
    cbn [List.length app] in E. rewrite E. discriminate.
  - exact (P2 1 (le_n 1)).
  - exact (P1 2 (le_n 2)).
Qed.
