(** Properties C48 and C60: the import of the results of other codes. *)
From Coq Require Import Reals String.
From Coq Require Import List Bool Arith Lia Lra.
From Verif Require Import Model_Base Model_Mesh Model_Bemio Spec_Bemio Proofs_Problem Proofs_Geometry Proofs_Bemio.
Import ListNotations.
Open Scope R_scope.

Section Import.
  Variable newton : R -> result R.
  Variables rho g : R.
  Variables wavenumber wavelength : bool.
  Notation dataframe := (dataframe_from_bemio newton rho g wavenumber wavelength).

  Lemma computable b : (forall c, exists x, newton c = Ok x) -> depth_given b PInf \/ (exists h, depth_given b (Fin h) /\ h <> 0) ->
    forall omega, exists c, common_of newton g wavenumber wavelength b omega = Ok c.
  Proof.
    intros N H omega. unfold common_of. destruct (wavenumber || wavelength); [|eauto].
    assert (D : depth_of b = PInf \/ exists h, depth_of b = Fin h /\ h <> 0).
    { unfold depth_of. destruct H as [[-> |[-> _]]|(h & [-> |[_ H]] & Hh)]; [auto|auto|right; eauto|discriminate]. }
    destruct D as [-> |(h & -> & Hh)]; cbn [wavenumber_of]; [cbn [bind]; eauto|]. destruct (Rltb 20 _); [cbn [bind]; eauto|].
    destruct (N (omega ^ 2 * h / g)) as [x ->]. cbn [bind]. rewrite Reqb_false by exact Hh. cbn [bind]. eauto.
  Qed.

  (** C48 and C60, for the data of one body, computed by WAMIT, whose frequencies are in ascending order: the rows are those that
      describe the data, each with its frequency. Missing: several bodies, the other codes, frequencies in another order. *)
  Theorem single_body_import_partial b e : (forall c, exists x, newton c = Ok x) -> depth_given b PInf \/ (exists h, depth_given b (Fin h) /\ h <> 0) ->
    bm_code b = "WAMIT"%string -> ascending (bm_w b) -> bm_w b <> [] -> bm_dirs b <> [] -> arrays_are b e ->
    exists rows, dataframe [b] 1 = Ok rows /\ (forall r, In r rows -> describes rho g b e (bm_w b) r) /\ complete rho g b e (bm_w b) rows.
  Proof.
    intros N D C S W Dr A. destruct (last_body_imported newton rho g wavenumber wavelength b [] 0 b e C) as (rows & H); auto.
    - intros i Hi. replace i with 0%nat by lia. exists b. split; [reflexivity|]. exists e. split; [exact A|]. intros omega _. now apply computable.
    - rewrite np_sort_ascending in H by exact S. exists rows. exact H.
  Qed.
  (** C48: when the import of several bodies succeeds, all the rows are about the last body. *)
  Theorem all_bodies_refuted bodies n rows last : dataframe bodies (S n) = Ok rows -> nth_error bodies n = Some last ->
    forall r, In r rows -> body_of r = bm_name last.
  Proof. exact (only_last_body newton rho g wavenumber wavelength bodies n rows last). Qed.
  (** C48: it does not succeed with the matrices of bemio, which have six columns per body. *)
  Theorem wide_matrices_refuted bodies n last rows : nth_error bodies (S n) = Some last -> (forall m, In m (bm_am last) -> length m = (6 * (n + 2))%nat) ->
    dataframe bodies (n + 2) <> Ok rows.
  Proof.
    intros L H. replace (n + 2)%nat with (S (S n)) by lia. apply (wide_matrices newton rho g wavenumber wavelength bodies (S n) rows last L).
    intros m Hm E. specialize (H m Hm). lia.
  Qed.
  (** C48: nor for the data of codes other than WAMIT. *)
  Theorem other_codes_refuted bodies n rows : Forall (fun b => bm_code b <> "WAMIT"%string) bodies -> dataframe bodies n <> Ok rows.
  Proof. exact (other_codes newton rho g wavenumber wavelength bodies n rows). Qed.
  (** C60: when the frequencies are not in ascending order, the coefficients of the first one are given to another one. *)
  Theorem frequencies_refuted b e w0 w1 : (forall c, exists x, newton c = Ok x) -> depth_given b PInf \/ (exists h, depth_given b (Fin h) /\ h <> 0) ->
    bm_code b = "WAMIT"%string -> bm_w b = [w0; w1] -> w1 < w0 -> bm_dirs b <> [] -> arrays_are b e ->
    exists rows c, dataframe [b] 1 = Ok rows /\ c_omega c = w1 /\ In (RadiationRow c "Surge" "Surge" (e_am e 0 0 0 * rho) (e_rd e 0 0 0 * rho * w1)) rows.
  Proof.
    intros N D C S L Dr A. destruct (last_body_imported newton rho g wavenumber wavelength b [] 0 b e C) as (rows & H & _ & _ & K); auto.
    - intros i Hi. replace i with 0%nat by lia. exists b. split; [reflexivity|]. exists e. split; [exact A|]. intros omega _. now apply computable.
    - rewrite S. discriminate.
    - assert (E : np_sort (bm_w b) = [w1; w0]).
      { rewrite S. cbn [np_sort fold_right insert_number]. replace (Rleb w0 w1) with false; [reflexivity|]. symmetry. apply not_true_is_false. rewrite Rleb_true. lra. }
      rewrite E in K. destruct (K 0%nat 0%nat 0%nat "Surge"%string "Surge"%string w1 eq_refl eq_refl eq_refl) as (c & (_ & _ & Hc) & I). exists rows, c. auto.
  Qed.
  (** C60: the data of another code that follow those of WAMIT are converted as if they came from WAMIT. *)
  Theorem units_refuted first b e e1 : (forall c, exists x, newton c = Ok x) ->
    (forall x, x = first \/ x = b -> depth_given x PInf \/ (exists h, depth_given x (Fin h) /\ h <> 0)) ->
    bm_code first = "WAMIT"%string -> arrays_are first e1 -> arrays_are b e -> bm_w b <> [] -> bm_dirs b <> [] ->
    exists rows, dataframe [first; b] 2 = Ok rows /\ complete rho g b e (np_sort (bm_w b)) rows.
  Proof.
    intros N D C A1 A W Dr. destruct (last_body_imported newton rho g wavenumber wavelength first [b] 1 b e C) as (rows & H & _ & K); auto.
    - intros i Hi. destruct i as [|[|i]]; [| |lia].
      + exists first. split; [reflexivity|]. exists e1. split; [exact A1|]. intros omega _. apply computable; auto.
      + exists b. split; [reflexivity|]. exists e. split; [exact A|]. intros omega _. apply computable; auto.
    - eauto.
  Qed.
  (** C60: in every import that succeeds, the wavenumbers, the wavelengths and the periods are those of the frequencies of their rows. *)
  Theorem imported_waves bodies n rows : g <> 0 -> (forall c x, newton c = Ok x -> x * tanh x = c) -> dataframe bodies n = Ok rows -> forall r, In r rows ->
    waves_right g wavenumber wavelength (common_of_row r) /\ (forall p, period_of_row r = Some p -> turn_over (c_omega (common_of_row r)) p).
  Proof. intros Hg Hn. exact (rows_waves newton rho g wavenumber wavelength Hg Hn bodies n rows). Qed.
End Import.

(** A body with one direction and two frequencies, whose data are sums of the indices. *)
Definition ex_entry (i j k : nat) : R := INR (100 * i + 10 * j + k).
Definition ex_entries : entries := Entries ex_entry ex_entry None ex_entry ex_entry.
Definition ex_body (name code : string) (w : list R) : bemio_body :=
  BemioBody name InfiniteWord code w [0] (table 6 1 (length w) ex_entry) (table 6 1 (length w) ex_entry) None (table 6 6 (length w) ex_entry) (table 6 6 (length w) ex_entry).
Lemma ex_arrays name code w : arrays_are (ex_body name code w) ex_entries.
Proof. unfold arrays_are. cbn. auto. Qed.
Lemma ex_depth name code w : depth_given (ex_body name code w) PInf. Proof. right. auto. Qed.
Definition ex_newton (c : R) : result R := Ok c.
Lemma ex_newton_ok c : exists x, ex_newton c = Ok x. Proof. exists c. reflexivity. Qed.

Example buoy_imported : exists rows, dataframe_from_bemio ex_newton 1000 10 true true [ex_body "buoy" "WAMIT" [1; 2]] 1 = Ok rows /\
  complete 1000 10 (ex_body "buoy" "WAMIT" [1; 2]) ex_entries [1; 2] rows.
Proof.
  destruct (single_body_import_partial ex_newton 1000 10 true true (ex_body "buoy" "WAMIT" [1; 2]) ex_entries) as (rows & E & _ & K); try discriminate; try reflexivity.
  - apply ex_newton_ok.
  - left. apply ex_depth.
  - cbn. split; [lra|exact I].
  - apply ex_arrays.
  - eauto.
Qed.
(** Two bodies: no row about the first one. The hypotheses of [all_bodies_refuted] and [units_refuted] are met. *)
Example two_bodies_imported : exists rows, dataframe_from_bemio ex_newton 1000 10 false false [ex_body "buoy" "WAMIT" [1; 2]; ex_body "barge" "NEMOH" [1; 2]] 2 = Ok rows /\
  rows <> [] /\ forall r, In r rows -> body_of r = "barge"%string.
Proof.
  destruct (units_refuted ex_newton 1000 10 false false (ex_body "buoy" "WAMIT" [1; 2]) (ex_body "barge" "NEMOH" [1; 2]) ex_entries ex_entries) as (rows & E & K); try discriminate.
  - apply ex_newton_ok.
  - intros x [-> | ->]; left; apply ex_depth.
  - reflexivity.
  - apply ex_arrays.
  - apply ex_arrays.
  - exists rows. refine (conj E (conj _ _)).
    + intros ->. destruct K as [_ K]. assert (S2 : np_sort (bm_w (ex_body "barge" "NEMOH" [1; 2])) = [1; 2]) by (apply np_sort_ascending; cbn; split; [lra|exact I]).
      rewrite S2 in K. destruct (K 0%nat 0%nat 0%nat "Surge"%string "Surge"%string 1 eq_refl eq_refl eq_refl) as (c & _ & []).
    + apply (all_bodies_refuted ex_newton 1000 10 false false _ 1 rows (ex_body "barge" "NEMOH" [1; 2]) E eq_refl).
Qed.
Example descending_frequencies : exists rows c, dataframe_from_bemio ex_newton 1000 10 false false [ex_body "buoy" "WAMIT" [2; 1]] 1 = Ok rows /\ c_omega c = 1 /\
  In (RadiationRow c "Surge" "Surge" (ex_entry 0 0 0 * 1000) (ex_entry 0 0 0 * 1000 * 1)) rows.
Proof.
  apply (frequencies_refuted ex_newton 1000 10 false false (ex_body "buoy" "WAMIT" [2; 1]) ex_entries 2 1); try discriminate; try reflexivity; try lra.
  - apply ex_newton_ok.
  - left. apply ex_depth.
  - apply ex_arrays.
Qed.
Example nemoh_not_imported rows : dataframe_from_bemio ex_newton 1000 10 false false [ex_body "buoy" "NEMOH" [1; 2]] 1 <> Ok rows.
Proof. apply other_codes_refuted. constructor; [discriminate|constructor]. Qed.
Example wide_not_imported rows : let b name := BemioBody name InfiniteWord "WAMIT" [1] [0] (table 6 1 1 ex_entry) (table 6 1 1 ex_entry) None (table 6 12 1 ex_entry) (table 6 12 1 ex_entry) in
  dataframe_from_bemio ex_newton 1000 10 false false [b "buoy"%string; b "barge"%string] 2 <> Ok rows.
Proof.
  intros b. refine (wide_matrices_refuted ex_newton 1000 10 false false [b "buoy"%string; b "barge"%string] 0 (b "barge"%string) rows eq_refl _). intros m Hm. unfold b in Hm. cbn [bm_am] in Hm.
  unfold table in Hm. apply in_map_iff in Hm. destruct Hm as (i & <- & _). rewrite map_length, seq_length. reflexivity.
Qed.

(** A method that never finds anything is enough in deep water: the wavelength of the frequency 2 is 5 pi. *)
Definition no_newton (c : R) : result R := Err OtherException.
Example waves_imported : exists rows, dataframe_from_bemio no_newton 1000 10 true true [ex_body "buoy" "WAMIT" [2]] 1 = Ok rows /\ rows <> [] /\
  forall r, In r rows -> c_wavenumber (common_of_row r) = Some (4 / 10).
Proof.
  destruct (last_body_imported no_newton 1000 10 true true (ex_body "buoy" "WAMIT" [2]) [] 0 (ex_body "buoy" "WAMIT" [2]) ex_entries eq_refl) as (rows & E & D & _ & K); try reflexivity; try discriminate; try apply ex_arrays.
  - intros i Hi. replace i with 0%nat by lia. exists (ex_body "buoy" "WAMIT" [2]). split; [reflexivity|]. exists ex_entries. split; [apply ex_arrays|]. intros omega _. unfold common_of. cbn. eauto.
  - exists rows. split; [exact E|]. split.
    + intros ->. destruct (K 0%nat 0%nat 0%nat "Surge"%string "Surge"%string 2 eq_refl eq_refl eq_refl) as (c & _ & []).
    + intros r Hr. destruct (imported_waves no_newton 1000 10 true true _ _ rows ltac:(lra) ltac:(discriminate) E r Hr) as ((_ & _ & W & _) & _).
      destruct (W eq_refl) as (k & -> & Wk). f_equal.
      assert (X : c_omega (common_of_row r) = 2 /\ c_depth (common_of_row r) = PInf).
      { destruct (D r Hr) as [(i & j & m & dof & dir & omega & c & p & _ & _ & Hm & (_ & L & Lo) & ->)|(i & j & m & dof & dof' & omega & c & _ & _ & Hm & (_ & L & Lo) & ->)]; cbn [common_of_row];
        (split; [rewrite Lo; destruct m as [|[|m]]; cbn in Hm; congruence|]); destruct L as [L|[_ L]]; [discriminate L|exact L|discriminate L|exact L]. }
      destruct X as [Y X]. rewrite X, Y in Wk. cbn [wavenumber_is] in Wk. lra.
Qed.

Print Assumptions single_body_import_partial.
Print Assumptions imported_waves.
Print Assumptions all_bodies_refuted.
Print Assumptions wide_matrices_refuted.
Print Assumptions other_codes_refuted.
Print Assumptions frequencies_refuted.
Print Assumptions units_refuted.
