(** [fill_dataset]: frequencies of the problems. *)
From Coq Require Import Reals.
From Coquelicot Require Import Complex.
From Coq Require Import String Ascii List Bool ZArith Lra Lia Permutation.
From Verif Require Import Model_Base Model_Mesh Model_Symbolic Model_Problem Spec_Problem Model_Results Model_Solver Spec_Solver Proofs_Problem Proofs_Problem2 Proofs_Problem3
  Proofs_Solver Proofs_Solver2 Model_TestMatrix Spec_TestMatrix Proofs_TestMatrix Model_Dataset Model_Fill Spec_Fill Proofs_Fill Proofs_Fill2 Proofs_Fill3 Proofs_Fill4.
Import ListNotations.
Open Scope R_scope.

Section Moves.
  Variable newton : ext -> ext -> result ext.
  Variable immersed : body -> ext -> ext -> result body.
  Hypothesis exact : exact_root_finder newton.
  Lemma omega_from h g x f : frequencies_from newton h g Omega x = Ok f -> f_omega f <> FVal (Fin 0).
  Proof.
    unfold frequencies_from. cbn [is_omega_k negb]. rewrite !andb_true_r, !andb_false_r, !orb_false_r.
    destruct (ext_eqb x (Fin 0)) eqn:E0; [intros E; injection E as <-; discriminate|]. cbn [orb].
    destruct (ext_eqb x PInf) eqn:E1; [intros E; injection E as <-; discriminate|].
    match goal with |- bind ?X _ = _ -> _ => destruct X; cbn [bind]; [|discriminate] end. intros E. injection E as <-. cbn [f_omega].
    intros E. injection E as ->. cbn in E0. now rewrite Reqb_refl in E0.
  Qed.
  Lemma call_meant q : (q_freq q = PInf \/ exists x, q_freq q = Fin x /\ 0 <= x) -> freq_meant (call q) (q_type q) (q_freq q).
  Proof.
    intros H. apply FM_one; [| | | |assumption]; cbn [call i_omega i_period i_wavenumber i_wavelength]; destruct (q_type q); reflexivity.
  Qed.
  Lemma generic_moves i p t x : 0 < i_g i -> pos_depth (p_depth p) -> freq_meant i t x -> generic_problem newton immersed i None = Ok p -> f_omega (p_enc p) <> FVal (Fin 0).
  Proof.
    intros Hg Hh Hf G. destruct (Req_dec (p_speed p) 0) as [E|E].
    - rewrite (generic_encounter newton immersed i p G E).
      destruct (generic_freq_shape newton immersed i None p t x exact Hg Hh Hf G) as [->|[->|(w & -> & Hw)]]; try discriminate. intros E'. injection E' as ->. lra.
    - unfold generic_problem in G.
      match type of G with bind ?X _ = _ => destruct X as [d|]; cbn [bind] in G; [|discriminate] end.
      match type of G with bind ?X _ = _ => destruct X as [f|]; cbn [bind] in G; [|discriminate] end.
      match type of G with bind ?X _ = _ => destruct X as [ob|]; cbn [bind] in G; [|discriminate] end.
      match type of G with bind ?X _ = _ => destruct X as [ed|] eqn:Ee; cbn [bind] in G; [|discriminate] end.
      injection G as <-. cbn [p_speed p_enc] in *. unfold encounter in Ee. rewrite (Reqb_false _ _ E) in Ee.
      destruct (get_frequencies _ _ _ _ _ _ _) as [e|] eqn:Eg; cbn [bind] in Ee; [|discriminate]. injection Ee as <-. cbn [fst].
      unfold get_frequencies in Eg. cbn [provided app] in Eg. exact (omega_from _ _ _ _ Eg).
  Qed.
  Lemma built_moves q p : keeps_names immersed -> 0 < q_g q -> pos_depth (q_depth q) -> (q_freq q = PInf \/ exists x, q_freq q = Fin x /\ 0 <= x) ->
    built_as newton immersed q p -> f_omega (p_enc (pb_data p)) <> FVal (Fin 0).
  Proof.
    intros names Hg Hh Hf B. destruct (built_generic_all newton immersed q p B) as (p0 & G & _ & E1 & E2 & E3). rewrite E1.
    apply (generic_moves (call q) p0 (q_type q) (q_freq q)); auto; [|now apply call_meant].
    destruct (generic_columns newton immersed names q p0 G) as (_ & _ & _ & D & _). now rewrite D.
  Qed.
End Moves.
