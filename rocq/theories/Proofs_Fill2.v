(** The values found in the dataset returned by [fill_dataset]. *)
From Coq Require Import Reals.
From Coquelicot Require Import Complex.
From Coq Require Import String Ascii List Bool ZArith Lra Lia Permutation.
From Verif Require Import Model_Base Model_Mesh Model_Symbolic Model_Problem Spec_Problem Model_Results Model_Solver Spec_Solver Proofs_Problem Proofs_Problem3
  Proofs_Solver Proofs_Solver2 Model_TestMatrix Spec_TestMatrix Proofs_TestMatrix Model_Dataset Spec_Dataset Proofs_Dataset Proofs_Dataset2 Proofs_Dataset3
  Proofs_Bemio Model_Fill Spec_Fill Proofs_Fill.
Import ListNotations.
Open Scope R_scope.

Lemma classic_eq (a b : value) : a = b \/ a <> b.
Proof. destruct (value_eqb a b) eqn:E; [left; now apply value_eqb_eq|right; intros ->]. assert (value_eqb b b = true) by now apply value_eqb_eq. congruence. Qed.
Lemma most_common_same t l c : (forall x, In x c -> x = t) -> most_common_from t c l = t.
Proof.
  revert l. induction c as [|x c IH]; intros l H; [reflexivity|]. cbn [most_common_from].
  rewrite (H x) by (now left). destruct (Nat.ltb _ _); apply IH; intros y Hy; apply H; now right.
Qed.
Lemma main_type cell nan add arrange results a t : assemble_dataset cell nan add arrange results = Ok a ->
  (forall s, In s results -> f_type (p_freqs (s_problem _ s)) = t) -> a_main _ a = t.
Proof.
  unfold assemble_dataset. destruct results as [|s0 results]; [discriminate|]. intros H T.
  destruct (mapM _ _) as [rows0|]; cbn [bind] in H; [|discriminate].
  match type of H with bind ?X _ = _ => destruct X as [d1|] eqn:E1; cbn [bind] in H; [|discriminate] end.
  match type of H with bind ?X _ = _ => destruct X as [d2|] eqn:E2; cbn [bind] in H; [|discriminate] end.
  injection H as <-. cbn [a_main]. rewrite (T s0) by (now left).
  match goal with |- context [if ?b then t else t] => replace (if b then t else t) with t by (now destruct b) end. apply most_common_same.
  intros x Hx. apply in_map_iff in Hx. destruct Hx as (s & <- & Hs). apply T. now right.
Qed.
Lemma first_such_iff cell (P P' : row cell -> Prop) l r : (forall x, P x <-> P' x) -> first_such cell P l r -> first_such cell P' l r.
Proof.
  intros H (l1 & l2 & -> & Pr & N). exists l1, l2. split; [reflexivity|]. split; [now apply H|]. intros r' Hr' Q. apply (N r' Hr'). now apply H.
Qed.
Lemma rows_of_in cell k results rows s i b : rows_of cell k results rows -> In s results -> s_kind _ s = k -> p_fs (s_problem _ s) = Fin 0 ->
  p_body (s_problem _ s) = Some b -> In i (map fst (b_dofs b)) -> In (s, i) rows.
Proof.
  induction 1 as [|s' l rs b' Hk Hb _ IH|s' l rs Hb _ IH|s' l rs Hn _ IH]; intros Hs K FS B Hi; [easy| | |].
  - apply in_or_app. destruct Hs as [->|Hs]; [left|right; auto].
    rewrite B in Hb. injection Hb as ->. apply in_map_iff in Hi. destruct Hi as (nd & <- & Hnd). apply in_map_iff. eauto.
  - destruct Hs as [->|Hs]; [congruence|auto].
  - destruct Hs as [->|Hs]; [|auto]. exfalso. apply Hn. now split.
Qed.
Lemma rows_of_from cell k results rows r : rows_of cell k results rows -> In r rows ->
  In (fst r) results /\ s_kind _ (fst r) = k /\ exists b, p_body (s_problem _ (fst r)) = Some b /\ In (snd r) (map fst (b_dofs b)).
Proof.
  induction 1 as [|s' l rs b' Hk Hb _ IH|s' l rs Hb _ IH|s' l rs Hn _ IH]; intros Hr; [easy| | |].
  - apply in_app_or in Hr. destruct Hr as [Hr|Hr].
    + apply in_map_iff in Hr. destruct Hr as (nd & <- & Hnd). cbn [fst snd]. split; [now left|]. split; [apply Hk|]. exists b'. split; [assumption|]. now apply in_map.
    + destruct (IH Hr) as (A & B & C). split; [now right|]. auto.
  - destruct (IH Hr) as (A & B & C). split; [now right|]. auto.
  - destruct (IH Hr) as (A & B & C). split; [now right|]. auto.
Qed.

Section Values.
  Variable newton : ext -> ext -> result ext.
  Variable immersed : body -> ext -> ext -> result body.
  Hypothesis names : keeps_names immersed.
  Variable st : Type.
  Variable build : st -> bkey -> st * result (matrix * matrix).
  Variable linsolve : st -> matrix -> list C -> st * result (list C).
  Variable gradient_x : body -> ext -> ext -> freq -> list C -> result (list C).
  Variable min_wavelength : body -> result ext.
  Variable irregular : body -> R -> result ext.
  Variable arrange : column -> list value -> list value.
  Hypothesis arranged : forall c l, Permutation l (arrange c l).
  Variable s0 : st.
  Variable used : body -> Prop.
  Hypothesis clear : transparent st build linsolve s0 used.
  Variable m : test_matrix.
  Variable bodies : list body.
  Notation built := (built_as newton immersed).
  Hypothesis known : forall q p b, wanted m bodies q -> built q p -> p_body (pb_data p) = Some b -> used b.
  Notation all := (solve_all st build linsolve gradient_x min_wavelength irregular).
  Definition alone direct keep p := result_or_failure p (snd (solve st build linsolve gradient_x min_wavelength irregular direct keep false s0 p)).

  Lemma solve_all_inv direct keep check joblib env n l s' rs : all direct keep check joblib None env n s0 l = (s', Ok rs) ->
    ordinary used l -> (n <> 1%Z -> no_nan l) -> Permutation rs (map (alone direct keep) l).
  Proof.
    intros H O N.
    assert (E : snd (all direct keep false true None env n s0 l) = Ok rs /\ (exists b, progress None env = Ok b) /\ (n = 1%Z \/ l <> [])).
    { unfold solve_all in *. destruct (if check then _ else _); [|discriminate].
      destruct (progress None env) as [b|]; [|discriminate]. destruct (Z.eqb_spec n 1).
      - rewrite H. cbn [snd]. eauto.
      - destruct joblib; [|discriminate]. injection H as _ H. cbn [snd]. split; [assumption|]. split; [eauto|]. right. intros ->. discriminate. }
    destruct E as (E & (b & Eb) & D).
    destruct (all_alone st build linsolve gradient_x min_wavelength irregular s0 used clear direct keep None env n l b O Eb) as (rs' & E' & P).
    { destruct D as [D|D]; [now left|]. destruct (Z.eq_dec n 1); [now left|]. right. auto. }
    replace rs with rs' by congruence. exact P.
  Qed.

  Lemma problems_both ps : problems_from_dataset newton immersed m bodies = Ok ps ->
    (forall p, In p ps -> exists q, wanted m bodies q /\ built q p) /\ (forall q, wanted m bodies q -> exists p, built q p /\ In p ps).
  Proof.
    intros H. destruct (problems_requests newton immersed m bodies ps H) as (rqs & created & F & P & W & _). split.
    - intros p Hp. apply (Permutation_in _ (Permutation_sym P)) in Hp. destruct (Forall2_in_r _ _ _ _ F Hp) as (q & Hq & B). exists q. split; [now apply W|assumption].
    - intros q Hq. apply W in Hq. clear - F P Hq. revert ps P. induction F as [|q' p' l l' B F IH]; [easy|]. intros ps P. destruct Hq as [->|Hq].
      + exists p'. split; [assumption|]. apply (Permutation_in _ P). now left.
      + destruct (IH Hq l' (Permutation_refl _)) as (p & Bp & Hp). exists p. split; [assumption|]. apply (Permutation_in _ P). now right.
  Qed.

  Lemma built_ordinary ps : problems_from_dataset newton immersed m bodies = Ok ps -> ordinary used ps.
  Proof.
    intros H p Hp. destruct (proj1 (problems_both ps H) p Hp) as (q & W & B).
    destruct (built_columns newton immersed names q p B) as (K & _ & _ & _ & _ & _ & _ & _ & _ & _ & b & Eb & _). split.
    - rewrite K. unfold class_of. destruct (q_dof q); discriminate.
    - exists b. split; [assumption|]. exact (known q p b W B Eb).
  Qed.

  Variables (direct check joblib : bool) (env : option string) (n_jobs : Z) (kwargs : list string) (thetas : option (list R)).
  Notation fill := (fill_dataset newton immersed st build linsolve gradient_x min_wavelength irregular arrange direct check joblib env n_jobs kwargs s0 m thetas bodies).
  Hypothesis numbers : n_jobs <> 1%Z -> forall q p, wanted m bodies q -> built q p -> p_depth (pb_data p) <> NaN /\ ffloat (f_omega (p_freqs (pb_data p))) <> NaN.
  Definition keep : bool := match thetas with Some _ => true | None => false end.

  Lemma fill_inv s' f : fill = (s', Ok f) -> exists ps rs results,
    problems_from_dataset newton immersed m bodies = Ok ps /\ Permutation rs (map (alone direct keep) ps)
    /\ mapM read_result rs = Ok results /\ assemble_dataset entry NotANumber entry_add arrange results = Ok (fd_data f)
    /\ forallb (fun n => existsb (String.eqb n) assemble_keywords) kwargs = true
    /\ match thetas with None => fd_kochin f = None | Some th => exists k, kochin_records rs th = Ok k /\ fd_kochin f = Some k end.
  Proof.
    unfold fill_dataset. destruct (problems_from_dataset newton immersed m bodies) as [ps|] eqn:Ep; [|discriminate].
    fold keep. destruct (all direct keep check joblib None env n_jobs s0 ps) as [s1 [rs|]] eqn:Ea; cbn [bind]; [|intros E; injection E; discriminate].
    intros H.
    assert (P : Permutation rs (map (alone direct keep) ps)).
    { apply (solve_all_inv _ _ _ _ _ _ _ _ _ Ea).
      - now apply built_ordinary.
      - intros N p Hp. destruct (proj1 (problems_both ps Ep) p Hp) as (q & W & B). exact (numbers N q p W B). }
    exists ps, rs. 
    destruct (forallb _ kwargs) eqn:Ek.
    - destruct (mapM read_result rs) as [results|] eqn:Er; cbn [bind] in H.
      + exists results. split; [reflexivity|]. split; [assumption|]. split; [reflexivity|].
        destruct thetas as [th|].
        * destruct (kochin_records rs th) as [k|]; cbn [bind] in H; [|injection H; discriminate].
          destruct (assemble_dataset _ _ _ _ _) as [a|]; cbn [bind] in H; [|injection H; discriminate].
          injection H as _ <-. cbn. eauto.
        * destruct (assemble_dataset _ _ _ _ _) as [a|]; cbn [bind] in H; [|injection H; discriminate].
          injection H as _ <-. cbn. eauto.
      + destruct thetas as [th|]; [|injection H; discriminate]. destruct (kochin_records rs th); cbn [bind] in H; injection H; discriminate.
    - destruct thetas as [th|]; cbn [bind] in H; [|injection H; discriminate]. destruct (kochin_records rs th); cbn [bind] in H; injection H; discriminate.
  Qed.

  (** The value of a problem is found with the labels of its request. *)
  Lemma fill_sel s' f q p b i : fill = (s', Ok f) -> wanted m bodies q -> built q p -> p_body (pb_data p) = Some b -> In i (map fst (b_dofs b)) ->
    exists s, read_result (alone direct keep p) = Ok s
      /\ (forall x, In x (quantities (class_of q)) -> sel (a_data _ (fd_data f)) x (label q i) = Ok (s_cell _ s x i))
      /\ (class_of q = Diffraction -> sel (a_data _ (fd_data f)) ExcitationForce (label q i)
            = Ok (entry_add (s_cell _ s FroudeKrylovForce i) (s_cell _ s DiffractionForce i))).
  Proof.
    intros H W B Eb Hi. destruct (fill_inv _ _ H) as (ps & rs & results & Ep & P & Er & Ea & _ & _).
    destruct (problems_both ps Ep) as [PB1 PB2].
    assert (Hp : In p ps).
    { destruct (PB2 q W) as (p' & B' & Hp'). now rewrite (built_unique newton immersed q p p' B B'). }
    assert (Hr : In (alone direct keep p) rs).
    { apply (Permutation_in _ (Permutation_sym P)). now apply in_map. }
    destruct (mapM_out _ _ _ _ Er Hr) as (s & Es & Hs). exists s. split; [assumption|].
    assert (All : forall s1, In s1 results -> exists q1 p1, wanted m bodies q1 /\ built q1 p1 /\ read_result (alone direct keep p1) = Ok s1
       /\ s_kind _ s1 = class_of q1 /\ s_problem _ s1 = pb_data p1 /\ s_dof _ s1 = pb_dof p1).
    { intros s1 Hs1. destruct (mapM_in _ _ _ _ Er Hs1) as (r1 & Hr1 & Es1). apply (Permutation_in _ P) in Hr1. apply in_map_iff in Hr1.
      destruct Hr1 as (p1 & <- & Hp1). destruct (PB1 p1 Hp1) as (q1 & W1 & B1). exists q1, p1.
      split; [assumption|]. split; [assumption|]. split; [assumption|].
      destruct (read_kind _ _ Es1) as (K1 & K2 & K3). unfold alone in K1, K2, K3. rewrite alone_problem in K1, K2, K3.
      destruct (built_columns newton immersed names q1 p1 B1) as (C1 & C2 & _). rewrite C1 in K1, K3.
      split; [assumption|]. split; [assumption|]. rewrite K3, C2. unfold class_of. now destruct (q_dof q1). }
    assert (Mine : s_kind _ s = class_of q /\ s_problem _ s = pb_data p /\ s_dof _ s = pb_dof p).
    { destruct (read_kind _ _ Es) as (K1 & K2 & K3). unfold alone in K1, K2, K3. rewrite alone_problem in K1, K2, K3.
      destruct (built_columns newton immersed names q p B) as (C1 & C2 & _). rewrite C1 in K1, K3.
      split; [assumption|]. split; [assumption|]. rewrite K3, C2. unfold class_of. now destruct (q_dof q). }
    destruct Mine as (M1 & M2 & M3).
    assert (Types : forall s1, In s1 results -> f_type (p_freqs (s_problem _ s1)) = q_type q).
    { intros s1 Hs1. destruct (All s1 Hs1) as (q1 & p1 & W1 & B1 & _ & _ & E1 & _). rewrite E1.
      destruct (built_columns newton immersed names q1 p1 B1) as (_ & _ & T1 & _). rewrite T1.
      destruct (problems_inv _ _ _ _ _ Ep) as (_ & tf & Htf). destruct W as (F & _). destruct W1 as (F1 & _).
      apply (freq_range_ok newton m tf Htf) in F. apply (freq_range_ok newton m tf Htf) in F1. destruct F as [F _], F1 as [F1 _]. congruence. }
    assert (Main : a_main _ (fd_data f) = q_type q) by exact (main_type _ _ _ _ _ _ _ Ea Types).
    assert (K : sure (class_of q)) by (unfold sure, class_of; destruct (q_dof q); discriminate).
    destruct (rows_of_total entry NotANumber entry_add (class_of q) results) as [rows Rows].
    assert (Hrow : In (s, i) rows).
    { apply (rows_of_in _ _ _ _ _ _ b Rows); auto; [|now rewrite M2]. rewrite M2. apply (built_columns newton immersed names q p B). }
    assert (NE : rows <> []) by (intros ->; contradiction).
    destruct (assembled_values entry NotANumber entry_add eq_refl arrange arranged (class_of q) results (fd_data f) rows K Ea Rows NE)
      as (dims & D1 & D2 & D3). rewrite Main in D1.
    assert (Lab : forall (s1 : res entry) i1 q1 p1 c, built q1 p1 -> s_problem _ s1 = pb_data p1 -> s_dof _ s1 = pb_dof p1 -> class_of q1 = class_of q -> q_type q1 = q_type q ->
      In c (main_dims (class_of q) (q_type q) ++ other_dims (class_of q)) -> column_of _ (s1, i1) c = label q1 i1 c).
    { intros s1 i1 q1 p1 c B1 E1 E2 C1 C2 Hc. rewrite <- C1, <- C2 in Hc. exact (row_label newton immersed names q1 p1 s1 i1 c B1 E1 E2 Hc). }
    assert (Dim : forall c, In c dims -> In c (main_dims (class_of q) (q_type q) ++ other_dims (class_of q))).
    { intros c Hc. apply D1 in Hc. apply in_or_app. tauto. }
    assert (Lq : forall c, In c dims -> column_of _ (s, i) c = label q i c).
    { intros c Hc. apply (Lab s i q p c); auto. }
    destruct (first_exists entry dims (s, i) rows Hrow) as [r0 F0].
    assert (F0' : first_such entry (agrees entry dims (label q i)) rows r0).
    { apply (first_such_iff _ (agrees entry dims (column_of _ (s, i)))); [|assumption]. intros x. unfold agrees. split; intros G c Hc; rewrite G by assumption; [|symmetry]; auto. }
    destruct (D3 (label q i)) as [V1 V2].
    { intros c Hc. rewrite <- (Lq c Hc). now apply D2. }
    assert (Same : s_cell _ (fst r0) = s_cell _ s /\ snd r0 = i).
    { destruct F0' as (l1 & l2 & El & A0 & _).
      assert (Hr0 : In r0 rows) by (rewrite El; apply in_or_app; right; now left).
      destruct (rows_of_from _ _ _ _ _ Rows Hr0) as (In0 & K0 & b0 & _).
      destruct (All _ In0) as (q1 & p1 & W1 & B1 & Es1 & C1 & E1 & E2).
      assert (T1 : q_type q1 = q_type q).
      { rewrite <- (Types _ In0), E1. symmetry. apply (built_columns newton immersed names q1 p1 B1). }
      assert (Q : q = q1 /\ i = snd r0).
      { apply (labels_identify newton immersed m bodies ps q q1 i (snd r0) Ep W W1); [congruence|].
        intros c Hc. rewrite <- (Lab (fst r0) (snd r0) q1 p1 c B1 E1 E2) by (congruence || assumption).
        replace (fst r0, snd r0) with r0 by (now destruct r0).
        assert (Or : In c dims \/ ~ In c dims) by (destruct (in_dec column_eq_dec c dims); auto).
        destruct Or as [Or|Or].
        - symmetry. exact (A0 c Or).
        - (* the parameter takes one value only *)
          assert (NV : ~ varying _ rows c).
          { intros V. apply Or. apply D1. apply in_app_or in Hc. destruct Hc as [Hc|Hc]; [now left|right; now split]. }
          rewrite <- (Lab s i q p c B M2 M3 eq_refl eq_refl Hc).
          destruct (classic_eq (column_of _ (s, i) c) (column_of _ r0 c)) as [E|E]; [exact E|].
          exfalso. apply NV. exists (s, i), r0. auto. }
      destruct Q as [<- ->]. split; [|reflexivity].
      rewrite (built_unique newton immersed q p1 p B1 B) in Es1. congruence. }
    destruct Same as [Sa Sb]. split.
    - intros x Hx. rewrite (proj1 (V1 x Hx) r0 F0'). unfold cell_of. now rewrite Sa, Sb.
    - intros Kd. rewrite (proj1 (V2 Kd) r0 F0'). unfold cell_of. now rewrite Sa, Sb.
  Qed.
End Values.
