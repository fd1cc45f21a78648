From Coq Require Import Reals List Bool Arith ZArith Lia Lra Permutation Relation_Operators Operators_Properties.
From Verif Require Import Model_Base Model_Problem Model_Geometry Model_Mesh Spec_Mesh Spec_Clip Proofs_Geometry Proofs_Problem Proofs_Mesh Proofs_Mesh2 Model_Quality Spec_Quality Proofs_Quality Proofs_Components
  Model_Lid Spec_Lid Proofs_Lid Proofs_Lid2.
Import ListNotations.
Open Scope R_scope.

(** ** Greatest and least values *)
Lemma fold_max l : forall x, In (fold_left Rmax l x) (x :: l) /\ forall y, In y (x :: l) -> y <= fold_left Rmax l x.
Proof.
  induction l as [|a l IH]; intros x; cbn [fold_left]; [split; [now left|]; intros y [<-|[]]; lra|].
  destruct (IH (Rmax x a)) as [I B]. pose proof (B _ (or_introl eq_refl)) as B0. pose proof (Rmax_l x a). pose proof (Rmax_r x a). split.
  - destruct I as [<-|I]; [|right; now right]. unfold Rmax. destruct (Rle_dec x a); [right; now left|now left].
  - intros y [<-|[<-|Hy]]; [lra|lra|]. apply B. now right.
Qed.
Lemma fold_min l : forall x, In (fold_left Rmin l x) (x :: l) /\ forall y, In y (x :: l) -> fold_left Rmin l x <= y.
Proof.
  induction l as [|a l IH]; intros x; cbn [fold_left]; [split; [now left|]; intros y [<-|[]]; lra|].
  destruct (IH (Rmin x a)) as [I B]. pose proof (B _ (or_introl eq_refl)) as B0. pose proof (Rmin_l x a). pose proof (Rmin_r x a). split.
  - destruct I as [<-|I]; [|right; now right]. unfold Rmin. destruct (Rle_dec x a); [now left|right; now left].
  - intros y [<-|[<-|Hy]]; [lra|lra|]. apply B. now right.
Qed.
Lemma array_max_spec l : l <> [] -> exists a, array_max l = Ok a /\ In a l /\ forall y, In y l -> y <= a.
Proof. destruct l as [|x l]; [contradiction|]. intros _. exists (fold_left Rmax l x). split; [reflexivity|]. apply fold_max. Qed.
Lemma array_min_spec l : l <> [] -> exists a, array_min l = Ok a /\ In a l /\ forall y, In y l -> a <= y.
Proof. destruct l as [|x l]; [contradiction|]. intros _. exists (fold_left Rmin l x). split; [reflexivity|]. apply fold_min. Qed.

(** ** The dimensions of a waterline *)
Lemma span_ok m l c coord : sub m l c -> m_vertices c <> [] -> exists s, span (map coord (m_vertices c)) = Ok s /\ extent_of m l coord s.
Proof.
  intros S N. unfold span. assert (N' : map coord (m_vertices c) <> []) by (destruct (m_vertices c); [contradiction|discriminate]).
  destruct (array_max_spec _ N') as (a & -> & Ia & Ba). destruct (array_min_spec _ N') as (b & -> & Ib & Bb). cbn [bind]. eexists. split; [reflexivity|].
  apply in_map_iff in Ia. apply in_map_iff in Ib. destruct Ia as (u & <- & Hu), Ib as (v & <- & Hv). exists u, v.
  split; [now apply (sub_all_corners m l c u S)|]. split; [now apply (sub_all_corners m l c v S)|]. split; [|reflexivity].
  intros w Hw. apply (sub_all_corners m l c w S) in Hw. split; [apply Bb|apply Ba]; now apply in_map.
Qed.
Lemma extent_unique m l coord s s' : extent_of m l coord s -> extent_of m l coord s' -> s = s'.
Proof.
  intros (u & v & Hu & Hv & B & ->) (u' & v' & Hu' & Hv' & B' & ->).
  pose proof (B u' Hu'). pose proof (B v' Hv'). pose proof (B' u Hu). pose proof (B' v Hv). lra.
Qed.
Lemma extent_same m l l' coord s : (forall i, In i l <-> In i l') -> extent_of m l coord s -> extent_of m l' coord s.
Proof.
  intros E. assert (C : forall v, corner_of m l v <-> corner_of m l' v).
  { intros v. split; intros (i & f & x & Hi & R); exists i, f, x; (split; [now apply E|exact R]). }
  intros (u & v & Hu & Hv & B & ->). exists u, v. rewrite <- !C. split; [exact Hu|]. split; [exact Hv|]. split; [|reflexivity]. intros w Hw. now apply B, C.
Qed.
Lemma waterline_same m l l' i : is_waterline m l -> is_waterline m l' -> In i l -> In i l' -> forall j, In j l <-> In j l'.
Proof. intros (_ & H) (_ & H') Hi Hi' j. now rewrite (proj2 (H i Hi)), (proj2 (H' i Hi')). Qed.
Lemma waterline_vertices m l c : sub m l c -> is_waterline m l -> m_vertices c <> [].
Proof.
  intros S (N & H). destruct l as [|i l]; [contradiction|]. destruct (H i (or_introl eq_refl)) as ((f & x & v & Hf & Hx & Hv & _) & _).
  intros E. assert (X : In v (m_vertices c)) by (apply (sub_all_corners m (i :: l) c v S); exists i, f, x; split; [now left|auto]). rewrite E in X. destruct X.
Qed.

(** ** Hyperbolic tangents *)
Lemma tanh_exp x : tanh x = 1 - 2 / (exp (2 * x) + 1).
Proof.
  unfold tanh, sinh, cosh. replace (exp (2 * x)) with (exp x * exp x) by (rewrite <- exp_plus; f_equal; ring). rewrite exp_Ropp.
  pose proof (exp_pos x). field. split; nra.
Qed.
Lemma tanh_lt_1 x : tanh x < 1.
Proof. rewrite tanh_exp. pose proof (exp_pos (2 * x)). assert (0 < 2 / (exp (2 * x) + 1)) by (apply Rdiv_lt_0_compat; lra). lra. Qed.
Definition artanh (a : R) : R := ln ((1 + a) / (1 - a)) / 2.
Lemma tanh_artanh a : -1 < a < 1 -> tanh (artanh a) = a.
Proof.
  intros H. rewrite tanh_exp. unfold artanh. replace (2 * (ln ((1 + a) / (1 - a)) / 2)) with (ln ((1 + a) / (1 - a))) by field.
  rewrite exp_ln by (apply Rdiv_lt_0_compat; lra). field. lra.
Qed.
Lemma artanh_pos a : 0 < a < 1 -> 0 < artanh a.
Proof.
  intros H. unfold artanh. assert (0 < ln ((1 + a) / (1 - a))); [|lra]. rewrite <- ln_1. apply ln_increasing; [lra|].
  apply Rmult_lt_reg_r with (1 - a); [lra|]. unfold Rdiv. rewrite Rmult_assoc, Rinv_l by lra. lra.
Qed.
Lemma tanh_lt_iff x y : tanh x < tanh y <-> x < y.
Proof.
  split; [|apply tanh_incr]. intros H. destruct (Rlt_or_le x y) as [L|[L|E]]; [exact L| |subst; lra]. apply tanh_incr in L. lra.
Qed.
Lemma tanh_inj x y : tanh x = tanh y -> x = y.
Proof. intros E. destruct (Rtotal_order x y) as [L|[L|L]]; [|exact L|]; apply tanh_incr in L; lra. Qed.

(** ** The frequency of a parallelepiped *)
Lemma inverse_pos x y : 0 < x -> 0 < y -> 0 < inverse_length x y.
Proof. intros Hx Hy. apply sqrt_lt_R0. pose proof (Rinv_0_lt_compat x Hx). pose proof (Rinv_0_lt_compat y Hy). nra. Qed.
Section Frequency.
  Variables (g w p : R).
  Hypotheses (Hg : 0 < g) (Hw : 0 < w) (Hp : 0 < p).
  Definition ratio : R := PI * g * p / (w * w).
  Lemma ratio_pos : 0 < ratio. Proof. apply Rdiv_lt_0_compat; [apply Rmult_lt_0_compat; [apply Rmult_lt_0_compat; [apply PI_RGT_0|exact Hg]|exact Hp]|nra]. Qed.
  Lemma num_pos : 0 < PI * g * p. Proof. apply Rmult_lt_0_compat; [apply Rmult_lt_0_compat; [apply PI_RGT_0|exact Hg]|exact Hp]. Qed.
  Lemma arg_pos d : 0 < d -> 0 < PI * d * p.
  Proof. intros H. apply Rmult_lt_0_compat; [apply Rmult_lt_0_compat; [apply PI_RGT_0|exact H]|exact Hp]. Qed.
  Definition freq_at (d : R) : R := sqrt (PI * g * p / tanh (PI * d * p)).
  Lemma freq_square d : 0 < d -> 0 <= freq_at d /\ freq_at d * freq_at d * tanh (PI * d * p) = w * w * ratio.
  Proof.
    intros H. pose proof (tanh_pos _ (arg_pos d H)) as T. pose proof num_pos. split; [apply sqrt_pos|]. unfold freq_at.
    rewrite sqrt_sqrt by (apply Rlt_le, Rdiv_lt_0_compat; lra). unfold ratio. field. split; lra.
  Qed.
  Lemma freq_gt d : 0 < d -> w < freq_at d <-> tanh (PI * d * p) < ratio.
  Proof.
    intros H. destruct (freq_square d H) as [P E]. pose proof (tanh_pos _ (arg_pos d H)) as T. pose proof ratio_pos as R0. set (t := tanh _) in *. set (f := freq_at d) in *.
    split; intros L.
    - apply Rmult_lt_reg_l with (w * w); [nra|]. rewrite <- E. apply Rmult_lt_compat_r; nra.
    - destruct (Rlt_or_le w f) as [X|X]; [exact X|exfalso]. assert (f * f <= w * w) by nra. assert (f * f * t <= w * w * t) by nra. assert (w * w * t < w * w * ratio) by (apply Rmult_lt_compat_l; nra). lra.
  Qed.
  Lemma freq_eq d : 0 < d -> freq_at d = w <-> tanh (PI * d * p) = ratio.
  Proof.
    intros H. destruct (freq_square d H) as [P E]. pose proof (tanh_pos _ (arg_pos d H)) as T. pose proof ratio_pos as R0. set (t := tanh _) in *. set (f := freq_at d) in *.
    split; intros L.
    - rewrite L in E. apply Rmult_eq_reg_l with (w * w); [exact E|nra].
    - rewrite L in E. assert (f * f = w * w) by (apply Rmult_eq_reg_r with ratio; lra). nra.
  Qed.
  Definition threshold : R := artanh ratio / (PI * p).
  Lemma pip : 0 < PI * p. Proof. apply Rmult_lt_0_compat; [apply PI_RGT_0|exact Hp]. Qed.
  Lemma threshold_arg : PI * threshold * p = artanh ratio.
  Proof. unfold threshold. pose proof pip. pose proof PI_RGT_0. field. split; lra. Qed.
  Lemma threshold_pos : ratio < 1 -> 0 < threshold.
  Proof. intros H. apply Rdiv_lt_0_compat; [apply artanh_pos; split; [apply ratio_pos|exact H]|apply pip]. Qed.
  Lemma threshold_freq : ratio < 1 -> freq_at threshold = w.
  Proof. intros H. apply freq_eq; [now apply threshold_pos|]. rewrite threshold_arg. apply tanh_artanh. pose proof ratio_pos. lra. Qed.
  Lemma freq_is_threshold d : 0 < d -> freq_at d = w -> ratio < 1 /\ d = threshold.
  Proof.
    intros H E. apply (freq_eq d H) in E. assert (L : ratio < 1) by (rewrite <- E; apply tanh_lt_1). split; [exact L|].
    rewrite <- (tanh_artanh ratio) in E by (pose proof ratio_pos; lra). apply tanh_inj in E. rewrite <- threshold_arg in E. pose proof pip.
    apply Rmult_eq_reg_l with (PI * p); [|lra]. lra.
  Qed.
  Lemma freq_above d : 0 < d -> ratio < 1 -> w < freq_at d <-> d < threshold.
  Proof.
    intros H L. rewrite (freq_gt d H). rewrite <- (tanh_artanh ratio) at 1 by (pose proof ratio_pos; lra). rewrite tanh_lt_iff, <- threshold_arg. pose proof pip.
    replace (PI * d * p) with (PI * p * d) by ring. replace (PI * threshold * p) with (PI * p * threshold) by ring. split; intros X; [eapply Rmult_lt_reg_l; eauto|now apply Rmult_lt_compat_l].
  Qed.
  Lemma freq_high d : 0 < d -> 1 <= ratio -> w < freq_at d.
  Proof. intros H L. apply (freq_gt d H). pose proof (tanh_lt_1 (PI * d * p)). lra. Qed.

  (** The computed values. *)
  Lemma position_value : lid_position_of w g (Fin p) = if Rltb 1 ratio then NaN else if Reqb ratio 1 then NInf else Fin (- threshold).
  Proof.
    unfold lid_position_of. cbn [ext_mul np_div]. destruct (Req_EM_T (w * w) 0) as [X|_]; [nra|].
    change (PI * g * p / (w * w)) with ratio. cbn [np_arctanh]. pose proof ratio_pos as R0. rewrite (Rabs_pos_eq ratio) by lra. pose proof pip as P0.
    destruct (Rltb 1 ratio) eqn:E1.
    - cbn [ext_opp]. destruct (Req_EM_T (PI * p) 0); [lra|]. reflexivity.
    - destruct (Reqb ratio 1) eqn:E2.
      + cbn [ext_opp]. destruct (Req_EM_T (PI * p) 0); [lra|]. cbn [ext_mul]. unfold ext_mul_inf. pose proof (Rinv_0_lt_compat _ P0). destruct (Rlt_dec 0 (/ (PI * p))); [reflexivity|lra].
      + rewrite (Reqb_false ratio (-1)) by lra. cbn [ext_opp]. destruct (Req_EM_T (PI * p) 0); [lra|]. f_equal. unfold threshold, artanh. field. pose proof PI_RGT_0. repeat split; lra.
  Qed.
  Lemma irregular_value d : 0 < d -> irregular_of g d (Fin p) = Fin (freq_at d).
  Proof.
    intros H. unfold irregular_of. cbn [ext_mul np_tanh np_div]. pose proof (tanh_pos _ (arg_pos d H)) as T. destruct (Req_EM_T _ 0) as [X|_]; [lra|].
    cbn [np_sqrt]. destruct (Rlt_dec _ 0) as [X|_]; [|reflexivity]. exfalso. pose proof num_pos. assert (0 < PI * g * p / tanh (PI * d * p)) by (apply Rdiv_lt_0_compat; lra). lra.
  Qed.
End Frequency.
Lemma freq_par g x y d : parallelepiped_frequency g x y d = freq_at g (inverse_length x y) d. Proof. reflexivity. Qed.

(** ** Python's minimum *)
Lemma py_min_fold l : forall s, (forall e, In e l -> e = NaN \/ exists r, e = Fin r) -> (s = PInf \/ exists r, s = Fin r) ->
  let t := fold_left py_min l s in
  (t = s \/ In t l) /\ (t = PInf \/ exists r, t = Fin r) /\ (forall r, s = Fin r \/ In (Fin r) l -> exists v, t = Fin v /\ v <= r).
Proof.
  induction l as [|e l IH]; intros s H Hs; cbn [fold_left].
  - split; [now left|]. split; [exact Hs|]. intros r [->|[]]. exists r. split; [reflexivity|lra].
  - assert (Hs' : py_min s e = PInf \/ exists r, py_min s e = Fin r).
    { unfold py_min. destruct (H e (or_introl eq_refl)) as [->|[r ->]]; [|destruct (ext_ltb _ _); eauto]. destruct s; cbn; destruct Hs as [|[? ?]]; try discriminate; eauto. }
    destruct (IH (py_min s e)) as (A & B & C); [intros x Hx; apply H; now right|exact Hs'|]. split; [|split; [exact B|]].
    + destruct A as [A|A]; [|right; now right]. rewrite A. unfold py_min. destruct (ext_ltb e s); [right; now left|now left].
    + intros r Hr. assert (Le : forall v, py_min s e = Fin v -> forall q, s = Fin q \/ e = Fin q -> v <= q).
      { intros v Ev q Hq. unfold py_min in Ev. destruct Hq as [->| ->].
        - destruct e as [a| | |]; cbn [ext_ltb] in Ev; try (injection Ev as ->; lra); try discriminate. destruct (Rltb a q) eqn:E; injection Ev as ->; [apply Rltb_true in E|]; lra.
        - destruct s as [a| | |]; cbn [ext_ltb] in Ev; try discriminate; try (destruct Hs as [|[? ?]]; discriminate).
          + destruct (Rltb q a) eqn:E; injection Ev as ->; [lra|]. apply Rltb_false in E. lra.
          + injection Ev as ->. lra. }
      assert (Fn : forall q, s = Fin q \/ e = Fin q -> exists v, py_min s e = Fin v).
      { intros q Hq. unfold py_min. destruct Hq as [->| ->].
        - destruct (H e (or_introl eq_refl)) as [->|[b ->]]; cbn [ext_ltb]; [eauto|]. destruct (Rltb b q); eauto.
        - destruct Hs as [->|[b ->]]; cbn [ext_ltb]; [eauto|]. destruct (Rltb q b); eauto. }
      destruct Hr as [Hr|[Hr|Hr]].
      * destruct (Fn r (or_introl Hr)) as (v & Ev). destruct (C v (or_introl Ev)) as (u & Eu & Lu). exists u. split; [exact Eu|]. pose proof (Le v Ev r (or_introl Hr)). lra.
      * destruct (Fn r (or_intror Hr)) as (v & Ev). destruct (C v (or_introl Ev)) as (u & Eu & Lu). exists u. split; [exact Eu|]. pose proof (Le v Ev r (or_intror Hr)). lra.
      * apply C. now right.
Qed.
