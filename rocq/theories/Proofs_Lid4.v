From Coq Require Import Reals List Bool Arith ZArith Lia Lra.
From Verif Require Import Model_Base Model_Problem Model_Geometry Model_Mesh Spec_Mesh Spec_Clip Proofs_Geometry Proofs_Problem Proofs_Mesh Proofs_Mesh2 Model_Quality Spec_Quality
  Model_Lid Spec_Lid Proofs_Lid Proofs_Lid2 Proofs_Lid3.
Import ListNotations.
Open Scope R_scope.


Section Position.
  Variable argsort : list R -> list nat.
  Variable m : mesh.
  Hypotheses (Vm : valid m) (Im : immersed m) (Pm : proper_waterlines m).

  Lemma size_unique l x y x' y' : waterline_size m l x y -> waterline_size m l x' y' -> x = x' /\ y = y'.
  Proof using. intros (A & B) (A' & B'). split; eapply extent_unique; eauto. Qed.
  Lemma inverse_ok x y : 0 < x -> 0 < y -> np_hypot (np_div (Fin 1) (Fin x)) (np_div (Fin 1) (Fin y)) = Fin (inverse_length x y).
  Proof using.
    intros Hx Hy. cbn [np_div]. destruct (Req_EM_T x 0); [lra|]. destruct (Req_EM_T y 0); [lra|]. cbn [np_hypot]. unfold inverse_length, Rdiv. now rewrite !Rmult_1_l.
  Qed.
  Lemma inverses_ok : exists comps ps, waterlines argsort m = Ok comps /\ mapM waterline_p comps = Ok ps
    /\ (forall e, In e ps -> exists l x y, is_waterline m l /\ waterline_size m l x y /\ 0 < x /\ 0 < y /\ e = Fin (inverse_length x y))
    /\ (forall l x y, is_waterline m l -> waterline_size m l x y -> 0 < x /\ 0 < y /\ In (Fin (inverse_length x y)) ps).
  Proof using Vm Im Pm.
    destruct (waterlines_ok argsort m Vm Im) as (comps & ids & E & S & W & A). exists comps.
    assert (G : forall l c, is_waterline m l -> sub m l c -> exists x y, waterline_size m l x y /\ 0 < x /\ 0 < y /\ waterline_p c = Ok (Fin (inverse_length x y))).
    { intros l c Wl Sl. destruct (Pm l Wl) as (x & y & (Ex & Ey) & Hx & Hy). exists x, y. split; [split; assumption|]. split; [exact Hx|]. split; [exact Hy|].
      unfold waterline_p. pose proof (waterline_vertices m l c Sl Wl) as N.
      destruct (span_ok m l c vx Sl N) as (x' & -> & Ex'). destruct (span_ok m l c vy Sl N) as (y' & -> & Ey'). cbn [bind].
      rewrite (extent_unique m l vx x' x Ex' Ex), (extent_unique m l vy y' y Ey' Ey). now rewrite inverse_ok. }
    assert (H : exists ps, mapM waterline_p comps = Ok ps /\ Forall2 (fun l e => is_waterline m l /\ exists x y, waterline_size m l x y /\ 0 < x /\ 0 < y /\ e = Fin (inverse_length x y)) ids ps).
    { clear - S W G. revert W. induction S as [|l c ids comps Sl S IH]; intros W; [exists []; split; [reflexivity|constructor]|].
      inversion W as [|? ? Wl W']; subst. destruct (IH W') as (ps & Ep & F). destruct (G l c Wl Sl) as (x & y & Sz & Hx & Hy & Ec).
      exists (Fin (inverse_length x y) :: ps). cbn [mapM]. rewrite Ec, Ep. cbn [bind]. split; [reflexivity|]. constructor; [|exact F]. split; [exact Wl|]. exists x, y. auto. }
    destruct H as (ps & Ep & F). exists ps. split; [exact E|]. split; [exact Ep|]. split.
    - intros e He. destruct (f2_in_right _ _ _ _ F He) as (l & Hl & Wl & x & y & R). exists l, x, y. tauto.
    - intros l x y Wl Sz. destruct (Pm l Wl) as (x0 & y0 & Sz0 & Hx0 & Hy0). destruct (size_unique l x y x0 y0 Sz Sz0) as [-> ->]. split; [exact Hx0|]. split; [exact Hy0|].
      assert (N := proj1 Wl). destruct l as [|i l]; [contradiction|].
      destruct (A i) as (l' & Hl' & Hi'); [apply (proj2 Wl); now left|]. destruct (f2_in_left _ _ _ _ F Hl') as (e & He & Wl' & x' & y' & Sz' & _ & _ & ->).
      assert (Sa : forall j, In j (i :: l) <-> In j l') by (apply (waterline_same m (i :: l) l' i Wl Wl'); [now left|exact Hi']).
      destruct (size_unique l' x0 y0 x' y') as [-> ->]; [|exact Sz'|exact He]. split; apply (extent_same m (i :: l) l' _ _ Sa); apply Sz0.
  Qed.

  Variables (g w : R).
  Hypotheses (Hg : 0 < g) (Hw : 0 < w).

  (** The position of the lid. *)
  Lemma position_ok : (forall l x y, is_waterline m l -> waterline_size m l x y -> PI * g * inverse_length x y <> w * w) ->
    exists z, lowest_lid_position argsort w g m = Ok (Fin z) /\ z <= 0
      /\ (forall l x y d, is_waterline m l -> waterline_size m l x y -> 0 < d -> parallelepiped_frequency g x y d = w -> z <= - (9 / 10 * d))
      /\ (z = 0 \/ exists l x y d, is_waterline m l /\ waterline_size m l x y /\ 0 < d /\ parallelepiped_frequency g x y d = w /\ z = - (9 / 10 * d)).
  Proof using Vm Im Pm Hg Hw.
    intros Ne. unfold lowest_lid_position. destruct inverses_ok as (comps & ps & Ew & Ep & A & B). rewrite Ew. cbn [bind]. rewrite Ep. cbn [bind].
    assert (V : forall l x y, is_waterline m l -> waterline_size m l x y -> lid_position_of w g (Fin (inverse_length x y))
       = if Rltb 1 (ratio g w (inverse_length x y)) then NaN else Fin (- threshold g w (inverse_length x y))).
    { intros l x y Wl Sz. destruct (B l x y Wl Sz) as (Hx & Hy & _). pose proof (inverse_pos x y Hx Hy) as Hp. rewrite (position_value g w _ Hg Hw Hp).
      destruct (Rltb 1 _); [reflexivity|]. rewrite Reqb_false; [reflexivity|]. intros E. apply (Ne l x y Wl Sz). unfold ratio in E.
      apply Rmult_eq_reg_r with (/ (w * w)); [|apply Rinv_neq_0_compat; nra]. rewrite Rinv_r by nra. exact E. }
    destruct (py_min_fold (map (lid_position_of w g) ps) (Fin 0)) as (C & D & M).
    { intros e He. apply in_map_iff in He. destruct He as (p & <- & Hp). destruct (A p Hp) as (l & x & y & Wl & Sz & _ & _ & ->). rewrite (V l x y Wl Sz). destruct (Rltb _ _); eauto. }
    { right. eauto. }
    destruct (M 0 (or_introl eq_refl)) as (z & Ez & Lz). rewrite Ez. cbn [ext_mul]. exists (9 / 10 * z). split; [reflexivity|]. split; [lra|]. split.
    - intros l x y d Wl Sz Hd E. destruct (B l x y Wl Sz) as (Hx & Hy & Hi). pose proof (inverse_pos x y Hx Hy) as Hp.
      rewrite freq_par in E. destruct (freq_is_threshold g w _ Hg Hw Hp d Hd E) as [R1 ->].
      destruct (M (- threshold g w (inverse_length x y))) as (z' & Ez' & Lz').
      + right. apply in_map_iff. exists (Fin (inverse_length x y)). split; [|exact Hi]. rewrite (V l x y Wl Sz). rewrite (proj2 (Rltb_false _ _)) by lra. reflexivity.
      + rewrite Ez in Ez'. injection Ez' as <-. lra.
    - destruct C as [C|C]; [left; rewrite Ez in C; injection C as ->; lra|]. right. rewrite Ez in C. apply in_map_iff in C. destruct C as (p & E & Hp).
      destruct (A p Hp) as (l & x & y & Wl & Sz & Hx & Hy & ->). pose proof (inverse_pos x y Hx Hy) as P0. rewrite (V l x y Wl Sz) in E. destruct (Rltb 1 _) eqn:R1; [discriminate|].
      apply Rltb_false in R1. assert (R2 : ratio g w (inverse_length x y) < 1).
      { destruct R1 as [R1|R1]; [exact R1|]. exfalso. apply (Ne l x y Wl Sz). unfold ratio in R1. apply Rmult_eq_reg_r with (/ (w * w)); [|apply Rinv_neq_0_compat; nra]. rewrite Rinv_r by nra. exact R1. }
      injection E as <-. exists l, x, y, (threshold g w (inverse_length x y)). split; [exact Wl|]. split; [exact Sz|]. split; [now apply threshold_pos|].
      split; [rewrite freq_par; now apply threshold_freq|]. ring.
  Qed.

  (** The estimate of the first irregular frequency. *)
  Lemma loop_ok d : 0 < d -> exists e, irregular_loop argsort g d m = Ok e
    /\ (e = PInf \/ exists l x y, is_waterline m l /\ waterline_size m l x y /\ e = Fin (parallelepiped_frequency g x y d))
    /\ (forall l x y, is_waterline m l -> waterline_size m l x y -> exists v, e = Fin v /\ v <= parallelepiped_frequency g x y d).
  Proof using Vm Im Pm Hg.
    intros Hd. unfold irregular_loop. destruct inverses_ok as (comps & ps & Ew & Ep & A & B). rewrite Ew. cbn [bind]. rewrite Ep. cbn [bind]. eexists. split; [reflexivity|].
    assert (V : forall x y, 0 < x -> 0 < y -> irregular_of g d (Fin (inverse_length x y)) = Fin (parallelepiped_frequency g x y d))
      by (intros x y Hx Hy; rewrite freq_par; apply irregular_value; [exact Hg|now apply inverse_pos|exact Hd]).
    destruct (py_min_fold (map (irregular_of g d) ps) PInf) as (C & D & M).
    { intros e He. apply in_map_iff in He. destruct He as (p & <- & Hp). destruct (A p Hp) as (l & x & y & _ & _ & Hx & Hy & ->). rewrite V by assumption. eauto. }
    { now left. }
    split.
    - destruct C as [C|C]; [now left|]. right. apply in_map_iff in C. destruct C as (p & E & Hp). destruct (A p Hp) as (l & x & y & Wl & Sz & Hx & Hy & ->).
      exists l, x, y. split; [exact Wl|]. split; [exact Sz|]. now rewrite <- E, V.
    - intros l x y Wl Sz. destruct (B l x y Wl Sz) as (Hx & Hy & Hi). apply M. right. apply in_map_iff. eexists. split; [now apply V|exact Hi].
  Qed.
  Lemma lid_draft lid z : lid_at lid z -> draft_of lid = Ok (Rabs z).
  Proof using.
    intros (N & H). unfold draft_of. assert (N' : map vz (m_vertices lid) <> []) by (destruct (m_vertices lid); [contradiction|discriminate]).
    destruct (array_min_spec _ N') as (a & -> & Ia & _). cbn [bind]. apply in_map_iff in Ia. destruct Ia as (v & <- & Hv). now rewrite (H v Hv).
  Qed.
  Lemma estimate_ok lid z : lid_at lid z -> z <= 0 -> exists e, first_irregular_frequency_estimate argsort g m (Some lid) = Ok e
    /\ (- z < / 1000000 -> e = PInf)
    /\ (/ 1000000 <= - z -> (e = PInf \/ exists l x y, is_waterline m l /\ waterline_size m l x y /\ e = Fin (parallelepiped_frequency g x y (- z)))
        /\ forall l x y, is_waterline m l -> waterline_size m l x y -> exists v, e = Fin v /\ v <= parallelepiped_frequency g x y (- z)).
  Proof using Vm Im Pm Hg.
    intros L Hz. unfold first_irregular_frequency_estimate. rewrite (lid_draft lid z L). cbn [bind]. rewrite Rabs_left1 by exact Hz.
    destruct (Rltb (- z) (/ 1000000)) eqn:E.
    - apply Rltb_true in E. exists PInf. split; [reflexivity|]. split; [reflexivity|lra].
    - apply Rltb_false in E. destruct (loop_ok (- z)) as (e & -> & A & B); [lra|]. exists e. split; [reflexivity|]. split; [lra|]. intros _. now split.
  Qed.
  (** Without lid, the draft is that of the hull. *)
  Lemma no_lid_ok d : 0 < d -> (exists v, In v (m_vertices m) /\ vz v = - d) -> (forall v, In v (m_vertices m) -> - d <= vz v) ->
    exists e, first_irregular_frequency_estimate argsort g m None = Ok e
    /\ (e = PInf \/ exists l x y, is_waterline m l /\ waterline_size m l x y /\ e = Fin (parallelepiped_frequency g x y d))
    /\ (forall l x y, is_waterline m l -> waterline_size m l x y -> exists v, e = Fin v /\ v <= parallelepiped_frequency g x y d).
  Proof using Vm Im Pm Hg.
    intros Hd (v & Hv & Ev) Lo. unfold first_irregular_frequency_estimate, draft_of.
    destruct (array_min_spec (map vz (m_vertices m))) as (a & -> & Ia & Ba); [destruct (m_vertices m); [destruct Hv|discriminate]|]. cbn [bind].
    assert (a = - d) as ->.
    { apply in_map_iff in Ia. destruct Ia as (u & Eu & Hu). pose proof (Lo u Hu). pose proof (Ba (vz v) (in_map vz _ _ Hv)). lra. }
    rewrite Rabs_Ropp, Rabs_pos_eq by lra. now apply loop_ok.
  Qed.

  (** All the waterlines of the same size. *)
  Lemma safe_ok p : p <> w * w / (PI * g) -> (forall l x y, is_waterline m l -> waterline_size m l x y -> inverse_length x y = p) ->
    exists z, lowest_lid_position argsort w g m = Ok (Fin z) /\ z <= 0
      /\ (forall lid, lid_at lid z -> exists e, first_irregular_frequency_estimate argsort g m (Some lid) = Ok e /\ lower_than w e)
      /\ (z < 0 -> forall lid z', lid_at lid z' -> z' <= 10 / 9 * z -> z' <= - / 1000000 ->
            exists e, first_irregular_frequency_estimate argsort g m (Some lid) = Ok (Fin e) /\ e <= w).
  Proof using Vm Im Pm Hg Hw.
    intros Np Sp. pose proof PI_RGT_0 as Pi. destruct position_ok as (z & Ez & Lz & All & One).
    { intros l x y Wl Sz E. apply Np. rewrite <- (Sp l x y Wl Sz), <- E. field. split; lra. }
    assert (Thr : forall l x y, is_waterline m l -> waterline_size m l x y -> 0 < p /\ forall d, parallelepiped_frequency g x y d = freq_at g p d).
    { intros l x y Wl Sz. destruct inverses_ok as (comps & ps & _ & _ & _ & B). destruct (B l x y Wl Sz) as (Hx & Hy & _).
      split; [rewrite <- (Sp l x y Wl Sz); now apply inverse_pos|]. intros d. now rewrite freq_par, (Sp l x y Wl Sz). }
    exists z. split; [exact Ez|]. split; [exact Lz|]. split.
    - intros lid L. destruct (estimate_ok lid z L Lz) as (e & -> & Sh & De). exists e. split; [reflexivity|].
      destruct (Rlt_or_le (- z) (/ 1000000)) as [X|X]; [rewrite (Sh X); exact I|]. destruct (De X) as [[->|(l & x & y & Wl & Sz & ->)] _]; [exact I|]. cbn [lower_than].
      destruct (Thr l x y Wl Sz) as [P0 E]. rewrite E. destruct One as [->|(l' & x' & y' & d & Wl' & Sz' & Hd & Ed & ->)]; [lra|].
      destruct (Thr l' x' y' Wl' Sz') as [_ E']. rewrite E' in Ed. destruct (freq_is_threshold g w p Hg Hw P0 d Hd Ed) as [R1 Ed'].
      apply (freq_above g w p Hg Hw P0); [lra|exact R1|]. lra.
    - intros Nz lid z' L Lz' Sh'. destruct (estimate_ok lid z' L) as (e & -> & _ & De); [lra|]. destruct One as [->|(l & x & y & d & Wl & Sz & Hd & Ed & ->)]; [lra|].
      destruct (De ltac:(lra)) as [_ M]. destruct (M l x y Wl Sz) as (v & -> & Lv). exists v. split; [reflexivity|].
      destruct (Thr l x y Wl Sz) as [P0 E]. rewrite E in Ed, Lv. destruct (freq_is_threshold g w p Hg Hw P0 d Hd Ed) as [R1 Ed'].
      destruct (Rlt_or_le w (freq_at g p (- z'))) as [X|X]; [|lra]. apply (freq_above g w p Hg Hw P0) in X; [lra|lra|exact R1].
  Qed.

  (** Waterlines of different sizes. *)
  Lemma too_low_ok l x y d l' x' y' d' : (forall l x y, is_waterline m l -> waterline_size m l x y -> PI * g * inverse_length x y <> w * w) ->
    is_waterline m l -> waterline_size m l x y -> 0 < d -> parallelepiped_frequency g x y d = w ->
    is_waterline m l' -> waterline_size m l' x' y' -> 0 < d' -> parallelepiped_frequency g x' y' d' = w ->
    / 1000000 <= d -> d < 9 / 10 * d' ->
    exists z, lowest_lid_position argsort w g m = Ok (Fin z) /\ forall lid, lid_at lid z ->
      exists e, first_irregular_frequency_estimate argsort g m (Some lid) = Ok (Fin e) /\ e < w.
  Proof using Vm Im Pm Hg Hw.
    intros Ne Wl Sz Hd Ed Wl' Sz' Hd' Ed' Big Lt. destruct (position_ok Ne) as (z & Ez & Lz & All & _). exists z. split; [exact Ez|].
    pose proof (All l' x' y' d' Wl' Sz' Hd' Ed') as Z'. intros lid L. destruct (estimate_ok lid z L Lz) as (e & -> & _ & De).
    destruct (De ltac:(lra)) as [_ M]. destruct (M l x y Wl Sz) as (v & -> & Lv). exists v. split; [reflexivity|].
    destruct inverses_ok as (comps & ps & _ & _ & _ & B). destruct (B l x y Wl Sz) as (Hx & Hy & _). pose proof (inverse_pos x y Hx Hy) as P0.
    rewrite freq_par in Ed, Lv. destruct (freq_is_threshold g w _ Hg Hw P0 d Hd Ed) as [R1 Et].
    assert (Nz : 0 < - z) by lra. apply Rle_lt_trans with (1 := Lv). destruct (Rtotal_order (freq_at g (inverse_length x y) (- z)) w) as [X|[X|X]]; [exact X| |].
    - apply (freq_is_threshold g w _ Hg Hw P0 (- z) Nz) in X. lra.
    - apply (freq_above g w _ Hg Hw P0 (- z) Nz R1) in X. lra.
  Qed.
End Position.
