From Coq Require Import Reals List Bool Arith Lia Lra Relation_Operators.
From Verif Require Import Model_Base Model_Geometry Model_Mesh Spec_Mesh Spec_Clip Spec_Quality Proofs_Geometry Proofs_Mesh Proofs_Integrals Proofs_Problem
  Model_Quality Model_Lid Spec_Lid Proofs_Lid Proofs_Lid3 Proofs_Lid4.
Import ListNotations.
Open Scope R_scope.

(** Two inverted pyramids, whose waterlines are right triangles of sides 12 and s. *)
Definition twin (s : R) : mesh :=
  Mesh [V 0 0 0; V 12 0 0; V 0 12 0; V 4 4 (-4); V 20 0 0; V (20 + s) 0 0; V 20 s 0; V (20 + s / 4) (s / 4) (-1)]
       [F 0 1 3 0; F 1 2 3 1; F 2 0 3 2; F 4 5 7 4; F 5 6 7 5; F 6 4 7 6].
Section Twin.
  Variable s : R.
  Hypothesis Ps : 0 < s.
  Notation m := (twin s).
  Ltac faces H := repeat (destruct H as [H|H]; [subst|]); try (now destruct H).
  Lemma twin_valid : valid m.
  Proof. intros f i Hf Hi. cbn in *. faces Hf; cbn in Hi; lia. Qed.
  Lemma twin_immersed : immersed m.
  Proof. intros v Hv. cbn in Hv. faces Hv; cbn; lra. Qed.
  Definition part (i : nat) : nat := i / 3.
  Definition vpart (i : nat) : nat := i / 4.
  Lemma twin_part i f x : nth_error (m_faces m) i = Some f -> In x [fa f; fb f; fc f; fd f] -> vpart x = part i.
  Proof.
    intros Hf Hx. destruct i as [|[|[|[|[|[|i]]]]]]; cbn in Hf; try (injection Hf as <-; cbn in Hx; faces Hx; reflexivity). destruct i; discriminate.
  Qed.
  Lemma linked_part i j : linked m i j -> part i = part j.
  Proof.
    induction 1 as [i j (_ & _ & f & g & v & Hf & Hg & If & Ig)|i|i j k _ IH _ IH']; [|reflexivity|congruence].
    rewrite <- (twin_part i f v Hf If). now apply twin_part with (f := g).
  Qed.
  Lemma twin_wet i : (i < 6)%nat -> wet m i.
  Proof.
    intros H. destruct i as [|[|[|[|[|[|i]]]]]]; try lia; eexists; eexists; eexists; (split; [reflexivity|]); (split; [left; reflexivity|]); (split; [reflexivity|]); cbn [vz]; rewrite Rabs_R0; lra.
  Qed.
  Lemma wet_six i : wet m i -> (i < 6)%nat.
  Proof. intros (f & x & v & Hf & _). change 6%nat with (length (m_faces m)). apply nth_error_Some. congruence. Qed.
  Lemma twin_share i j : (i < 6)%nat -> (j < 6)%nat -> part i = part j -> share_vertex (m_faces m) i j.
  Proof.
    intros Hi Hj E. assert (D : exists f g, nth_error (m_faces m) i = Some f /\ nth_error (m_faces m) j = Some g /\ fc f = fc g).
    { destruct i as [|[|[|[|[|[|i]]]]]]; try lia; destruct j as [|[|[|[|[|[|j]]]]]]; try lia; cbn in E; try discriminate; eexists; eexists; repeat split; reflexivity. }
    destruct D as (f & g & Hf & Hg & E'). exists f, g, (fc f). split; [exact Hf|]. split; [exact Hg|]. split; [cbn; tauto|rewrite E'; cbn; tauto].
  Qed.
  Lemma twin_linked i j : (i < 6)%nat -> linked m i j <-> (j < 6)%nat /\ part i = part j.
  Proof.
    intros Hi. split.
    - intros L. split; [|now apply linked_part]. clear - Hi L. induction L as [i j (_ & W & _)|i|i j k L1 IH1 L2 IH2]; [now apply wet_six|exact Hi|]. auto.
    - intros (Hj & E). apply rt_step. split; [now apply twin_wet|]. split; [now apply twin_wet|]. now apply twin_share.
  Qed.
  Definition is_part (k : nat) (l : list nat) : Prop := forall j, In j l <-> (j < 6)%nat /\ part j = k.
  Lemma waterline_part l : is_waterline m l -> is_part 0 l \/ is_part 1 l.
  Proof.
    intros (Ne & H). destruct l as [|i l]; [contradiction|]. destruct (H i (or_introl eq_refl)) as (W & J). apply wet_six in W.
    assert (G : is_part (part i) (i :: l)).
    { intros j. rewrite J. rewrite (twin_linked i j W). split; intros (A & B); split; congruence. }
    destruct i as [|[|[|[|[|[|i]]]]]]; try lia; [left|left|left|right|right|right]; exact G.
  Qed.
  Lemma part_waterline k l : l <> [] -> is_part k l -> is_waterline m l.
  Proof.
    intros Ne H. split; [exact Ne|]. intros i Hi. apply H in Hi. destruct Hi as [Hi E]. split; [now apply twin_wet|]. intros j. rewrite (twin_linked i j Hi), (H j). split; intros (A & B); split; congruence.
  Qed.
  Lemma part_corners k l v : is_part k l -> (k < 2)%nat -> corner_of m l v <-> exists x, nth_error (m_vertices m) x = Some v /\ vpart x = k.
  Proof.
    intros H Hk. split.
    - intros (i & f & x & Hi & Hf & Hx & Hv). exists x. split; [exact Hv|]. rewrite (twin_part i f x Hf Hx). now apply H in Hi.
    - intros (x & Hv & E). assert (Hx : (x < 8)%nat) by (change 8%nat with (length (m_vertices m)); apply nth_error_Some; congruence).
      assert (D : exists i f, (i < 6)%nat /\ part i = vpart x /\ nth_error (m_faces m) i = Some f /\ In x [fa f; fb f; fc f; fd f]).
      { destruct x as [|[|[|[|[|[|[|[|x]]]]]]]]; try lia;
          [exists 0%nat|exists 0%nat|exists 1%nat|exists 0%nat|exists 3%nat|exists 3%nat|exists 4%nat|exists 3%nat]; eexists; (split; [lia|]); (split; [reflexivity|]); (split; [reflexivity|]); cbn; tauto. }
      destruct D as (i & f & Hi & Ei & Hf & Ix). exists i, f, x. split; [apply H; split; [exact Hi|congruence]|]. auto.
  Qed.
  Definition size (k : nat) : R := match k with O => 12 | _ => s end.
  Lemma part_size k l : is_part k l -> (k < 2)%nat -> waterline_size m l (size k) (size k).
  Proof.
    intros H Hk. pose proof (fun v => part_corners k l v H Hk) as C.
    assert (E : forall x v, nth_error (m_vertices m) x = Some v -> vpart x = k -> corner_of m l v) by (intros x v Hv Ex; apply C; eauto).
    destruct k as [|[|k]]; [| |lia]; cbn [size].
    - split.
      + exists (V 12 0 0), (V 0 0 0). split; [now apply (E 1%nat)|]. split; [now apply (E 0%nat)|]. split; [|cbn; ring].
        intros v Hv. apply C in Hv. destruct Hv as (x & Hv & Ex). destruct x as [|[|[|[|[|[|[|[|x]]]]]]]]; cbn in Ex; try discriminate; cbn in Hv; try (injection Hv as <-; cbn; lra). destruct x; discriminate.
      + exists (V 0 12 0), (V 0 0 0). split; [now apply (E 2%nat)|]. split; [now apply (E 0%nat)|]. split; [|cbn; ring].
        intros v Hv. apply C in Hv. destruct Hv as (x & Hv & Ex). destruct x as [|[|[|[|[|[|[|[|x]]]]]]]]; cbn in Ex; try discriminate; cbn in Hv; try (injection Hv as <-; cbn; lra). destruct x; discriminate.
    - split.
      + exists (V (20 + s) 0 0), (V 20 0 0). split; [now apply (E 5%nat)|]. split; [now apply (E 4%nat)|]. split; [|cbn; ring].
        intros v Hv. apply C in Hv. destruct Hv as (x & Hv & Ex). destruct x as [|[|[|[|[|[|[|[|x]]]]]]]]; cbn in Ex; try discriminate; cbn in Hv; try (injection Hv as <-; cbn; lra). destruct x; discriminate.
      + exists (V 20 s 0), (V 20 0 0). split; [now apply (E 6%nat)|]. split; [now apply (E 4%nat)|]. split; [|cbn; ring].
        intros v Hv. apply C in Hv. destruct Hv as (x & Hv & Ex). destruct x as [|[|[|[|[|[|[|[|x]]]]]]]]; cbn in Ex; try discriminate; cbn in Hv; try (injection Hv as <-; cbn; lra). destruct x; discriminate.
  Qed.
  Lemma first_part : is_part 0 [0; 1; 2]%nat.
  Proof. intros j. split; [intros H; faces H; split; try lia; reflexivity|]. intros (H & E). destruct j as [|[|[|[|[|[|j]]]]]]; cbn in E; try discriminate; try lia; cbn; tauto. Qed.
  Lemma second_part : is_part 1 [3; 4; 5]%nat.
  Proof. intros j. split; [intros H; faces H; split; try lia; reflexivity|]. intros (H & E). destruct j as [|[|[|[|[|[|j]]]]]]; cbn in E; try discriminate; try lia; cbn; tauto. Qed.
  Lemma twin_first : is_waterline m [0; 1; 2]%nat /\ waterline_size m [0; 1; 2]%nat 12 12.
  Proof. split; [apply part_waterline with 0%nat; [discriminate|exact first_part]|]. apply (part_size 0); [exact first_part|lia]. Qed.
  Lemma twin_second : is_waterline m [3; 4; 5]%nat /\ waterline_size m [3; 4; 5]%nat s s.
  Proof. split; [apply part_waterline with 1%nat; [discriminate|exact second_part]|]. apply (part_size 1); [exact second_part|lia]. Qed.
  Lemma twin_sizes l x y : is_waterline m l -> waterline_size m l x y -> (x = 12 /\ y = 12) \/ (x = s /\ y = s).
  Proof.
    intros W Sz. destruct (waterline_part l W) as [H|H]; [left|right]; (eapply size_unique; [exact Sz|]); [now apply (part_size 0); [|lia]|now apply (part_size 1); [|lia]].
  Qed.
  Lemma twin_proper : proper_waterlines m.
  Proof.
    intros l W. destruct (waterline_part l W) as [H|H]; [exists 12, 12|exists s, s]; (split; [|lra]); [now apply (part_size 0); [|lia]|now apply (part_size 1); [|lia]].
  Qed.
End Twin.

Lemma inverse_square s : 0 < s -> inverse_length s s = sqrt 2 / s.
Proof.
  intros H. unfold inverse_length. replace (/ s * / s + / s * / s) with (2 * (/ s * / s)) by ring. rewrite sqrt_mult, sqrt_square; [reflexivity| | |].
  - apply Rlt_le, Rinv_0_lt_compat, H. - lra. - apply Rmult_le_pos; apply Rlt_le, Rinv_0_lt_compat, H.
Qed.
Definition critical (g : R) : R := sqrt (PI * g * (sqrt 2 / 4)).
Lemma sqrt2_pos : 0 < sqrt 2. Proof. apply sqrt_lt_R0. lra. Qed.
Lemma critical_square g : 0 < g -> 0 < critical g /\ critical g * critical g = PI * g * (sqrt 2 / 4).
Proof.
  intros H. pose proof PI_RGT_0. pose proof sqrt2_pos. assert (0 < PI * g * (sqrt 2 / 4)) by (apply Rmult_lt_0_compat; [apply Rmult_lt_0_compat; assumption|lra]).
  split; [now apply sqrt_lt_R0|apply sqrt_sqrt; lra].
Qed.
Lemma critical_ratio g s : 0 < g -> 0 < s -> ratio g (critical g) (sqrt 2 / s) = 4 / s.
Proof.
  intros Hg Hs. unfold ratio. destruct (critical_square g Hg) as [_ ->]. pose proof PI_RGT_0. pose proof sqrt2_pos. field. repeat split; lra.
Qed.
Lemma deep_first g : threshold g (critical g) (sqrt 2 / 12) = 6 * ln 2 / (PI * sqrt 2) \/ ~ 0 < g.
Proof.
  destruct (Rlt_dec 0 g) as [Hg|]; [left|now right]. unfold threshold. rewrite critical_ratio by lra. unfold artanh. replace ((1 + 4 / 12) / (1 - 4 / 12)) with 2 by field.
  pose proof PI_RGT_0. pose proof sqrt2_pos. field. repeat split; lra.
Qed.
Lemma deep_second g : 0 < g -> threshold g (critical g) (sqrt 2 / 5) = 5 * ln 3 / (PI * sqrt 2).
Proof.
  intros Hg. unfold threshold. rewrite critical_ratio by lra. unfold artanh. replace ((1 + 4 / 5) / (1 - 4 / 5)) with (3 * 3) by field. rewrite ln_mult by lra.
  pose proof PI_RGT_0. pose proof sqrt2_pos. field. repeat split; lra.
Qed.
Lemma ln_compare : 6 * ln 2 < 9 / 10 * (5 * ln 3).
Proof.
  assert (E : ln 16 < ln 27) by (apply ln_increasing; lra). replace 16 with (2 * 2 * (2 * 2)) in E by ring. replace 27 with (3 * 3 * 3) in E by ring. rewrite !ln_mult in E by lra. lra.
Qed.
Lemma pi_root : 0 < PI * sqrt 2 /\ PI * sqrt 2 <= 8.
Proof.
  pose proof PI_RGT_0. pose proof PI_4. pose proof sqrt2_pos. assert (sqrt 2 <= 2) by (rewrite <- (sqrt_square 2) at 2 by lra; apply sqrt_le_1_alt; lra). split; [now apply Rmult_lt_0_compat|]. nra.
Qed.
Lemma twin_too_low argsort g : 0 < g -> exists z, lowest_lid_position argsort (critical g) g (twin 5) = Ok (Fin z)
  /\ forall lid, lid_at lid z -> exists e, first_irregular_frequency_estimate argsort g (twin 5) (Some lid) = Ok (Fin e) /\ e < critical g.
Proof.
  intros Hg. destruct (critical_square g Hg) as [Pc Sc]. pose proof pi_root as [P1 P2].
  assert (P12 : 0 < sqrt 2 / 12) by (pose proof sqrt2_pos; lra). assert (P5 : 0 < sqrt 2 / 5) by (pose proof sqrt2_pos; lra).
  destruct (twin_first 5) as [Wa Sa]; [lra|]. destruct (twin_second 5) as [Wb Sb]; [lra|]. pose proof ln_lt_2 as L2.
  assert (D1 : threshold g (critical g) (sqrt 2 / 12) = 6 * ln 2 / (PI * sqrt 2)) by (destruct (deep_first g); [assumption|contradiction]).
  pose proof (deep_second g Hg) as D2. pose proof ln_compare as Lc.
  assert (T5 : 0 < 5) by lra.
  apply (too_low_ok argsort (twin 5) (twin_valid 5) (twin_immersed 5) (twin_proper 5 T5) g (critical g) Hg Pc
    [0; 1; 2]%nat 12 12 (threshold g (critical g) (sqrt 2 / 12)) [3; 4; 5]%nat 5 5 (threshold g (critical g) (sqrt 2 / 5))); try assumption.
  - intros l x y W Sz E. rewrite Sc in E. assert (X : inverse_length x y = sqrt 2 / 4).
    { apply Rmult_eq_reg_l with (PI * g); [exact E|]. pose proof PI_RGT_0. assert (0 < PI * g) by now apply Rmult_lt_0_compat. lra. }
    pose proof sqrt2_pos. destruct (twin_sizes 5 T5 l x y W Sz) as [[-> ->]|[-> ->]]; rewrite inverse_square in X by lra; lra.
  - apply threshold_pos; try assumption. rewrite critical_ratio; lra.
  - rewrite freq_par, inverse_square by lra. apply threshold_freq; try assumption. rewrite critical_ratio; lra.
  - apply threshold_pos; try assumption. rewrite critical_ratio; lra.
  - rewrite freq_par, inverse_square by lra. apply threshold_freq; try assumption. rewrite critical_ratio; lra.
  - rewrite D1. apply Rmult_le_reg_r with (PI * sqrt 2); [lra|]. unfold Rdiv. rewrite Rmult_assoc, Rinv_l by lra. lra.
  - rewrite D1, D2. apply Rmult_lt_reg_r with (PI * sqrt 2); [lra|]. unfold Rdiv. rewrite !Rmult_assoc, Rinv_l by lra. lra.
Qed.
