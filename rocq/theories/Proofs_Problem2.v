From Coquelicot Require Import Coquelicot.
From Coq Require Import Reals List String Bool Lra Lia Arith Ascii.
From Verif Require Import Model_Base Model_Problem Spec_Problem Proofs_Problem.
Import ListNotations.
Open Scope R_scope.

(** Inversion of an accepted generic problem. *)
Lemma generic_inv newton immersed i bc p : generic_problem newton immersed i bc = Ok p ->
  exists h f ob e d,
    depth_meant i h
    /\ get_frequencies newton h (i_g i) (i_omega i) (i_period i) (i_wavenumber i) (i_wavelength i) = Ok f
    /\ check_data immersed (i_fs i) h (f_omega f) (i_speed i) (i_body i) bc = Ok ob
    /\ encounter newton h (i_g i) f (i_speed i) (i_dir i) = Ok (e, d)
    /\ p = {| p_body := ob; p_fs := i_fs i; p_depth := h; p_freqs := f; p_enc := e;
              p_speed := i_speed i; p_rho := i_rho i; p_g := i_g i;
              p_dir := i_dir i; p_enc_dir := d;
              p_bc := match bc with Some a => Some (BC (a_values a)) | None => None end |}.
Proof.
  unfold generic_problem.
  destruct (get_water_depth _ _ _ _) as [h|] eqn:E1; [|discriminate]. cbn [bind].
  destruct (get_frequencies _ _ _ _ _ _ _) as [f|] eqn:E2; [|discriminate]. cbn [bind].
  destruct (check_data _ _ _ _ _ _ _) as [ob|] eqn:E3; [|discriminate]. cbn [bind].
  destruct (encounter _ _ _ _ _ _) as [[e d]|] eqn:E4; [|discriminate]. cbn [bind fst snd].
  intros [= <-]. exists h, f, ob, e, d. split; [apply water_depth_meant; exact E1|]. auto.
Qed.

(** ** Encounter frequency *)
Lemma encounter_no_speed newton immersed i bc p :
  generic_problem newton immersed i bc = Ok p -> i_speed i = 0 ->
  p_enc p = p_freqs p /\ p_enc_dir p = i_dir i.
Proof.
  intros H HU. apply generic_inv in H. destruct H as [h [f [ob [e [d [_ [_ [_ [E ->]]]]]]]]]. cbn.
  unfold encounter in E. rewrite HU, Reqb_refl in E. injection E as <- <-. auto.
Qed.

Lemma encounter_speed newton immersed i bc p t x :
  exact_root_finder newton -> 0 < i_g i -> pos_depth (p_depth p) ->
  freq_meant i t x -> i_speed i <> 0 ->
  generic_problem newton immersed i bc = Ok p ->
  exists w T k L,
    p_freqs p = Freqs (FVal (Fin w)) (FVal (Fin T)) (FVal (Fin k)) (FVal (Fin L)) t
    /\ same_wave (p_depth p) (i_g i) w T k L
    /\ let s := w - k * i_speed i * cos (i_dir i) in
       (0 <= s -> p_enc_dir p = i_dir i)
       /\ (s < 0 -> p_enc_dir p = i_dir i + PI)
       /\ (s = 0 -> p_enc p = Freqs FZero FInf FZero FInf Omega)
       /\ (s <> 0 -> exists T' k' L',
             p_enc p = Freqs (FVal (Fin (Rabs s))) (FVal (Fin T')) (FVal (Fin k')) (FVal (Fin L')) Omega
             /\ same_wave (p_depth p) (i_g i) (Rabs s) T' k' L').
Proof.
  intros HN Hg Hh Hf HU H. apply generic_inv in H.
  destruct H as [h [f [ob [e [d [_ [Ef [Ec [E ->]]]]]]]]]. cbn [p_depth p_freqs p_enc p_enc_dir] in *.
  rewrite (freq_meant_get _ _ _ _ _ _ Hf) in Ef.
  pose proof (freq_meant_val _ _ _ Hf) as Hx.
  assert (NL : ~ limit_freq x).
  { intros L. destruct (frequencies_from_limit newton h (i_g i) t x L) as [f' [E1 [E2 _]]].
    assert (f' = f) by congruence. subst f'. unfold check_data in Ec.
    rewrite E2, (Reqb_false (i_speed i) 0 HU) in Ec. cbn [negb andb] in Ec.
    destruct (negb _); [discriminate|]. destruct (ext_eqb (i_fs i) PInf && _); [discriminate|].
    destruct (ext_ltb _ _); discriminate. }
  assert (Hr : exists r, x = Fin r /\ 0 < r).
  { destruct Hx as [->|[r [-> Hr]]]; [exfalso; apply NL; right; auto|].
    exists r. split; [auto|]. destruct (Req_dec r 0) as [->|]; [exfalso; apply NL; left; auto|lra]. }
  destruct Hr as [r [-> Hr]].
  destruct (frequencies_from_pos newton h (i_g i) t r HN Hg Hh Hr) as [w [T [k [l [E1 [W _]]]]]].
  rewrite Ef in E1. injection E1 as ->. exists w, T, k, l. split; [reflexivity|]. split; [exact W|].
  set (s := w - k * i_speed i * cos (i_dir i)). unfold encounter in E. rewrite (Reqb_false (i_speed i) 0 HU) in E.
  unfold doppler in E. cbn [f_omega f_wavenumber ffloat ext_mul ext_sub ext_opp ext_add np_abs] in E.
  change (w + - (k * i_speed i * cos (i_dir i))) with s in E.
  unfold get_frequencies in E. cbn [provided app] in E.
  destruct (frequencies_from newton h (i_g i) Omega (Fin (Rabs s))) as [e'|] eqn:Ee; [|discriminate].
  cbn [bind ext_leb] in E. injection E as <- <-.
  split; [|split; [|split]].
  - intros Hs. unfold Rleb. destruct (Rle_dec 0 s); [reflexivity|lra].
  - intros Hs. unfold Rleb. destruct (Rle_dec 0 s); [lra|reflexivity].
  - intros Hs. rewrite Hs, Rabs_R0 in Ee. unfold frequencies_from in Ee. cbn [ext_eqb] in Ee.
    rewrite Reqb_refl in Ee. cbn in Ee. injection Ee as <-. reflexivity.
  - intros Hs. destruct (frequencies_from_pos newton h (i_g i) Omega (Rabs s) HN Hg Hh (Rabs_pos_lt _ Hs))
      as [w' [T' [k' [l' [E1 [W' C']]]]]]. cbn in C'. subst w'. rewrite Ee in E1. injection E1 as ->.
    exists T', k', l'. auto.
Qed.

(** ** Boundary conditions *)
Lemma map2_length {A B D} (f : A -> B -> D) l m :
  List.length (map2 f l m) = Nat.min (List.length l) (List.length m).
Proof. revert m. induction l as [|a l IH]; intros [|b m]; cbn; auto. Qed.
Lemma map2_nth {A B D} (f : A -> B -> D) l m n a b d :
  (n < List.length l)%nat -> (n < List.length m)%nat ->
  nth n (map2 f l m) d = f (nth n l a) (nth n m b).
Proof.
  revert m n. induction l as [|x l IH]; intros [|y m] n Hl Hm; cbn in *; try lia.
  destruct n as [|n]; [reflexivity|]. apply IH; lia.
Qed.

(** Values of a stored boundary condition. *)
Lemma diffraction_bc newton immersed i p b :
  diffraction_problem newton immersed i = Ok p -> p_body p = Some b ->
  List.length (b_normals b) = nb_faces b ->
  exists w l, wave_of p = Some w /\ p_bc p = Some (BC l)
    /\ List.length l = nb_faces_with_lid b
    /\ (forall n, (n < nb_faces b)%nat ->
          nth n l (RtoC 0) = Copp (cdot (airy_velocity w (nth n (b_centers b) v0)) (nth n (b_normals b) v0)))
    /\ (forall n, (nb_faces b <= n)%nat -> nth n l (RtoC 0) = RtoC 0).
Proof.
  unfold diffraction_problem. destruct generic_problem as [q|]; [|discriminate]. cbn [bind].
  destruct (is_limit _); [discriminate|]. destruct (p_body q) as [b0|] eqn:Eb; [|intros [= <-]; congruence].
  destruct (wave_of q) as [w|] eqn:Ew; [|discriminate]. intros [= <-]. cbn [p_body with_bc].
  rewrite Eb. intros [= <-] Hn. exists w. eexists. split; [exact Ew|]. split; [reflexivity|].
  set (l := map2 _ _ _).
  assert (Hl : List.length l = nb_faces b0).
  { unfold l. rewrite map2_length, Hn. unfold nb_faces. apply Nat.min_id. }
  split; [|split].
  - rewrite app_length, Hl. unfold nb_faces_with_lid, lid_zeros. destruct (b_lid b0) as [m|]; cbn; [|lia].
    rewrite repeat_length. reflexivity.
  - intros n H. rewrite app_nth1 by lia. unfold l.
    rewrite (map2_nth _ _ _ n v0 v0) by (unfold nb_faces in *; lia). reflexivity.
  - intros n H. rewrite app_nth2 by lia. unfold lid_zeros. destruct (b_lid b0) as [m|].
    + destruct (Nat.lt_ge_cases (n - List.length l) m).
      * apply nth_repeat.
      * apply nth_overflow. rewrite repeat_length. lia.
    + destruct (n - List.length l)%nat; reflexivity.
Qed.

Lemma assoc_in {A} s (l : list (string * A)) a : assoc s l = Some a -> In (s, a) l.
Proof.
  induction l as [|[t b] l IH]; cbn; [discriminate|]. destruct (String.eqb_spec s t) as [->|].
  - intros [= ->]. auto.
  - intros H. right. auto.
Qed.

(** Radiation problem without forward speed, at a finite frequency. *)
Lemma radiation_bc newton immersed i o p dof b w :
  radiation_problem newton immersed i o = Ok (p, Some dof) -> p_body p = Some b ->
  List.length (b_normals b) = nb_faces b -> i_speed i = 0 ->
  f_omega (p_freqs p) = FVal (Fin w) ->
  (o = None \/ o = Some dof)
  /\ exists d l, assoc dof (b_dofs b) = Some d /\ p_bc p = Some (BC l)
    /\ List.length l = nb_faces_with_lid b
    /\ (forall n, (n < nb_faces b)%nat ->
          nth n l (RtoC 0) = (- Ci * RtoC w * cdot (row3 (nth n d [])) (nth n (b_normals b) v0))%C)
    /\ (forall n, (nb_faces b <= n)%nat -> nth n l (RtoC 0) = RtoC 0).
Proof.
  unfold radiation_problem. destruct generic_problem as [q|] eqn:Eq; [|discriminate]. cbn [bind].
  destruct (p_body q) as [b0|] eqn:Eb; [|intros [= <- _]; congruence].
  destruct (b_dofs b0) as [|[first dd] ds] eqn:Ed; [discriminate|].
  set (dof0 := match o with None => first | Some d => d end).
  destruct (assoc dof0 ((first, dd) :: ds)) as [d|] eqn:Ea; [|discriminate].
  destruct (dof_dot_n d b0) as [dn|] eqn:Edn; [|discriminate]. cbn [bind].
  destruct (motion_bc _ dn) as [c|] eqn:Ec; [|discriminate]. cbn [bind].
  destruct (if Reqb (p_speed q) 0 then _ else _) as [c'|] eqn:Ec'; [|discriminate]. cbn [bind].
  destruct (append_lid b0 c') as [c''|] eqn:Ec''; [|discriminate]. cbn [bind].
  intros [= <- Hdof]. cbn [p_body with_bc p_freqs p_bc]. rewrite Eb. intros [= <-] Hn HU Hw.
  destruct (encounter_no_speed _ _ _ _ _ Eq HU) as [He _].
  assert (HU' : p_speed q = 0).
  { apply generic_inv in Eq. destruct Eq as [? [? [? [? [? [_ [_ [_ [_ ->]]]]]]]]]. exact HU. }
  rewrite HU', Reqb_refl in Ec'. injection Ec' as <-. rewrite He, Hw in Ec. cbn in Ec. injection Ec as <-.
  split; [subst dof0; destruct o; [right; congruence|left; reflexivity]|].
  unfold dof_dot_n in Edn. destruct (dof_shape_ok _ d) eqn:Es; [|discriminate]. injection Edn as <-.
  unfold dof_shape_ok in Es. apply andb_prop in Es. destruct Es as [Es _]. apply Nat.eqb_eq in Es.
  set (l := map _ _) in Ec''.
  assert (Hl : List.length l = nb_faces b0).
  { unfold l. rewrite map_length, map2_length, Es, Nat.min_id. exact Hn. }
  assert (Hnth : forall n, (n < nb_faces b0)%nat ->
     nth n l (RtoC 0) = (- Ci * RtoC w * cdot (row3 (nth n d [])) (nth n (b_normals b0) v0))%C).
  { intros n H. unfold l.
    rewrite (nth_indep _ (RtoC 0) ((- Ci * RtoC w) * RtoC 0)%C) by (fold l; lia).
    rewrite map_nth. rewrite (map2_nth _ _ _ n [] v0) by lia. reflexivity. }
  exists d. unfold append_lid in Ec''. destruct (b_lid b0) as [m|] eqn:El; injection Ec'' as <-;
    (eexists; split; [congruence|]; split; [reflexivity|]; split; [|split]).
  - rewrite app_length, repeat_length. unfold nb_faces_with_lid. rewrite El. lia.
  - intros n H. rewrite app_nth1 by lia. auto.
  - intros n H. rewrite app_nth2 by lia. destruct (Nat.lt_ge_cases (n - List.length l) m).
    + apply nth_repeat.
    + apply nth_overflow. rewrite repeat_length. lia.
  - unfold nb_faces_with_lid. rewrite El. exact Hl.
  - auto.
  - intros n H. apply nth_overflow. lia.
Qed.

(** With a lid, a radiation problem at zero or infinite frequency raises. *)
Lemma radiation_lid_limit newton immersed i o q b n f :
  generic_problem newton immersed i None = Ok q -> p_body q = Some b -> b_lid b = Some n ->
  i_speed i = 0 -> f_omega (p_freqs q) = f -> f = FZero \/ f = FInf ->
  exists e, radiation_problem newton immersed i o = Err e.
Proof.
  intros H Hb Hl HU Hf HL. unfold radiation_problem. rewrite H. cbn [bind]. rewrite Hb.
  destruct (b_dofs b) as [|[first dd] ds]; [eauto|].
  destruct (assoc _ _) as [d|]; [|eauto]. destruct (dof_dot_n d b) as [dn|]; [|cbn; eauto]. cbn [bind].
  destruct (encounter_no_speed _ _ _ _ _ H HU) as [He _]. rewrite He, Hf.
  assert (HU' : p_speed q = 0).
  { apply generic_inv in H. destruct H as [? [? [? [? [? [_ [_ [_ [_ ->]]]]]]]]]. exact HU. }
  rewrite HU', Reqb_refl. destruct HL as [-> | ->]; cbn; unfold append_lid; rewrite Hl; cbn; eauto.
Qed.

(** ** Order *)
Definition real_like (x : ext) : Prop := x <> NaN.
Lemma ext_eqb_eq x y : ext_eqb x y = true -> x = y.
Proof. destruct x, y; cbn; try discriminate; auto. intros H. apply Reqb_true in H. congruence. Qed.
Lemma ext_eqb_refl x : x <> NaN -> ext_eqb x x = true.
Proof. destruct x; cbn; auto. intros _. apply Reqb_refl. Qed.
Lemma ext_ltb_irrefl x : ext_ltb x x = false.
Proof. destruct x; cbn; auto. unfold Rltb. destruct (Rlt_dec r r); [lra|auto]. Qed.
Lemma ext_ltb_trans x y z : ext_ltb x y = true -> ext_ltb y z = true -> ext_ltb x z = true.
Proof.
  destruct x, y, z; cbn; try discriminate; auto. unfold Rltb.
  destruct (Rlt_dec r r0), (Rlt_dec r0 r1), (Rlt_dec r r1); auto; discriminate || lra.
Qed.
Lemma ext_total x y : x <> NaN -> y <> NaN -> ext_ltb x y = false -> ext_ltb y x = false -> x = y.
Proof.
  destruct x, y; cbn; intros; try congruence. unfold Rltb in *.
  destruct (Rlt_dec r r0), (Rlt_dec r0 r); try discriminate. f_equal. lra.
Qed.

Lemma floats_ltb_irrefl l : floats_ltb l l = false.
Proof. induction l as [|x l IH]; cbn; [auto|]. destruct (ext_eqb x x); [auto|apply ext_ltb_irrefl]. Qed.
Lemma floats_ltb_trans l m n : List.Forall real_like l -> List.Forall real_like m -> List.Forall real_like n ->
  floats_ltb l m = true -> floats_ltb m n = true -> floats_ltb l n = true.
Proof.
  revert m n. induction l as [|x l IH]; intros [|y m] [|z n] Hl Hm Hn; cbn; try discriminate; auto.
  inversion Hl; inversion Hm; inversion Hn; subst.
  destruct (ext_eqb x y) eqn:E1, (ext_eqb y z) eqn:E2.
  - apply ext_eqb_eq in E1, E2. subst. rewrite ext_eqb_refl by auto. eapply IH; eauto.
  - apply ext_eqb_eq in E1. subst. rewrite E2. auto.
  - apply ext_eqb_eq in E2. subst. rewrite E1. auto.
  - intros A B. pose proof (ext_ltb_trans _ _ _ A B) as Cc. destruct (ext_eqb x z) eqn:E3; [|exact Cc].
    apply ext_eqb_eq in E3. subst. rewrite ext_ltb_irrefl in Cc. discriminate.
Qed.
(** For lists of the same length, incomparable means equal. *)
Lemma floats_ltb_total l m : List.Forall real_like l -> List.Forall real_like m ->
  List.length l = List.length m -> floats_ltb l m = false -> floats_ltb m l = false -> l = m.
Proof.
  revert m. induction l as [|x l IH]; intros [|y m] Hl Hm; cbn; try discriminate; auto.
  inversion Hl; inversion Hm; subst. intros [= E].
  destruct (ext_eqb x y) eqn:E1.
  - apply ext_eqb_eq in E1. subst. rewrite ext_eqb_refl by auto. intros. f_equal. auto.
  - destruct (ext_eqb y x) eqn:E2.
    + apply ext_eqb_eq in E2. subst. rewrite ext_eqb_refl in E1 by auto. discriminate.
    + intros A B. assert (x = y) by (apply ext_total; auto). subst. rewrite ext_eqb_refl in E1 by auto. discriminate.
Qed.

Lemma string_ltb_irrefl s : string_ltb s s = false.
Proof. induction s as [|a s IH]; cbn [string_ltb]; [auto|]. rewrite Nat.ltb_irrefl, Nat.eqb_refl. auto. Qed.
Lemma string_ltb_trans s t u : string_ltb s t = true -> string_ltb t u = true -> string_ltb s u = true.
Proof.
  revert t u. induction s as [|a s IH]; intros [|b t] [|c u]; cbn [string_ltb]; try discriminate; auto.
  destruct (Nat.ltb_spec (nat_of_ascii a) (nat_of_ascii b)), (Nat.ltb_spec (nat_of_ascii b) (nat_of_ascii c)),
    (Nat.ltb_spec (nat_of_ascii a) (nat_of_ascii c)); auto; try lia;
  destruct (Nat.eqb_spec (nat_of_ascii a) (nat_of_ascii b)), (Nat.eqb_spec (nat_of_ascii b) (nat_of_ascii c)),
    (Nat.eqb_spec (nat_of_ascii a) (nat_of_ascii c)); try lia; try discriminate; eauto.
Qed.
Lemma nat_of_ascii_inj a b : nat_of_ascii a = nat_of_ascii b -> a = b.
Proof. intros H. rewrite <- (ascii_nat_embedding a), <- (ascii_nat_embedding b). congruence. Qed.
Lemma string_ltb_total s t : string_ltb s t = false -> string_ltb t s = false -> s = t.
Proof.
  revert t. induction s as [|a s IH]; intros [|b t]; cbn [string_ltb]; try discriminate; auto.
  destruct (Nat.ltb_spec (nat_of_ascii a) (nat_of_ascii b)), (Nat.ltb_spec (nat_of_ascii b) (nat_of_ascii a));
    try discriminate.
  assert (E : nat_of_ascii a = nat_of_ascii b) by lia. rewrite E, Nat.eqb_refl.
  apply nat_of_ascii_inj in E. subst. intros. f_equal. auto.
Qed.

(** Problems on which the order is well behaved: all with a body, or all
    without, and the name of the body determines the body. *)
Definition comparable (ps : list problem) : Prop :=
  (forall p, In p ps -> List.Forall real_like (floats_of p))
  /\ ((forall p, In p ps -> p_body p = None)
      \/ ((forall p, In p ps -> exists b, p_body p = Some b)
          /\ (forall p q b c, In p ps -> In q ps -> p_body p = Some b -> p_body q = Some c ->
                b_name b = b_name c <-> b_id b = b_id c))).

Lemma Ok_inj {A} (x y : A) : Ok x = Ok y -> x = y.
Proof. intros [= H]. exact H. Qed.

Lemma lt_strict_weak ps : comparable ps -> forall p q r, In p ps -> In q ps -> In r ps ->
  problem_ltb p p = Ok false
  /\ (exists b, problem_ltb p q = Ok b)
  /\ (problem_ltb p q = Ok true -> problem_ltb q r = Ok true -> problem_ltb p r = Ok true)
  /\ (problem_ltb p q = Ok false -> problem_ltb q p = Ok false ->
      problem_ltb q r = Ok false -> problem_ltb r q = Ok false ->
      problem_ltb p r = Ok false /\ problem_ltb r p = Ok false).
Proof.
  intros [HF HB] p q r Hp Hq Hr.
  pose proof (HF p Hp) as Fp. pose proof (HF q Hq) as Fq. pose proof (HF r Hr) as Fr.
  assert (Len : forall a b, List.length (floats_of a) = List.length (floats_of b)) by reflexivity.
  destruct HB as [HB|[HB HI]].
  - unfold problem_ltb. rewrite (HB p Hp), (HB q Hq), (HB r Hr).
    rewrite floats_ltb_irrefl. split; [reflexivity|]. split; [eauto|]. split.
    + intros A B. apply Ok_inj in A, B. f_equal. eapply floats_ltb_trans; [| | |exact A|exact B]; auto.
    + intros A B A' B'. apply Ok_inj in A, B, A', B'.
      pose proof (floats_ltb_total _ _ Fp Fq (Len p q) A B) as E1.
      pose proof (floats_ltb_total _ _ Fq Fr (Len q r) A' B') as E2.
      rewrite E1, E2, floats_ltb_irrefl. auto.
  - destruct (HB p Hp) as [bp Ep], (HB q Hq) as [bq Eq], (HB r Hr) as [br Er].
    pose proof (HI p q bp bq Hp Hq Ep Eq) as Ipq. pose proof (HI q r bq br Hq Hr Eq Er) as Iqr.
    pose proof (HI p r bp br Hp Hr Ep Er) as Ipr.
    unfold problem_ltb. rewrite Ep, Eq, Er, Nat.eqb_refl, floats_ltb_irrefl.
    split; [reflexivity|]. split; [destruct (Nat.eqb _ _); eauto|].
    rewrite (Nat.eqb_sym (b_id bq) (b_id bp)), (Nat.eqb_sym (b_id br) (b_id bq)), (Nat.eqb_sym (b_id br) (b_id bp)).
    destruct (Nat.eqb_spec (b_id bp) (b_id bq)) as [E1|N1], (Nat.eqb_spec (b_id bq) (b_id br)) as [E2|N2].
    + rewrite <- E2, E1, Nat.eqb_refl. split.
      * intros A B. apply Ok_inj in A, B. f_equal. eapply floats_ltb_trans; [| | |exact A|exact B]; auto.
      * intros A B A' B'. apply Ok_inj in A, B, A', B'.
        pose proof (floats_ltb_total _ _ Fp Fq (Len p q) A B) as F1.
        pose proof (floats_ltb_total _ _ Fq Fr (Len q r) A' B') as F2.
        rewrite F1, F2, floats_ltb_irrefl. auto.
    + rewrite E1. destruct (Nat.eqb_spec (b_id bq) (b_id br)) as [F|_]; [contradiction|].
      apply Ipq in E1. rewrite E1. split; [auto|]. intros _ _ A B. apply Ok_inj in A, B.
      exfalso. apply N2, Iqr. apply string_ltb_total; auto.
    + rewrite <- E2. destruct (Nat.eqb_spec (b_id bp) (b_id bq)) as [F|_]; [contradiction|].
      apply Iqr in E2. rewrite <- E2. split; [auto|]. intros A B _ _. apply Ok_inj in A, B.
      exfalso. apply N1, Ipq. apply string_ltb_total; auto.
    + split.
      * intros A B. apply Ok_inj in A, B. pose proof (string_ltb_trans _ _ _ A B) as Cc.
        destruct (Nat.eqb_spec (b_id bp) (b_id br)) as [F|F]; [|congruence].
        apply Ipr in F. rewrite F, string_ltb_irrefl in Cc. discriminate.
      * intros A B _ _. apply Ok_inj in A, B. exfalso. apply N1, Ipq. apply string_ltb_total; auto.
Qed.

Lemma generic_given_bc newton immersed i a p :
  generic_problem newton immersed i (Some a) = Ok p <->
  exists q b, generic_problem newton immersed i None = Ok q /\ p_body q = Some b
    /\ a_shape a = [List.length (b_centers b) + match b_lid b with Some n => n | None => 0 end]%nat
    /\ p = with_bc q (Some (BC (a_values a))).
Proof.
  unfold generic_problem. destruct (get_water_depth _ _ _ _) as [h|e]; cbn [bind].
  2:{ split; [discriminate|intros (q & b & H & _); discriminate]. }
  destruct (get_frequencies _ _ _ _ _ _ _) as [f|e]; cbn [bind].
  2:{ split; [discriminate|intros (q & b & H & _); discriminate]. }
  unfold check_data.
  destruct (negb (ext_eqb (i_fs i) (Fin 0) || ext_eqb (i_fs i) PInf)); cbn [bind].
  { split; [discriminate|intros (q & b & H & _); discriminate]. }
  destruct (ext_eqb (i_fs i) PInf && negb (ext_eqb h PInf)); cbn [bind].
  { split; [discriminate|intros (q & b & H & _); discriminate]. }
  destruct (ext_ltb h (Fin 0)); cbn [bind].
  { split; [discriminate|intros (q & b & H & _); discriminate]. }
  destruct (is_limit (ffloat (f_omega f)) && negb (Reqb (i_speed i) 0)); cbn [bind].
  { split; [discriminate|intros (q & b & H & _); discriminate]. }
  destruct (check_body immersed (i_fs i) h (i_body i)) as [ob|e]; cbn [bind].
  2:{ split; [discriminate|intros (q & b & H & _); discriminate]. }
  cbn [check_bc bind].
  destruct (encounter newton h (i_g i) f (i_speed i) (i_dir i)) as [ed|e]; cbn [bind].
  - assert (E : forall b, nb_faces_with_lid b = (List.length (b_centers b) + match b_lid b with Some n => n | None => 0 end)%nat).
    { intros b. unfold nb_faces_with_lid, nb_faces. destruct (b_lid b); [reflexivity|]. now rewrite Nat.add_0_r. }
    split.
    + destruct (a_shape a) as [|n [|n' l]] eqn:Es; try discriminate.
      destruct ob as [b|]; [|discriminate]. destruct (Nat.eqb_spec n (nb_faces_with_lid b)) as [->|]; [|discriminate].
      cbn [bind]. intros H. apply Ok_inj in H. subst p.
      eexists. exists b. split; [reflexivity|]. split; [reflexivity|]. split; [now rewrite E|reflexivity].
    + intros (q & b & H & Hb & Hs & ->). apply Ok_inj in H. subst q. cbn [p_body] in Hb. subst ob.
      rewrite Hs, <- E, Nat.eqb_refl. reflexivity.
  - split; [|intros (q & b & H & _); discriminate].
    destruct (a_shape a) as [|n [|n' l]]; try discriminate. destruct ob as [b|]; [|discriminate].
    destruct (Nat.eqb n (nb_faces_with_lid b)); discriminate.
Qed.

Lemma generic_wrong_bc newton immersed i a q b :
  generic_problem newton immersed i None = Ok q -> p_body q = Some b ->
  a_shape a <> [List.length (b_centers b) + match b_lid b with Some n => n | None => 0 end]%nat ->
  generic_problem newton immersed i (Some a) = Err ValueError.
Proof.
  unfold generic_problem. destruct (get_water_depth _ _ _ _) as [h|e]; cbn [bind]; [|discriminate].
  destruct (get_frequencies _ _ _ _ _ _ _) as [f|e]; cbn [bind]; [|discriminate].
  unfold check_data.
  destruct (negb (ext_eqb (i_fs i) (Fin 0) || ext_eqb (i_fs i) PInf)); cbn [bind]; [discriminate|].
  destruct (ext_eqb (i_fs i) PInf && negb (ext_eqb h PInf)); cbn [bind]; [discriminate|].
  destruct (ext_ltb h (Fin 0)); cbn [bind]; [discriminate|].
  destruct (is_limit (ffloat (f_omega f)) && negb (Reqb (i_speed i) 0)); cbn [bind]; [discriminate|].
  destruct (check_body immersed (i_fs i) h (i_body i)) as [ob|e]; cbn [bind]; [|discriminate].
  cbn [check_bc bind].
  destruct (encounter newton h (i_g i) f (i_speed i) (i_dir i)) as [ed|e]; cbn [bind]; [|discriminate].
  intros H Hb Hs. apply Ok_inj in H. subst q. cbn [p_body] in Hb. subst ob.
  destruct (a_shape a) as [|n [|n' l]]; try reflexivity.
  destruct (Nat.eqb_spec n (nb_faces_with_lid b)) as [->|]; [|reflexivity].
  exfalso. apply Hs. f_equal. unfold nb_faces_with_lid, nb_faces. destruct (b_lid b); [reflexivity|]. now rewrite Nat.add_0_r.
Qed.
