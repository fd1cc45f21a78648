(** The warnings displayed before a resolution. *)
From Coq Require Import Reals List Bool Arith Lra Lia.
From Verif Require Import Model_Base Model_Problem Model_Geometry Proofs_Geometry Model_Mesh Spec_Mesh Model_Quality Model_Clip Model_Lid Spec_Lid Proofs_Lid3 Proofs_Lid4 Model_Warnings Spec_Warnings.
Import ListNotations.
Open Scope R_scope.

Ltac rb a b L := let B := fresh in destruct (Rltb a b) eqn:B; [assert (L : a < b) by (now apply Rltb_true)|assert (L : ~ a < b) by (intros ?X; apply Rltb_true in X; congruence)].
Section Select.
  Context {A : Type} (f : A -> result bool) (P : A -> Prop).
  Lemma select_ok l : (forall x, In x l -> exists b, f x = Ok b /\ (b = true <-> P x)) ->
    exists r, select f l = Ok r /\ (forall x, In x r <-> In x l /\ P x) /\ counted P l (length r) /\ (forall x r', r = x :: r' -> first_such P l x).
  Proof.
    induction l as [|x l IH]; intros H.
    - exists []. split; [reflexivity|]. split; [cbn; tauto|]. split; [constructor|discriminate].
    - destruct (H x (or_introl eq_refl)) as (b & Eb & Hb). destruct IH as (r & Er & I1 & C1 & F1); [intros y Hy; apply H; now right|].
      cbn [select]. rewrite Eb. cbn [bind]. rewrite Er. cbn [bind]. destruct b.
      + exists (x :: r). assert (Px : P x) by now apply Hb. split; [reflexivity|]. split; [|split].
        * intros y. cbn [In]. rewrite I1. split; [intros [->|[? ?]]; tauto|tauto].
        * now constructor.
        * intros y r' E. injection E as -> ->. exists [], l. split; [reflexivity|]. split; [exact Px|]. intros y' [].
      + assert (Nx : ~ P x) by (intros Px; apply Hb in Px; discriminate). exists r. split; [reflexivity|]. split; [|split].
        * intros y. cbn [In]. rewrite I1. split; [tauto|]. intros [[->|Hy] Py]; [contradiction|tauto].
        * now constructor.
        * intros y r' E. destruct (F1 y r' E) as (be & af & -> & Py & Nb). exists (x :: be), af. split; [reflexivity|]. split; [exact Py|]. intros y' [<-|Hy]; [exact Nx|now apply Nb].
  Qed.
  Lemma select_err l1 x l2 e : (forall y, In y l1 -> exists b, f y = Ok b) -> f x = Err e -> select f (l1 ++ x :: l2) = Err e.
  Proof.
    induction l1 as [|y l1 IH]; intros H E; cbn [select app].
    - now rewrite E.
    - destruct (H y (or_introl eq_refl)) as (b & ->). cbn [bind]. rewrite IH; [reflexivity| |exact E]. intros z Hz. apply H. now right.
  Qed.
End Select.
Lemma counted_ext {A} (P Q : A -> Prop) l n : (forall x, In x l -> (P x <-> Q x)) -> counted P l n -> counted Q l n.
Proof.
  intros H C. induction C as [|x l n Px C IH|x l n Px C IH]; [constructor| |]; (assert (C' : counted Q l n) by (apply IH; intros y Hy; apply H; now right)).
  - apply counted_yes; [apply H; [now left|exact Px]|exact C'].
  - apply counted_no; [|exact C']. intros Qx. apply Px. apply H; [now left|exact Qx].
Qed.

(** ** The range of the frequencies *)
Definition values (xs : list R) : list ext := map Fin xs.
Lemma lowest_fold xs x : exists y, fold_left np_lowest (values xs) (Fin x) = Fin y /\ In y (x :: xs) /\ forall z, In z (x :: xs) -> y <= z.
Proof.
  revert x. induction xs as [|a xs IH]; intros x; cbn [fold_left values map].
  - exists x. split; [reflexivity|]. split; [now left|]. intros z [<-|[]]. lra.
  - assert (D : exists m, np_lowest (Fin x) (Fin a) = Fin m /\ m <= x /\ m <= a /\ (m = x \/ m = a)).
    { unfold np_lowest. cbn [ext_ltb]. rb a x L; [exists a|exists x]; (split; [reflexivity|]); (split; [lra|]); (split; [lra|]); auto. }
    destruct D as (m & -> & L1 & L2 & D). destruct (IH m) as (y & Ey & Iy & Ly). exists y. split; [exact Ey|]. split.
    + destruct Iy as [<-|Iy]; [destruct D as [->| ->]; cbn; tauto|cbn; tauto].
    + intros z [<-|[<-|Hz]]; [pose proof (Ly m (or_introl eq_refl)); lra|pose proof (Ly m (or_introl eq_refl)); lra|apply Ly; now right].
Qed.
Lemma highest_fold xs x : exists y, fold_left np_highest (values xs) (Fin x) = Fin y /\ In y (x :: xs) /\ forall z, In z (x :: xs) -> z <= y.
Proof.
  revert x. induction xs as [|a xs IH]; intros x; cbn [fold_left values map].
  - exists x. split; [reflexivity|]. split; [now left|]. intros z [<-|[]]. lra.
  - assert (D : exists m, np_highest (Fin x) (Fin a) = Fin m /\ x <= m /\ a <= m /\ (m = x \/ m = a)).
    { unfold np_highest. cbn [ext_ltb]. rb x a L; [exists a|exists x]; (split; [reflexivity|]); (split; [lra|]); (split; [lra|]); auto. }
    destruct D as (m & -> & L1 & L2 & D). destruct (IH m) as (y & Ey & Iy & Ly). exists y. split; [exact Ey|]. split.
    + destruct Iy as [<-|Iy]; [destruct D as [->| ->]; cbn; tauto|cbn; tauto].
    + intros z [<-|[<-|Hz]]; [pose proof (Ly m (or_introl eq_refl)); lra|pose proof (Ly m (or_introl eq_refl)); lra|apply Ly; now right].
Qed.
Lemma range_total t (l : list wproblem) : l <> [] -> exists r, displayed_range t l = Ok r.
Proof. destruct l as [|p l]; [contradiction|]. intros _. eexists. reflexivity. Qed.
Lemma range_ok (P : wproblem -> Prop) l risky t : risky <> [] -> (forall p, In p risky <-> In p l /\ P p) -> all_finite P l t ->
  exists lo hi, displayed_range t risky = Ok (Fin lo, Fin hi) /\ range_is P l t lo hi.
Proof.
  intros Ne I Fi. set (v := fun p => ffloat (freq_attr t (w_freqs p))).
  assert (X : exists xs, map v risky = values xs).
  { assert (G : forall p, In p risky -> exists x, v p = Fin x) by (intros p Hp; apply I in Hp; destruct Hp; now apply Fi).
    clear - G. induction risky as [|p r IH]; [exists []; reflexivity|]. destruct (G p (or_introl eq_refl)) as (x & Ex). destruct IH as (xs & E); [intros q Hq; apply G; now right|].
    exists (x :: xs). cbn. now rewrite Ex, E. }
  destruct X as (xs & X). assert (In' : forall x, In x xs <-> exists p, In p risky /\ v p = Fin x).
  { intros x. split.
    - intros Hx. assert (H : In (Fin x) (map v risky)) by (rewrite X; now apply in_map). apply in_map_iff in H. destruct H as (p & E & Hp). eauto.
    - intros (p & Hp & E). assert (H : In (Fin x) (values xs)) by (rewrite <- X, <- E; now apply in_map). apply in_map_iff in H. destruct H as (y & Ey & Hy). injection Ey as ->. exact Hy. }
  unfold displayed_range. fold v. rewrite X. destruct xs as [|x xs]; [destruct risky; [contradiction|discriminate]|]. cbn [values map range_of].
  destruct (lowest_fold xs x) as (lo & El & Il & Ll). destruct (highest_fold xs x) as (hi & Eh & Ih & Lh). unfold values in *. rewrite El, Eh.
  exists lo, hi. split; [reflexivity|]. split; [|split].
  - apply In' in Il. destruct Il as (p & Hp & E). apply I in Hp. exists p. destruct Hp. auto.
  - apply In' in Ih. destruct Ih as (p & Hp & E). apply I in Hp. exists p. destruct Hp. auto.
  - intros p y Hp Py E. assert (In y (x :: xs)) by (apply In'; exists p; split; [now apply I|exact E]). split; [now apply Ll|now apply Lh].
Qed.

(** ** The resolution of the mesh *)
Lemma largest_ok m : has_panels m -> exists a, largest_radius m = Ok a /\ panel_radius m a /\ forall r, panel_radius m r -> r <= a.
Proof.
  intros (ps & E & Ne). unfold largest_radius. rewrite E. cbn [bind]. destruct (array_max_spec (map p_radius ps)) as (a & Ea & Ia & La); [intros X; apply map_eq_nil in X; contradiction|].
  exists a. split; [exact Ea|]. split.
  - apply in_map_iff in Ia. destruct Ia as (x & Ex & Hx). exists ps, x. auto.
  - intros r (ps' & x & E' & Hx & ->). rewrite E in E'. injection E' as <-. apply La. now apply in_map.
Qed.
Lemma minimal_ok m lid : has_panels m -> (forall m', lid = Some m' -> has_panels m') ->
  exists a, minimal_computable_wavelength (m, lid) = Ok a /\ forall l, l < a <-> exists r, l < 8 * r /\ (panel_radius m r \/ exists m', lid = Some m' /\ panel_radius m' r).
Proof.
  intros Hm Hl. destruct (largest_ok m Hm) as (a & Ea & Ia & La). destruct lid as [m'|]; cbn [minimal_computable_wavelength fst snd].
  - destruct (largest_ok m' (Hl m' eq_refl)) as (b & Eb & Ib & Lb). unfold minimal_computable_wavelength; cbn [fst snd]. rewrite Ea, Eb. cbn [bind]. eexists. split; [reflexivity|]. intros l. split.
    + intros H. unfold Rmax in H. destruct (Rle_dec (8 * a) (8 * b)); [exists b|exists a]; (split; [exact H|]); [right; eauto|now left].
    + intros (r & H & [R1|(x & E & R1)]); [pose proof (La r R1); pose proof (Rmax_l (8 * a) (8 * b)); lra|]. injection E as <-. pose proof (Lb r R1). pose proof (Rmax_r (8 * a) (8 * b)). lra.
  - unfold minimal_computable_wavelength; cbn [fst snd]. rewrite Ea. cbn [bind]. eexists. split; [reflexivity|]. intros l. split.
    + intros H. exists a. auto.
    + intros (r & H & [R1|(x & E & _)]); [pose proof (La r R1); lra|discriminate].
Qed.
Lemma risky_resolution_ok p : has_meshes p -> exists b, risky_resolution p = Ok b /\ (b = true <-> too_coarse p).
Proof.
  intros (m & lid & Eb & Hm & Hl). destruct (minimal_ok m lid Hm Hl) as (a & Ea & Ha). unfold risky_resolution. rewrite Eb, Ea. cbn [bind].
  assert (TC : forall l, ffloat (f_wavelength (w_freqs p)) = Fin l -> (too_coarse p <-> 0 < l /\ l < a)).
  { intros l El. rewrite Ha. split.
    - intros (m1 & lid1 & l1 & r & E1 & W & P1 & P2 & P3). rewrite Eb in E1. injection E1 as <- <-. unfold has_wavelength in W. rewrite El in W. injection W as <-. split; [exact P1|]. eauto.
    - intros (P1 & r & P2 & P3). exists m, lid, l, r. auto. }
  assert (NT : (forall l, ffloat (f_wavelength (w_freqs p)) <> Fin l) -> ~ too_coarse p) by (intros N (m1 & lid1 & l1 & r & _ & W & _); exact (N l1 W)).
  destruct (ffloat (f_wavelength (w_freqs p))) as [l| | |]; cbn [ext_ltb].
  - specialize (TC l eq_refl). rb 0 l P.
    + eexists. split; [reflexivity|]. rewrite TC. rb l a Q0; split; intros; try discriminate; try reflexivity; try tauto; lra.
    + eexists. split; [reflexivity|]. rewrite TC. split; [discriminate|]. lra.
  - eexists. split; [reflexivity|]. split; [discriminate|]. intros H. exfalso. revert H. apply NT. discriminate.
  - eexists. split; [reflexivity|]. split; [discriminate|]. intros H. exfalso. revert H. apply NT. discriminate.
  - eexists. split; [reflexivity|]. split; [discriminate|]. intros H. exfalso. revert H. apply NT. discriminate.
Qed.

Lemma counted_zero {A} (P : A -> Prop) l : counted P l 0 -> forall x, In x l -> ~ P x.
Proof. remember 0%nat as n. intros C. induction C as [|x l n Px C IH|x l n Px C IH]; intros y Hy; [destruct Hy|discriminate|]. destruct Hy as [<-|Hy]; auto. Qed.
Lemma resolution_ok ps : (forall p, In p ps -> has_meshes p) -> exists o, resolution_warning ps = Ok o
  /\ match o with None => forall p, In p ps -> ~ too_coarse p | Some w => (exists p, In p ps /\ too_coarse p) /\ resolution_message ps w end.
Proof.
  intros H. destruct (select_ok risky_resolution too_coarse ps) as (risky & E & I & C & F1); [intros p Hp; apply risky_resolution_ok; auto|].
  unfold resolution_warning. rewrite E. cbn [bind]. destruct risky as [|p [|q r]].
  - exists None. split; [reflexivity|]. exact (counted_zero _ _ C).
  - assert (Hp : In p ps /\ too_coarse p) by (apply I; now left). destruct (H p (proj1 Hp)) as (m & lid & Eb & Hm & _). rewrite Eb. cbn [fst].
    destruct (largest_ok m Hm) as (a & Ea & Ia & La). rewrite Ea. cbn [bind]. eexists. split; [reflexivity|]. split; [eauto|]. cbn [resolution_message].
    split; [exact C|]. split; [eapply F1; reflexivity|]. split; [reflexivity|]. split; [reflexivity|]. eauto.
  - assert (Hp : In p ps /\ too_coarse p) by (apply I; now left). set (t := f_type (w_freqs p)).
    destruct (range_total t (p :: q :: r)) as ([lo hi] & Er); [discriminate|]. cbn zeta. rewrite Er. cbn [bind fst snd]. eexists. split; [reflexivity|]. split; [eauto|]. cbn [resolution_message].
    split; [cbn; lia|]. split; [exact C|]. split; [exists p; split; [eapply F1; reflexivity|reflexivity]|].
    intros Fi. destruct (range_ok too_coarse ps (p :: q :: r) t) as (a & b & Er' & Rg); [discriminate|exact I|exact Fi|]. rewrite Er in Er'. injection Er' as -> ->. eauto.
Qed.

(** ** The irregular frequencies *)
Section Irregular.
  Variable argsort : list R -> list nat.
  Lemma draft_unique m lid d d' : draft_is m lid d -> draft_is m lid d' -> d = d'.
  Proof.
    destruct lid as [l|]; cbn [draft_is].
    - intros (_ & Ne & H) (_ & _ & H'). destruct (m_vertices l) as [|v vs]; [contradiction|]. pose proof (H v (or_introl eq_refl)). pose proof (H' v (or_introl eq_refl)). lra.
    - intros (_ & (v & Hv & Ev) & L) (_ & (v' & Hv' & Ev') & L'). pose proof (L v' Hv'). pose proof (L' v Hv). lra.
  Qed.
  Lemma estimate_spec p m lid d : floats p m lid d -> exists e, first_irregular_frequency_estimate argsort (w_g p) m lid = Ok e /\ (e = PInf \/ exists v, e = Fin v)
    /\ forall w, ext_ltb e (Fin w) = true <-> (lid = None \/ / 1000000 <= d) /\ exists l x y, is_waterline m l /\ waterline_size m l x y /\ parallelepiped_frequency (w_g p) x y d < w.
  Proof.
    intros (Eb & Vm & Im & Pm & Dr & Hg). destruct lid as [l|]; cbn [draft_is] in Dr.
    - destruct Dr as (D0 & L). destruct (estimate_ok argsort m Vm Im Pm (w_g p) Hg l (- d) L) as (e & Ee & E1 & E2); [lra|]. exists e. split; [exact Ee|].
      rewrite Ropp_involutive in *. destruct (Rlt_le_dec d (/ 1000000)) as [S1|S1].
      + rewrite (E1 S1). split; [now left|]. intros w. cbn [ext_ltb]. split; [discriminate|]. intros ([X|X] & _); [discriminate|lra].
      + destruct (E2 S1) as (A & B). split; [destruct A as [->|(k & x & y & _ & _ & ->)]; [now left|right; eauto]|]. intros w. split.
        * intros Lt. split; [now right|]. destruct A as [->|(k & x & y & W & Sz & ->)]; [discriminate|]. exists k, x, y. split; [exact W|]. split; [exact Sz|]. cbn [ext_ltb] in Lt. now apply Rltb_true.
        * intros (_ & k & x & y & W & Sz & Lt). destruct (B k x y W Sz) as (v & -> & Lv). cbn [ext_ltb]. apply Rltb_true. lra.
    - destruct Dr as (D0 & Lo & Lb). destruct (no_lid_ok argsort m Vm Im Pm (w_g p) Hg d D0 Lo Lb) as (e & Ee & A & B). exists e. split; [exact Ee|].
      split; [destruct A as [->|(k & x & y & _ & _ & ->)]; [now left|right; eauto]|]. intros w. split.
      + intros Lt. split; [now left|]. destruct A as [->|(k & x & y & W & Sz & ->)]; [discriminate|]. exists k, x, y. split; [exact W|]. split; [exact Sz|]. cbn [ext_ltb] in Lt. now apply Rltb_true.
      + intros (_ & k & x & y & W & Sz & Lt). destruct (B k x y W Sz) as (v & -> & Lv). cbn [ext_ltb]. apply Rltb_true. lra.
  Qed.
  Lemma risky_irregular_ok p : afloat p -> exists b, risky_irregular argsort p = Ok b /\ (b = true <-> resonant p).
  Proof.
    intros (m & lid & d & Fl). destruct (estimate_spec p m lid d Fl) as (e & Ee & Ke & He). assert (Eb := proj1 Fl). unfold risky_irregular. rewrite Eb. cbn [fst snd]. rewrite Ee. cbn [bind].
    eexists. split; [reflexivity|].
    assert (Rs : resonant p <-> exists w, ffloat (f_omega (w_freqs p)) = Fin w /\ ext_ltb e (Fin w) = true).
    { split.
      - intros (m1 & lid1 & d1 & l & x & y & w & Fl1 & C & W & Sz & Ow & Lt). assert (E1 := proj1 Fl1). rewrite Eb in E1. injection E1 as <- <-.
        assert (d1 = d) as -> by (apply (draft_unique m lid); [apply Fl1|apply Fl]). exists w. split; [exact Ow|]. apply He. split; [exact C|]. eauto 6.
      - intros (w & Ow & Lt). apply He in Lt. destruct Lt as (C & l & x & y & W & Sz & Lt). exists m, lid, d, l, x, y, w. split; [exact Fl|]. split; [exact C|]. split; [exact W|]. split; [exact Sz|]. split; [exact Ow|exact Lt]. }
    rewrite Rs, andb_true_iff. split.
    - intros (L1 & L2). destruct (ffloat (f_omega (w_freqs p))) as [w| | |]; try discriminate; [eauto|]. destruct Ke as [->|(v & ->)]; discriminate.
    - intros (w & -> & L). split; [exact L|reflexivity].
  Qed.
  Lemma advice_ok ps : (if existsb without_lid ps then SetLid else RaiseLid) = SetLid <-> exists p' m, In p' ps /\ w_body p' = Some (m, None).
  Proof.
    destruct (existsb without_lid ps) eqn:E.
    - split; [intros _|reflexivity]. apply existsb_exists in E. destruct E as (p & Hp & L). unfold without_lid in L. destruct (w_body p) as [[m [l|]]|] eqn:B; try discriminate. eauto.
    - split; [discriminate|]. intros (p & m & Hp & B). assert (X : existsb without_lid ps = true) by (apply existsb_exists; exists p; split; [exact Hp|]; unfold without_lid; now rewrite B). congruence.
  Qed.
  Lemma irregular_ok ps : (forall p, In p ps -> afloat p) -> exists o, irregular_warning argsort ps = Ok o
    /\ match o with None => forall p, In p ps -> ~ resonant p | Some w => (exists p, In p ps /\ resonant p) /\ irregular_message ps w end.
  Proof.
    intros H. destruct (select_ok (risky_irregular argsort) resonant ps) as (risky & E & I & C & F1); [intros p Hp; apply risky_irregular_ok; auto|].
    unfold irregular_warning. rewrite E. cbn [bind]. pose proof (advice_ok ps) as Ad. destruct risky as [|p [|q r]].
    - exists None. split; [reflexivity|]. exact (counted_zero _ _ C).
    - assert (Hp : In p ps /\ resonant p) by (apply I; now left). eexists. split; [reflexivity|]. split; [eauto|]. cbn [irregular_message].
      split; [exact C|]. split; [eapply F1; reflexivity|]. split; [reflexivity|]. split; [reflexivity|exact Ad].
    - assert (Hp : In p ps /\ resonant p) by (apply I; now left). set (t := f_type (w_freqs p)).
      destruct (range_total t (p :: q :: r)) as ([lo hi] & Er); [discriminate|]. cbn zeta. rewrite Er. cbn [bind fst snd]. eexists. split; [reflexivity|]. split; [eauto|]. cbn [irregular_message].
      split; [cbn; lia|]. split; [exact C|]. split; [exists p; split; [eapply F1; reflexivity|reflexivity]|]. split; [|exact Ad].
      intros Fi. destruct (range_ok resonant ps (p :: q :: r) t) as (a & b & Er' & Rg); [discriminate|exact I|exact Fi|]. rewrite Er in Er'. injection Er' as -> ->. eauto.
  Qed.
End Irregular.

(** ** Both checks, and the errors *)
Lemma warnings_ok argsort ps : (forall p, In p ps -> has_meshes p /\ afloat p) -> exists ws, warnings argsort ps = Ok ws
  /\ (ws = [] <-> forall p, In p ps -> ~ too_coarse p /\ ~ resonant p)
  /\ exists a b, ws = a ++ b /\ (forall w, In w a -> resolution_message ps w) /\ (forall w, In w b -> irregular_message ps w)
     /\ (length a <= 1)%nat /\ (length b <= 1)%nat.
Proof.
  intros H. destruct (resolution_ok ps) as (o & E & S1); [intros p Hp; now apply H|]. destruct (irregular_ok argsort ps) as (o' & E' & S2); [intros p Hp; now apply H|].
  unfold warnings. rewrite E, E'. cbn [bind]. eexists. split; [reflexivity|]. split.
  - destruct o as [w|], o' as [w'|]; cbn [listed app]; (split; [try discriminate|]); try reflexivity.
    + intros N. destruct S1 as ((p & Hp & T) & _). exfalso. exact (proj1 (N p Hp) T).
    + intros N. destruct S1 as ((p & Hp & T) & _). exfalso. exact (proj1 (N p Hp) T).
    + intros N. destruct S2 as ((p & Hp & T) & _). exfalso. exact (proj2 (N p Hp) T).
    + intros _ p Hp. auto.
  - exists (listed o), (listed o'). split; [reflexivity|]. split; [|split; [|split]].
    + intros w. destruct o as [x|]; cbn; [intros [<-|[]]; apply S1|intros []].
    + intros w. destruct o' as [x|]; cbn; [intros [<-|[]]; apply S2|intros []].
    + destruct o; cbn; lia.
    + destruct o'; cbn; lia.
Qed.
Lemma resolution_errors l1 p l2 : (forall q, In q l1 -> has_meshes q) -> ext_ltb (Fin 0) (ffloat (f_wavelength (w_freqs p))) = true ->
  (w_body p = None -> resolution_warning (l1 ++ p :: l2) = Err AttributeError)
  /\ (forall m lid, w_body p = Some (m, lid) -> m_faces m = [] \/ (has_panels m /\ exists l, lid = Some l /\ m_faces l = []) -> resolution_warning (l1 ++ p :: l2) = Err ValueError).
Proof.
  intros H W. assert (G : forall e, risky_resolution p = Err e -> resolution_warning (l1 ++ p :: l2) = Err e).
  { intros e E. unfold resolution_warning. rewrite (select_err risky_resolution l1 p l2 e); [reflexivity| |exact E]. intros q Hq. destruct (risky_resolution_ok q (H q Hq)) as (b & Eb & _). eauto. }
  assert (Em : forall m, m_faces m = [] -> largest_radius m = Err ValueError) by (intros m E; unfold largest_radius, faces_props; rewrite E; reflexivity).
  split.
  - intros E. apply G. unfold risky_resolution. now rewrite W, E.
  - intros m lid E D. apply G. unfold risky_resolution. rewrite W, E. unfold minimal_computable_wavelength. cbn [fst snd]. destruct D as [D|(Hm & l & -> & D)].
    + rewrite (Em m D). destruct lid; reflexivity.
    + destruct (largest_ok m Hm) as (a & -> & _). cbn [bind]. now rewrite (Em l D).
Qed.
Lemma irregular_errors argsort l1 p l2 : (forall q, In q l1 -> afloat q) -> w_body p = None -> irregular_warning argsort (l1 ++ p :: l2) = Err AttributeError.
Proof.
  intros H E. unfold irregular_warning. rewrite (select_err _ l1 p l2 AttributeError); [reflexivity| |unfold risky_irregular; now rewrite E].
  intros q Hq. destruct (risky_irregular_ok argsort q (H q Hq)) as (b & Eb & _). eauto.
Qed.
