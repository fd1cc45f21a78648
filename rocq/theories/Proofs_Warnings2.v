(** Examples of warnings. *)
From Coq Require Import Reals List Bool Arith Lra Lia.
From Verif Require Import Model_Base Model_Problem Model_Geometry Proofs_Geometry Model_Mesh Spec_Mesh Spec_Tree Spec_Clip Model_Tree Model_Body Spec_Body Proofs_Clip4 Model_Integrals Spec_Integrals Proofs_Integrals Model_Quality Model_Clip
  Spec_Grid Proofs_Grid2 Model_Lid Spec_Lid Proofs_Lid3 Proofs_Lid4 Proofs_Lid7 Model_Warnings Spec_Warnings Proofs_Warnings.
Import ListNotations.
Open Scope R_scope.

(** A rectangle of sides 3 s and 4 s, the radius of which is 5 s / 2. *)
Definition tile (s z : R) : mesh := Mesh [V 0 0 z; V 0 (4 * s) z; V (3 * s) (4 * s) z; V (3 * s) 0 z] [F 0 1 2 3].
Lemma tile_radius s z : 1 <= s -> has_panels (tile s z) /\ (panel_radius (tile s z) (5 / 2 * s)) /\ forall r, panel_radius (tile s z) r -> r = 5 / 2 * s.
Proof.
  intros Hs. set (q := (V 0 0 z, V 0 (4 * s) z, V (3 * s) (4 * s) z, V (3 * s) 0 z)).
  assert (P : polygons_of (tile s z) [q]) by (constructor; [cbn; auto|constructor]).
  assert (E : faces_props (tile s z) = Ok [face_of q]) by exact (leaf_props _ _ P).
  assert (Rd : p_radius (face_of q) = 5 / 2 * s).
  { destruct (rectq_props (12 * (s * s)) (5 * s) (V 0 0 (-1)) q) as (_ & _ & X & _); [| | | |rewrite X; lra].
    - unfold unit_vector, norm, dot; cbn. replace (0 * 0 + 0 * 0 + -1 * -1) with 1 by ring. apply sqrt_1.
    - nra.
    - lra.
    - exists (V 0 0 z), (V (3 * s) 0 0), (V 0 (4 * s) 0). split; [unfold q; apply f_equal2; [apply f_equal2; [apply f_equal2|]|]; apply vec_ext; cbn; ring|].
      split; [unfold dot; cbn; ring|]. split; [apply vec_ext; cbn; ring|unfold dot; cbn; ring]. }
  split; [|split].
  - exists [face_of q]. split; [exact E|discriminate].
  - exists [face_of q], (face_of q). split; [exact E|]. split; [now left|]. now symmetry.
  - intros r (ps & x & E' & Hx & ->). rewrite E in E'. injection E' as <-. destruct Hx as [<-|[]]. exact Rd.
Qed.

(** Waves of length [l] in deep water. *)
Definition deep_waves (t : freq_type) (l : R) : freqs :=
  let k := 2 * PI / l in let w := sqrt (981 / 100 * k) in Freqs (FVal (Fin w)) (FVal (Fin (2 * PI / w))) (FVal (Fin k)) (FVal (Fin l)) t.
(** A body with panels of radius 5/2 and a lid with a panel of radius 25, in waves of length 100. *)
Definition covered : wproblem := WProblem (Some (tile 1 (-1), Some (tile 10 0))) (deep_waves Wavelength 100) (981 / 100).
Lemma covered_meshes : has_meshes covered.
Proof.
  exists (tile 1 (-1)), (Some (tile 10 0)). split; [reflexivity|]. destruct (tile_radius 1 (-1)) as (A & _); [lra|]. split; [exact A|].
  intros m' E. injection E as <-. apply tile_radius. lra.
Qed.
Lemma covered_coarse : too_coarse covered.
Proof.
  exists (tile 1 (-1)), (Some (tile 10 0)), 100, (5 / 2 * 10). split; [reflexivity|]. split; [reflexivity|]. split; [lra|]. split; [lra|]. right. exists (tile 10 0). split; [reflexivity|].
  apply tile_radius. lra.
Qed.
Lemma covered_message : exists r, resolution_warning [covered] = Ok (Some (ResolutionOne covered Wavelength (FVal (Fin 100)) r)) /\ r = 5 / 2.
Proof.
  destruct (risky_resolution_ok covered covered_meshes) as (b & Eb & Hb). assert (b = true) as -> by (apply Hb; exact covered_coarse).
  destruct (tile_radius 1 (-1)) as (A & _ & B); [lra|]. destruct (largest_ok _ A) as (a & Ea & Ia & _).
  exists a. split; [|rewrite (B a Ia); lra].
  unfold resolution_warning. cbn [select]. rewrite Eb. cbn [bind]. change (w_body covered) with (Some (tile 1 (-1), Some (tile 10 0))). cbn [fst]. rewrite Ea. reflexivity.
Qed.

(** Two floating bodies, one with a lid at a depth of 1/2 and one without lid. *)
Definition lidded (w : R) : wproblem := WProblem (Some (twin 5, Some (tile 1 (- / 2)))) (Freqs (FVal (Fin w)) (FVal (Fin (2 * PI / w))) (FVal (Fin (w * w))) (FVal (Fin (2 * PI / (w * w)))) Omega) 1.
Definition open_body (f : freqs) : wproblem := WProblem (Some (twin 5, None)) f 1.
Lemma lidded_floats w : floats (lidded w) (twin 5) (Some (tile 1 (- / 2))) (/ 2).
Proof.
  split; [reflexivity|]. split; [apply twin_valid|]. split; [apply twin_immersed|]. split; [apply twin_proper; lra|]. split; [|cbn; lra].
  cbn [draft_is]. split; [lra|]. split; [discriminate|]. intros v Hv. cbn in Hv. repeat (destruct Hv as [<-|Hv]; [reflexivity|]). destruct Hv.
Qed.
Lemma open_floats f : floats (open_body f) (twin 5) None 4.
Proof.
  split; [reflexivity|]. split; [apply twin_valid|]. split; [apply twin_immersed|]. split; [apply twin_proper; lra|]. split; [|cbn; lra].
  cbn [draft_is]. split; [lra|]. split; [exists (V 4 4 (-4)); split; [cbn; tauto|cbn; ring]|].
  intros v Hv. cbn in Hv. repeat (destruct Hv as [<-|Hv]; [cbn; lra|]). destruct Hv.
Qed.
Definition high : R := 1 + parallelepiped_frequency 1 12 12 (/ 2).
Lemma lidded_resonant : resonant (lidded high).
Proof.
  destruct (twin_first 5) as [A B]; [lra|]. exists (twin 5), (Some (tile 1 (- / 2))), (/ 2), [0; 1; 2]%nat, 12, 12, high. split; [apply lidded_floats|]. split; [right; lra|].
  split; [exact A|]. split; [exact B|]. split; [reflexivity|]. cbn [lidded w_g]. unfold high. lra.
Qed.
Definition endless : freqs := Freqs FInf FZero FInf FZero Omega.
Lemma open_quiet : ~ resonant (open_body endless).
Proof. intros (m & lid & d & l & x & y & w & _ & _ & _ & _ & Ow & _). discriminate. Qed.
Lemma lidded_message argsort : irregular_warning argsort [lidded high; open_body endless] = Ok (Some (IrregularOne (lidded high) Omega (FVal (Fin high)) SetLid)).
Proof.
  destruct (risky_irregular_ok argsort (lidded high)) as (b & Eb & Hb); [eexists; eexists; eexists; apply lidded_floats|].
  destruct (risky_irregular_ok argsort (open_body endless)) as (c & Ec & Hc); [eexists; eexists; eexists; apply open_floats|].
  assert (b = true) as -> by (apply Hb; exact lidded_resonant). assert (c = false) as -> by (destruct c; [exfalso; apply open_quiet; now apply Hc|reflexivity]).
  unfold irregular_warning. cbn [select]. rewrite Eb, Ec. reflexivity.
Qed.
(** More examples, and the displayed radius. *)
Lemma lidded_meshes w : has_meshes (lidded w).
Proof.
  exists (twin 5), (Some (tile 1 (- / 2))). split; [reflexivity|]. split.
  - unfold has_panels, faces_props. cbn [twin m_faces m_vertices mapM face_props face_points]. eexists. split; [cbn; reflexivity|discriminate].
  - intros m' E. injection E as <-. apply tile_radius. lra.
Qed.
Lemma lidded_calm : ~ resonant (lidded 0).
Proof.
  intros (m & lid & d & l & x & y & w & Fl & _ & _ & _ & Ow & Lt). injection Ow as <-. unfold parallelepiped_frequency in Lt. pose proof (sqrt_pos (PI * w_g (lidded 0) * inverse_length x y / tanh (PI * d * inverse_length x y))).
  cbv zeta in Lt. lra.
Qed.
Definition bare : wproblem := WProblem (Some (tile 1 (-1), None)) (deep_waves Wavelength 10) (981 / 100).
Lemma bare_meshes : has_meshes bare.
Proof. exists (tile 1 (-1)), None. split; [reflexivity|]. split; [apply tile_radius; lra|discriminate]. Qed.
Lemma bare_coarse : too_coarse bare.
Proof. exists (tile 1 (-1)), None, 10, (5 / 2 * 1). split; [reflexivity|]. split; [reflexivity|]. split; [lra|]. split; [lra|]. left. apply tile_radius. lra. Qed.
Lemma radius_displayed ps p t f r : (forall q, In q ps -> has_meshes q) -> resolution_warning ps = Ok (Some (ResolutionOne p t f r)) ->
  (forall m l s, w_body p = Some (m, Some l) -> panel_radius l s -> exists s', panel_radius m s' /\ s <= s') -> exists l, has_wavelength p l /\ l / 8 < r.
Proof.
  intros H E N. destruct (resolution_ok ps H) as (o & Eo & S1). rewrite E in Eo. injection Eo as <-. destruct S1 as (_ & (_ & Fs & _ & _ & m & lid & Eb & Rm & Lm)).
  destruct Fs as (be & af & _ & (m1 & lid1 & l & s & E1 & W & P0 & P1 & P2) & _). rewrite Eb in E1. injection E1 as <- <-. exists l. split; [exact W|].
  assert (X : exists s', panel_radius m s' /\ s <= s').
  { destruct P2 as [P2|(m' & -> & P2)]; [exists s; split; [exact P2|lra]|exact (N m m' s Eb P2)]. }
  destruct X as (s' & Rs & Ls). pose proof (Lm s' Rs). lra.
Qed.
