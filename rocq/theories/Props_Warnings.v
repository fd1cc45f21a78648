(** C86: the warnings displayed before a resolution. *)
From Coq Require Import Reals List Lra Lia.
From Verif Require Import Model_Base Model_Problem Model_Geometry Model_Mesh Spec_Mesh Model_Lid Spec_Lid Proofs_Lid7 Model_Warnings Spec_Warnings Proofs_Warnings Proofs_Warnings2.
Import ListNotations.
Open Scope R_scope.

(** No message is displayed if and only if no wavelength is lower than eight times the radius of a panel and no frequency is higher than
    the first irregular frequency of the body. The messages are at most one of each kind, about the resolution first, and tell how many
    problems are concerned, and the range of their frequencies. *)
Theorem warnings_are_right :
  forall argsort ps, (forall p, In p ps -> has_meshes p /\ afloat p) ->
  exists ws, warnings argsort ps = Ok ws
    /\ (ws = [] <-> forall p, In p ps -> ~ too_coarse p /\ ~ resonant p)
    /\ exists a b, ws = a ++ b /\ (forall w, In w a -> resolution_message ps w) /\ (forall w, In w b -> irregular_message ps w)
       /\ (length a <= 1)%nat /\ (length b <= 1)%nat.
Proof. exact warnings_ok. Qed.
Print Assumptions warnings_are_right.
Example warnings_are_right_ex : (forall p, In p [lidded high; lidded 0] -> has_meshes p /\ afloat p) /\ resonant (lidded high) /\ ~ resonant (lidded 0).
Proof.
  split; [|split].
  - intros p [<-|[<-|[]]]; (split; [exact (lidded_meshes _)|eexists; eexists; eexists; apply lidded_floats]).
  - exact lidded_resonant.
  - exact lidded_calm.
Qed.

(** About the resolution of the meshes alone, whatever the place of the bodies: there is a message if and only if a wavelength is lower than
    eight times the radius of a panel of a hull or of a lid. *)
Theorem resolution_warning_is_right :
  forall ps, (forall p, In p ps -> has_meshes p) ->
  exists o, resolution_warning ps = Ok o
    /\ match o with
       | None => forall p, In p ps -> ~ too_coarse p
       | Some w => (exists p, In p ps /\ too_coarse p) /\ resolution_message ps w
       end.
Proof. exact resolution_ok. Qed.
Print Assumptions resolution_warning_is_right.
Example resolution_warning_is_right_ex : (forall p, In p [covered] -> has_meshes p) /\ too_coarse covered.
Proof. split; [intros p [<-|[]]; exact covered_meshes|exact covered_coarse]. Qed.

(** A problem without body, or with a mesh or a lid without panels, makes the check fail, unless its wavelength is zero. *)
Theorem resolution_warning_errors :
  forall l1 p l2, (forall q, In q l1 -> has_meshes q) -> ext_ltb (Fin 0) (ffloat (f_wavelength (w_freqs p))) = true ->
  (w_body p = None -> resolution_warning (l1 ++ p :: l2) = Err AttributeError)
  /\ (forall m lid, w_body p = Some (m, lid) -> m_faces m = [] \/ (has_panels m /\ exists l, lid = Some l /\ m_faces l = []) ->
      resolution_warning (l1 ++ p :: l2) = Err ValueError).
Proof. exact resolution_errors. Qed.
Print Assumptions resolution_warning_errors.
Example resolution_warning_errors_ex : (forall q, In q [covered] -> has_meshes q) /\ ext_ltb (Fin 0) (ffloat (f_wavelength (w_freqs covered))) = true.
Proof. split; [intros p [<-|[]]; exact covered_meshes|]. cbn [covered w_freqs deep_waves f_wavelength ffloat ext_ltb]. apply Proofs_Geometry.Rltb_true. lra. Qed.

(** The message for one problem says that the displayed radius is larger than one eighth of the wavelength. It is false if the large panels
    are those of the lid. *)
Theorem displayed_radius_refuted :
  exists p t f r l, has_meshes p /\ has_wavelength p l /\ resolution_warning [p] = Ok (Some (ResolutionOne p t f r)) /\ r < l / 8.
Proof.
  destruct covered_message as (r & E & Er). exists covered, Wavelength, (FVal (Fin 100)), r, 100. split; [exact covered_meshes|]. split; [reflexivity|]. split; [exact E|lra].
Qed.
Print Assumptions displayed_radius_refuted.

(** It is right if the lid has no panel larger than those of the hull. *)
Theorem displayed_radius_partial :
  forall ps p t f r, (forall q, In q ps -> has_meshes q) -> resolution_warning ps = Ok (Some (ResolutionOne p t f r)) ->
  (forall m l s, w_body p = Some (m, Some l) -> panel_radius l s -> exists s', panel_radius m s' /\ s <= s') ->
  exists l, has_wavelength p l /\ l / 8 < r.
Proof. exact radius_displayed. Qed.
Print Assumptions displayed_radius_partial.
Example displayed_radius_ex : has_meshes bare /\ too_coarse bare /\ forall m l s, w_body bare = Some (m, Some l) -> panel_radius l s -> exists s', panel_radius m s' /\ s <= s'.
Proof. split; [exact bare_meshes|]. split; [exact bare_coarse|discriminate]. Qed.

(** The only body that may have irregular frequencies has a lid, and the message recommends setting a lid, because of another body. *)
Theorem lid_advice_refuted :
  exists p p' m lid, w_body p = Some (m, Some lid) /\ afloat p /\ afloat p' /\ ~ resonant p'
    /\ forall argsort, exists t f, irregular_warning argsort [p; p'] = Ok (Some (IrregularOne p t f SetLid)).
Proof.
  exists (lidded high), (open_body endless), (twin 5), (tile 1 (- / 2)).
  split; [reflexivity|]. split; [eexists; eexists; eexists; apply lidded_floats|]. split; [eexists; eexists; eexists; apply open_floats|]. split; [exact open_quiet|].
  intros argsort. eexists. eexists. apply lidded_message.
Qed.
Print Assumptions lid_advice_refuted.
