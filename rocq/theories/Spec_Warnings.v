(** Vocabulary of the warnings displayed before a resolution. *)
From Coq Require Import Reals List.
From Verif Require Import Model_Base Model_Problem Model_Geometry Model_Mesh Spec_Mesh Model_Lid Spec_Lid Model_Warnings.
Import ListNotations.
Open Scope R_scope.

(** One of the panels of the mesh has this radius. *)
Definition panel_radius (m : mesh) (r : R) : Prop := exists ps x, faces_props m = Ok ps /\ In x ps /\ r = p_radius x.
(** The mesh has panels, and all of them are defined. *)
Definition has_panels (m : mesh) : Prop := exists ps, faces_props m = Ok ps /\ ps <> [].
(** The wavelength of the problem. *)
Definition has_wavelength (p : wproblem) (l : R) : Prop := ffloat (f_wavelength (w_freqs p)) = Fin l.
Definition has_omega (p : wproblem) (w : R) : Prop := ffloat (f_omega (w_freqs p)) = Fin w.
(** The wavelength is lower than eight times the radius of a panel of the hull or of the lid. *)
Definition too_coarse (p : wproblem) : Prop :=
  exists m lid l r, w_body p = Some (m, lid) /\ has_wavelength p l /\ 0 < l /\ l < 8 * r
    /\ (panel_radius m r \/ exists m', lid = Some m' /\ panel_radius m' r).
(** The body has a mesh with panels, and so has its lid if there is one. *)
Definition has_meshes (p : wproblem) : Prop :=
  exists m lid, w_body p = Some (m, lid) /\ has_panels m /\ forall m', lid = Some m' -> has_panels m'.

(** Draft of the parallelepipeds that replace the body: the depth of its lowest point, or of its horizontal lid. *)
Definition draft_is (m : mesh) (lid : option mesh) (d : R) : Prop :=
  match lid with
  | None => 0 < d /\ (exists v, In v (m_vertices m) /\ vz v = - d) /\ forall v, In v (m_vertices m) -> - d <= vz v
  | Some l => 0 <= d /\ lid_at l (- d)
  end.
(** A body under the free surface, with the draft above. *)
Definition floats (p : wproblem) (m : mesh) (lid : option mesh) (d : R) : Prop :=
  w_body p = Some (m, lid) /\ valid m /\ immersed m /\ proper_waterlines m /\ draft_is m lid d /\ 0 < w_g p.
(** The frequency of the problem is higher than the first irregular frequency of a parallelepiped that has the dimensions of one
    of the waterlines of the body. A lid at less than a micrometre of the free surface removes all the irregular frequencies. *)
Definition resonant (p : wproblem) : Prop :=
  exists m lid d l x y w, floats p m lid d /\ (lid = None \/ / 1000000 <= d) /\ is_waterline m l /\ waterline_size m l x y
    /\ has_omega p w /\ parallelepiped_frequency (w_g p) x y d < w.

(** [n] elements of the list have the property, [first] is the first of them. *)
Inductive counted {A} (P : A -> Prop) : list A -> nat -> Prop :=
  | counted_none : counted P [] 0
  | counted_yes x l n : P x -> counted P l n -> counted P (x :: l) (S n)
  | counted_no x l n : ~ P x -> counted P l n -> counted P (x :: l) n.
Definition first_such {A} (P : A -> Prop) (l : list A) (x : A) : Prop :=
  exists before after, l = before ++ x :: after /\ P x /\ forall y, In y before -> ~ P y.
(** The range of the frequencies of type [t] of the problems having the property. *)
Definition range_is (P : wproblem -> Prop) (l : list wproblem) (t : freq_type) (lo hi : R) : Prop :=
  (exists p, In p l /\ P p /\ ffloat (freq_attr t (w_freqs p)) = Fin lo) /\ (exists p, In p l /\ P p /\ ffloat (freq_attr t (w_freqs p)) = Fin hi)
  /\ forall p x, In p l -> P p -> ffloat (freq_attr t (w_freqs p)) = Fin x -> lo <= x <= hi.
(** All the frequencies of this type of the problems having the property are finite. *)
Definition all_finite (P : wproblem -> Prop) (l : list wproblem) (t : freq_type) : Prop :=
  forall p, In p l -> P p -> exists x, ffloat (freq_attr t (w_freqs p)) = Fin x.

(** What a message about the resolution of the meshes says of a list of problems: either the only problem with too large panels, with the
    radius of the largest panel of the mesh of its body, or how many such problems there are and the range of their frequencies. *)
Definition resolution_message (ps : list wproblem) (w : warning) : Prop :=
  match w with
  | ResolutionOne p t f r => counted too_coarse ps 1 /\ first_such too_coarse ps p /\ t = f_type (w_freqs p) /\ f = freq_attr t (w_freqs p)
      /\ exists m lid, w_body p = Some (m, lid) /\ panel_radius m r /\ forall r', panel_radius m r' -> r' <= r
  | ResolutionMany n t lo hi => (2 <= n)%nat /\ counted too_coarse ps n /\ (exists p, first_such too_coarse ps p /\ t = f_type (w_freqs p))
      /\ (all_finite too_coarse ps t -> exists a b, lo = Fin a /\ hi = Fin b /\ range_is too_coarse ps t a b)
  | _ => False
  end.
(** What a message about the irregular frequencies says; a lid is advised if one of the bodies has none. *)
Definition irregular_message (ps : list wproblem) (w : warning) : Prop :=
  match w with
  | IrregularOne p t f a => counted resonant ps 1 /\ first_such resonant ps p /\ t = f_type (w_freqs p) /\ f = freq_attr t (w_freqs p)
      /\ (a = SetLid <-> exists p' m, In p' ps /\ w_body p' = Some (m, None))
  | IrregularMany n t lo hi a => (2 <= n)%nat /\ counted resonant ps n /\ (exists p, first_such resonant ps p /\ t = f_type (w_freqs p))
      /\ (all_finite resonant ps t -> exists x y, lo = Fin x /\ hi = Fin y /\ range_is resonant ps t x y)
      /\ (a = SetLid <-> exists p' m, In p' ps /\ w_body p' = Some (m, None))
  | _ => False
  end.
(** The body of the problem is under the free surface and has a draft. *)
Definition afloat (p : wproblem) : Prop := exists m lid d, floats p m lid d.
