(** Vocabulary of the properties of the inertia and hydrostatic stiffness of rigid bodies. *)
From Coq Require Import Reals String List.
From Coquelicot Require Import Coquelicot.
From Verif Require Import Model_Base Model_Geometry Model_Mesh Model_Body Spec_Body.
Import ListNotations.
Open Scope R_scope.

(** The rigid motions, with their usual names: translations along an axis and rotations around an axis. *)
Inductive motion := Along (d : vec) | Around (d : vec).
Definition rigid_motions : list (string * motion) :=
  [("Surge"%string, Along (V 1 0 0)); ("Sway"%string, Along (V 0 1 0)); ("Heave"%string, Along (V 0 0 1));
   ("Roll"%string, Around (V 1 0 0)); ("Pitch"%string, Around (V 0 1 0)); ("Yaw"%string, Around (V 0 0 1))].
(** The velocity of the point [p] (relative to the centre of rotation). *)
Definition velocity (m : motion) (p : vec) : vec :=
  match m with Along d => d | Around d => cross d p end.
(** The second-order displacement of the point [p] by two rotations, the second one first. *)
Definition double_turn (m m' : motion) (p : vec) : vec :=
  match m, m' with Around d, Around d' => cross d (cross d' p) | _, _ => V 0 0 0 end.
Definition rotates (m : motion) : Prop := match m with Along _ => False | Around _ => True end.

(** The divergence of the field [W] at [p] is [d]. *)
Definition divergence (W : vec -> vec) (p : vec) (d : R) : Prop :=
  exists dx dy dz, is_derive (fun x => vx (W (V x (vy p) (vz p)))) (vx p) dx
    /\ is_derive (fun y => vy (W (V (vx p) y (vz p)))) (vy p) dy
    /\ is_derive (fun z => vz (W (V (vx p) (vy p) z))) (vz p) dz
    /\ d = dx + dy + dz.
(** The flux through the faces of the field [W] (of the position relative to [rc]), with one point for each face. *)
Definition flux (ps : list fprops) (rc : vec) (W : vec -> vec) : R :=
  Rsum (map (fun p => p_area p * dot (p_normal p) (W (vsub (p_center p) rc))) ps).
(** The density of the body: its mass divided by its volume or, without mass, the density of water. *)
Definition density_of (b : fbody) (rho vol : R) : R := match fb_mass b with Some m => m / vol | None => rho end.

(** The matrix [m'] is the restriction of the matrix [m] to the labels [names]. *)
Definition restricts (names : list string) (m m' : lmatrix) : Prop :=
  lm_labels m' = names
  /\ forall k l i j, nth_error names k = Some i -> nth_error names l = Some j ->
     exists k0 l0, nth_error (lm_labels m) k0 = Some i /\ nth_error (lm_labels m) l0 = Some j
       /\ coefficient m' k l = coefficient m k0 l0 /\ coefficient m k0 l0 <> None.
Definition restricts_option (names : list string) (m m' : option lmatrix) : Prop :=
  match m, m' with None, None => True | Some x, Some y => restricts names x y | _, _ => False end.
(** A square matrix. *)
Definition square (m : lmatrix) : Prop :=
  length (lm_rows m) = length (lm_labels m) /\ forall r, In r (lm_rows m) -> length r = length (lm_labels m).
