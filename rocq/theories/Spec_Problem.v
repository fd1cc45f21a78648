(** What is expected of the frequencies of a problem, in textbook terms. *)
From Coq Require Import Reals.
From Verif Require Import Model_Base Model_Problem.
Open Scope R_scope.

(** Dispersion relation of linear waves, in depth [h] (infinite: [PInf]). *)
Definition dispersion (h : ext) (g w k : R) : Prop :=
  match h with
  | Fin d => w * w = g * k * tanh (k * d)
  | PInf => w * w = g * k
  | _ => False
  end.

(** Pulsation, period, wavenumber and wavelength of one and the same wave. *)
Record same_wave (h : ext) (g w T k L : R) : Prop := {
  sw_pos : 0 < w /\ 0 < T /\ 0 < k /\ 0 < L;
  sw_period : w * T = 2 * PI;
  sw_length : k * L = 2 * PI;
  sw_dispersion : dispersion h g w k }.

(** The component of the given kind. *)
Definition component (t : freq_type) (w T k L : R) : R :=
  match t with Omega => w | Period => T | Wavenumber => k | Wavelength => L end.

Definition pos_depth (h : ext) : Prop := h = PInf \/ exists d, h = Fin d /\ 0 < d.

(** The root finder is exact: it returns a positive root when there is one. *)
Definition exact_root_finder (newton : ext -> ext -> result ext) : Prop :=
  forall d y, 0 < d -> 0 < y ->
    exists k, newton (Fin d) (Fin y) = Ok (Fin k) /\ 0 < k /\ k * tanh (k * d) = y.

(** One argument given among the four. *)
Definition only {A} (t t' : freq_type) (x : A) : option A :=
  match t, t' with
  | Omega, Omega | Period, Period | Wavenumber, Wavenumber | Wavelength, Wavelength => Some x
  | _, _ => None
  end.

(** The water depth meant by the arguments. *)
Inductive depth_meant (i : args) : ext -> Prop :=
| DM_default : i_water_depth i = None -> i_sea_bottom i = None -> depth_meant i PInf
| DM_depth h : i_water_depth i = Some h -> i_sea_bottom i = None ->
    ext_leb h (Fin 0) = false -> depth_meant i h
| DM_bottom b : i_water_depth i = None -> i_sea_bottom i = Some b ->
    depth_meant i (ext_sub (i_fs i) b).

(** The frequency meant by the arguments: at most one is given, and it is not
    negative. *)
Inductive freq_meant (i : args) : freq_type -> ext -> Prop :=
| FM_default : i_omega i = None -> i_period i = None -> i_wavenumber i = None ->
    i_wavelength i = None -> freq_meant i Omega (Fin 1)
| FM_one t x : i_omega i = only t Omega x -> i_period i = only t Period x ->
    i_wavenumber i = only t Wavenumber x -> i_wavelength i = only t Wavelength x ->
    x = PInf \/ (exists r, x = Fin r /\ 0 <= r) -> freq_meant i t x.
Definition limit_freq (x : ext) : Prop := x = Fin 0 \/ x = PInf.

(** The body can be used: at least one face, dofs with one row of three numbers
    per face. *)
Definition usable_body (b : body) : Prop :=
  nb_faces b <> 0%nat
  /\ forall name d, List.In (name, d) (b_dofs b) ->
       List.length d = nb_faces b /\ forall r, List.In r d -> List.length r = 3%nat.

(** Where the centers of the panels should be. *)
Definition in_domain (fs h : ext) (p : vec) : Prop :=
  (fs = PInf \/ exists f, fs = Fin f /\ vz p < f + / 10 ^ 8)
  /\ (h = PInf \/ exists d, h = Fin d /\ - d < vz p).

(** The documented conditions for a problem to be accepted. [h] is the depth and
    [t], [x] the frequency meant by the arguments. *)
Record acceptable (i : args) (h x : ext) : Prop := {
  ac_fs : i_fs i = Fin 0 \/ i_fs i = PInf;
  ac_bottom : i_fs i = PInf -> h = PInf;
  ac_speed : limit_freq x -> i_speed i = 0;
  ac_body : forall b, i_body i = Some b -> usable_body b }.
