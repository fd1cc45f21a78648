(** Model of [capytaine/bem/problems_and_results.py] (problems) and of the two
    functions it calls in [tools/deprecation_handling.py] and
    [bem/airy_waves.py]. *)
From Coq Require Import Reals List String Bool Ascii.
From Coquelicot Require Import Complex.
From Verif Require Import Model_Base.
Import ListNotations.
Open Scope R_scope.

(** [_get_water_depth] (tools/deprecation_handling.py, lines 7-19). [None] is
    an argument that is not given. *)
Definition get_water_depth (free_surface : ext) (water_depth sea_bottom : option ext)
    (default : ext) : result ext :=
  match water_depth, sea_bottom with
  | None, None => Ok default
  | Some h, None => if ext_leb h (Fin 0) then Err ValueError else Ok h
  | None, Some b => Ok (ext_sub free_surface b)
  | Some _, Some _ => Err ValueError
  end.

(** A stored frequency: [SymbolicMultiplication("0")],
    [SymbolicMultiplication("∞")] or a float. *)
Inductive freq := FZero | FInf | FVal (x : ext).
(** [float(freq)] (tools/symbolic_multiplication.py, lines 100-106). *)
Definition ffloat (f : freq) : ext :=
  match f with FZero => Fin 0 | FInf => PInf | FVal x => x end.

Inductive freq_type := Omega | Period | Wavenumber | Wavelength.

Record freqs := Freqs {
  f_omega : freq; f_period : freq; f_wavenumber : freq; f_wavelength : freq;
  f_type : freq_type }.

(** Division of numpy floats: dividing by zero gives an infinity or nan (Python
    floats would raise instead; this only differs for [g = 0]). *)
Definition np_div (a b : ext) : ext :=
  match b with
  | Fin y =>
    if Req_EM_T y 0 then
      match a with
      | Fin x => if Rlt_dec 0 x then PInf else if Rlt_dec x 0 then NInf else NaN
      | _ => a
      end
    else match a with Fin x => Fin (x / y) | i => ext_mul (Fin (/ y)) i end
  | NaN => NaN
  | _ => match a with Fin _ => Fin 0 | _ => NaN end
  end.
Definition np_tanh (a : ext) : ext :=
  match a with Fin x => Fin (tanh x) | PInf => Fin 1 | NInf => Fin (-1) | NaN => NaN end.
Definition np_sqrt (a : ext) : ext :=
  match a with
  | Fin x => if Rlt_dec x 0 then NaN else Fin (sqrt x)
  | PInf => PInf
  | _ => NaN
  end.
Definition np_abs (a : ext) : ext :=
  match a with Fin x => Fin (Rabs x) | NInf => PInf | i => i end.
Definition two_pi : ext := Fin (2 * PI).

Definition is_omega_k (t : freq_type) : bool :=
  match t with Omega | Wavenumber => true | _ => false end.

Section Problem.
  (** [scipy.optimize.newton] applied to [k -> k*tanh(k*depth) - target] with
      initial guess 1; it may also raise. *)
  Variable newton : ext -> ext -> result ext.

  Definition given {A} (o : option A) : bool := match o with Some _ => true | None => false end.
  Definition provided (omega period wavenumber wavelength : option ext) : list (freq_type * ext) :=
    (match omega with Some x => [(Omega, x)] | None => [] end)
    ++ (match period with Some x => [(Period, x)] | None => [] end)
    ++ (match wavenumber with Some x => [(Wavenumber, x)] | None => [] end)
    ++ (match wavelength with Some x => [(Wavelength, x)] | None => [] end).

  (** [_get_frequencies], once the provided value is identified
      (problems_and_results.py, lines 115-154). *)
  Definition frequencies_from (depth : ext) (g : R) (t : freq_type) (x : ext) : result freqs :=
    if (ext_eqb x (Fin 0) && is_omega_k t) || (ext_eqb x PInf && negb (is_omega_k t)) then
      Ok (Freqs FZero FInf FZero FInf t)
    else if (ext_eqb x (Fin 0) && negb (is_omega_k t)) || (ext_eqb x PInf && is_omega_k t) then
      Ok (Freqs FInf FZero FInf FZero t)
    else
      match t with
      | Omega | Period =>
        let omega := match t with Omega => x | _ => np_div two_pi x end in
        let period := match t with Omega => np_div two_pi x | _ => x end in
        let target := np_div (ext_mul omega omega) (Fin g) in
        bind (if ext_eqb depth PInf then Ok target else newton depth target) (fun k =>
        Ok (Freqs (FVal omega) (FVal period) (FVal k) (FVal (np_div two_pi k)) t))
      | _ =>
        let k := match t with Wavelength => np_div two_pi x | _ => x end in
        let wavelength := match t with Wavelength => x | _ => np_div two_pi x end in
        let omega := np_sqrt (ext_mul (ext_mul (Fin g) k) (np_tanh (ext_mul k depth))) in
        Ok (Freqs (FVal omega) (FVal (np_div two_pi omega)) (FVal k) (FVal wavelength) t)
      end.

  (** [_get_frequencies] (lines 101-154). *)
  Definition get_frequencies (depth : ext) (g : R)
      (omega period wavenumber wavelength : option ext) : result freqs :=
    match provided omega period wavenumber wavelength with
    | [] => frequencies_from depth g Omega (Fin 1)
    | [(t, x)] => frequencies_from depth g t x
    | _ => Err ValueError
    end.

  (** What the problems use of a [FloatingBody]. [b_id] is the identity of the
      Python object ([FloatingBody] does not define [__eq__]). The rows of a dof
      are lists because their shape is checked. [b_lid] is the number of faces of
      the lid, when there is one. *)
  Record body := Body {
    b_id : nat;
    b_name : string;
    b_centers : list vec;
    b_normals : list vec;
    b_areas : list R;
    b_dofs : list (string * list (list C));
    b_lid : option nat }.
  Definition nb_faces (b : body) : nat := List.length (b_centers b).
  (** [mesh_including_lid.nb_faces] (bodies.py, lines 137-142). *)
  Definition nb_faces_with_lid (b : body) : nat :=
    match b_lid b with Some n => nb_faces b + n | None => nb_faces b end.

  (** [FloatingBody.immersed_part(free_surface, water_depth)]. *)
  Variable immersed_part : body -> ext -> ext -> result body.

  (** [_check_dofs_shape_consistency] (bodies.py, lines 269-274), for dofs that
      are numpy arrays with two dimensions. *)
  Definition dof_shape_ok (n : nat) (d : list (list C)) : bool :=
    Nat.eqb (List.length d) n && forallb (fun r => Nat.eqb (List.length r) 3) d.
  Definition check_dofs (b : body) : result unit :=
    if forallb (fun nd => dof_shape_ok (nb_faces b) (snd nd)) (b_dofs b)
    then Ok tt else Err ValueError.

  (** [faces_centers[:, 2] >= free_surface + 1e-8] (line 198). *)
  Definition above_fs (fs : ext) (p : vec) : bool :=
    ext_leb (ext_add fs (Fin (/ 10 ^ 8))) (Fin (vz p)).
  (** [faces_centers[:, 2] <= -water_depth] (line 199). *)
  Definition below_sb (depth : ext) (p : vec) : bool := ext_leb (Fin (vz p)) (ext_opp depth).

  (** A boundary condition given as an array: its shape and values. *)
  Record array := Array { a_shape : list nat; a_values : list C }.

  (** [_check_data], lines 191-217: the part about the body. Returns the body,
      possibly clipped. *)
  Definition check_body (fs depth : ext) (ob : option body) : result (option body) :=
    match ob with
    | None => Ok None
    | Some b =>
      if Nat.eqb (nb_faces b) 0 then Err ValueError else
      bind (check_dofs b) (fun _ =>
      if existsb (above_fs fs) (b_centers b) || existsb (below_sb depth) (b_centers b)
      then bind (immersed_part b fs depth) (fun b' => Ok (Some b'))
      else Ok (Some b))
    end.

  (** [_check_data], lines 219-227: the part about the boundary condition. *)
  Definition check_bc (ob : option body) (bc : option array) : result unit :=
    match bc with
    | None => Ok tt
    | Some a =>
      match a_shape a with
      | [n] =>
        match ob with
        | None => Err AttributeError
        | Some b => if Nat.eqb n (nb_faces_with_lid b) then Ok tt else Err ValueError
        end
      | _ => Err ValueError
      end
    end.

  Definition is_limit (x : ext) : bool := ext_eqb x (Fin 0) || ext_eqb x PInf.

  (** [_check_data] (lines 156-227). The warnings are not modelled. *)
  Definition check_data (fs depth : ext) (omega : freq) (speed : R)
      (ob : option body) (bc : option array) : result (option body) :=
    if negb (ext_eqb fs (Fin 0) || ext_eqb fs PInf) then Err NotImplementedError else
    if ext_eqb fs PInf && negb (ext_eqb depth PInf) then Err NotImplementedError else
    if ext_ltb depth (Fin 0) then Err ValueError else
    if is_limit (ffloat omega) && negb (Reqb speed 0) then Err NotImplementedError else
    bind (check_body fs depth ob) (fun ob' =>
    bind (check_bc ob' bc) (fun _ => Ok ob')).

  (** A boundary condition as stored: an array, possibly multiplied by a
      symbolic zero or infinity. *)
  Inductive bcond :=
  | BC (l : list C)
  | BCSym (f : freq) (l : list C).   (* f is FZero or FInf *)

  (** Attributes of a problem set by [LinearPotentialFlowProblem.__init__]. *)
  Record problem := Problem {
    p_body : option body;
    p_fs : ext; p_depth : ext;
    p_freqs : freqs;
    p_enc : freqs;
    p_speed : R; p_rho : R; p_g : R;
    p_dir : R; p_enc_dir : R;
    p_bc : option bcond }.

  Record args := Args {
    i_body : option body;
    i_fs : ext;
    i_water_depth : option ext; i_sea_bottom : option ext;
    i_omega : option ext; i_period : option ext;
    i_wavenumber : option ext; i_wavelength : option ext;
    i_speed : R; i_rho : R; i_g : R; i_dir : R }.

  (** Lines 84-98: the encounter frequency. [self.omega] is a float there, since
      [_check_data] rejects limit frequencies with forward speed; [ffloat] is the
      identity on floats. *)
  Definition doppler (f : freqs) (speed dir : R) : ext :=
    ext_sub (ffloat (f_omega f))
            (ext_mul (ext_mul (ffloat (f_wavenumber f)) (Fin speed)) (Fin (cos dir))).
  Definition encounter (depth : ext) (g : R) (f : freqs) (speed dir : R) : result (freqs * R) :=
    if Reqb speed 0 then Ok (f, dir)
    else
      let d := doppler f speed dir in
      bind (get_frequencies depth g (Some (np_abs d)) None None None) (fun e =>
      Ok (e, if ext_leb (Fin 0) d then dir else dir + PI)).

  (** [LinearPotentialFlowProblem.__init__] (lines 58-98). [rho], [g], the speed
      and the direction are assumed finite. *)
  Definition generic_problem (i : args) (bc : option array) : result problem :=
    bind (get_water_depth (i_fs i) (i_water_depth i) (i_sea_bottom i) PInf) (fun depth =>
    bind (get_frequencies depth (i_g i) (i_omega i) (i_period i) (i_wavenumber i) (i_wavelength i))
      (fun f =>
    bind (check_data (i_fs i) depth (f_omega f) (i_speed i) (i_body i) bc) (fun ob =>
    bind (encounter depth (i_g i) f (i_speed i) (i_dir i)) (fun ed =>
    Ok {| p_body := ob; p_fs := i_fs i; p_depth := depth; p_freqs := f; p_enc := fst ed;
          p_speed := i_speed i; p_rho := i_rho i; p_g := i_g i;
          p_dir := i_dir i; p_enc_dir := snd ed;
          p_bc := match bc with Some a => Some (BC (a_values a)) | None => None end |})))).

  Definition with_bc (p : problem) (bc : option bcond) : problem :=
    {| p_body := p_body p; p_fs := p_fs p; p_depth := p_depth p; p_freqs := p_freqs p;
       p_enc := p_enc p; p_speed := p_speed p; p_rho := p_rho p; p_g := p_g p;
       p_dir := p_dir p; p_enc_dir := p_enc_dir p; p_bc := bc |}.
End Problem.

(** Airy waves (bem/airy_waves.py). *)
Section Airy.
  Open Scope C_scope.
  (** [exp(1j*x)]. *)
  Definition cexp (x : R) : C := (cos x, sin x).

  (** Data of the problem: wavenumber, pulsation, gravity, depth, and the two
      directions. *)
  Record wave := Wave {
    w_k : R; w_omega : R; w_g : R; w_rho : R; w_h : ext; w_enc_dir : R; w_dir : R }.

  (** [0 <= k*h < 20] (lines 31 and 67). *)
  Definition shallow (w : wave) : bool :=
    let kh := ext_mul (Fin (w_k w)) (w_h w) in
    ext_leb (Fin 0) kh && ext_ltb kh (Fin 20).
  (** [cih], [sih] (lines 31-36 and 67-72). *)
  Definition cih (w : wave) (z : R) : R :=
    match w_h w with
    | Fin h => if shallow w then (cosh (w_k w * (z + h)) / cosh (w_k w * h))%R
               else exp (w_k w * z)
    | _ => exp (w_k w * z)
    end.
  Definition sih (w : wave) (z : R) : R :=
    match w_h w with
    | Fin h => if shallow w then (sinh (w_k w * (z + h)) / cosh (w_k w * h))%R
               else exp (w_k w * z)
    | _ => exp (w_k w * z)
    end.
  (** [wbar] (lines 29 and 65). *)
  Definition wbar (w : wave) (p : vec) : R :=
    (vx p * cos (w_enc_dir w) + vy p * sin (w_enc_dir w))%R.

  (** [airy_waves_potential] at one point (lines 8-39). *)
  Definition airy_potential (w : wave) (p : vec) : C :=
    - Ci * RtoC (w_g w / w_omega w) * RtoC (cih w (vz p)) * cexp (w_k w * wbar w p).

  (** [airy_waves_velocity] at one point (lines 42-78). *)
  Definition airy_velocity (w : wave) (p : vec) : C * C * C :=
    let a := RtoC (w_g w * w_k w / w_omega w) * cexp (w_k w * wbar w p) in
    (a * RtoC (cos (w_dir w) * cih w (vz p)),
     a * RtoC (sin (w_dir w) * cih w (vz p)),
     a * (- Ci * RtoC (sih w (vz p)))).

  (** [airy_waves_pressure] (lines 81-82). *)
  Definition airy_pressure (w : wave) (p : vec) : C :=
    Ci * RtoC (w_omega w) * RtoC (w_rho w) * airy_potential w p.
  (** [airy_waves_free_surface_elevation] at one point (lines 89-106). *)
  Definition airy_elevation (w : wave) (p : vec) : C :=
    Ci * RtoC (w_omega w) / RtoC (w_g w) * airy_potential w p.
End Airy.

(** Scalar product of a complex vector and a real vector. *)
Definition cdot (a : C * C * C) (n : vec) : C :=
  let '(ax, ay, az) := a in (ax * RtoC (vx n) + ay * RtoC (vy n) + az * RtoC (vz n))%C.
Definition row3 (r : list C) : C * C * C :=
  match r with [a; b; c] => (a, b, c) | _ => (RtoC 0, RtoC 0, RtoC 0) end.

Fixpoint map2 {A B D} (f : A -> B -> D) (l : list A) (m : list B) : list D :=
  match l, m with
  | x :: l', y :: m' => f x y :: map2 f l' m'
  | _, _ => []
  end.

(** Appending zeros for the faces of the lid (lines 365-366, 436-437). *)
Definition lid_zeros (b : body) : list C :=
  match b_lid b with Some n => repeat (RtoC 0) n | None => [] end.

Section Problems.
  Variable newton : ext -> ext -> result ext.
  Variable immersed_part : body -> ext -> ext -> result body.

  (** The wave of a problem whose frequencies are finite floats. *)
  Definition wave_of (p : problem) : option wave :=
    match f_omega (p_freqs p), f_wavenumber (p_freqs p) with
    | FVal (Fin om), FVal (Fin k) => Some (Wave k om (p_g p) (p_rho p) (p_depth p) (p_enc_dir p) (p_dir p))
    | _, _ => None
    end.

  (** [DiffractionProblem.__init__] (lines 339-369). A nan frequency (possible
      only for a non positive [g] or depth) is reported as an error instead of
      giving a boundary condition of nans. *)
  Definition diffraction_problem (i : args) : result problem :=
    bind (generic_problem newton immersed_part i None) (fun p =>
    if is_limit (ffloat (f_omega (p_freqs p))) then Err NotImplementedError else
    match p_body p with
    | None => Ok p
    | Some b =>
      match wave_of p with
      | None => Err OtherException
      | Some w =>
        Ok (with_bc p (Some (BC (
          map2 (fun c n => Copp (cdot (airy_velocity w c) n)) (b_centers b) (b_normals b)
          ++ lid_zeros b))))
      end
    end).

  (** [str.lower] on ASCII strings. *)
  Definition lower_ascii (a : Ascii.ascii) : Ascii.ascii :=
    let n := nat_of_ascii a in
    if (Nat.leb 65 n && Nat.leb n 90)%bool then ascii_of_nat (n + 32) else a.
  Fixpoint lower (s : string) : string :=
    match s with
    | EmptyString => EmptyString
    | String a s' => String (lower_ascii a) (lower s')
    end.
  Fixpoint assoc {A} (s : string) (l : list (string * A)) : option A :=
    match l with
    | [] => None
    | (t, a) :: l' => if String.eqb s t then Some a else assoc s l'
    end.

  (** [ddofdx_dot_n] (lines 422-433). *)
  Definition ddofdx_dot_n (dof : string) (b : body) : result (list C) :=
    let d := lower dof in
    if String.eqb d "pitch" then Ok (map (fun n => RtoC (vz n)) (b_normals b))
    else if String.eqb d "yaw" then Ok (map (fun n => RtoC (- vy n)) (b_normals b))
    else if existsb (String.eqb d) ["surge"; "sway"; "heave"; "roll"]%string
    then Ok (map (fun _ => RtoC 0) (b_normals b))
    else Err NotImplementedError.

  (** [np.sum(dof * faces_normals, axis=1)] (line 419). The product raises when the
      shapes differ (arrays with a single row, which numpy would broadcast, are
      not treated apart). *)
  Definition dof_dot_n (d : list (list C)) (b : body) : result (list C) :=
    if dof_shape_ok (List.length (b_normals b)) d
    then Ok (map2 (fun r n => cdot (row3 r) n) d (b_normals b))
    else Err ValueError.

  (** [-1j * encounter_omega * ...] (line 419). *)
  Definition motion_bc (om : freq) (l : list C) : result bcond :=
    match om with
    | FVal (Fin w) => Ok (BC (map (fun c => Cmult (Cmult (Copp Ci) (RtoC w)) c) l))
    | FVal _ => Err OtherException  (* nan or infinite float: not modelled *)
    | s => Ok (BCSym s (map (fun c => Cmult (Copp Ci) c) l))
    end.
  (** [boundary_condition += forward_speed * ddofdx_dot_n] (line 434); adding to a
      symbolic number makes it concrete ([_concretize],
      tools/symbolic_multiplication.py lines 91-98). *)
  Definition add_bc (b : bcond) (l : list C) : result bcond :=
    match b with
    | BC m => Ok (BC (map2 Cplus m l))
    | BCSym FZero m => Ok (BC (map2 (fun _ y => y) m l))
    | BCSym _ _ => Err OtherException  (* infinite values: unreachable *)
    end.
  (** [np.concatenate([boundary_condition, zeros])] (lines 436-437): numpy finds no
      implementation for symbolic numbers ([__array_function__],
      tools/symbolic_multiplication.py lines 26-30). *)
  Definition append_lid (b : body) (c : bcond) : result bcond :=
    match b_lid b, c with
    | None, _ => Ok c
    | Some n, BC l => Ok (BC (l ++ repeat (RtoC 0) n))
    | Some _, BCSym _ _ => Err TypeError
    end.

  (** [RadiationProblem.__init__] (lines 388-437). Returns the problem and the
      radiating dof. *)
  Definition radiation_problem (i : args) (radiating_dof : option string)
      : result (problem * option string) :=
    bind (generic_problem newton immersed_part i None) (fun p =>
    match p_body p with
    | None => Ok (p, radiating_dof)
    | Some b =>
      match b_dofs b with
      | [] => Err ValueError
      | (first, _) :: _ =>
        let dof := match radiating_dof with None => first | Some d => d end in
        match assoc dof (b_dofs b) with
        | None => Err ValueError
        | Some d =>
          bind (dof_dot_n d b) (fun dn =>
          bind (motion_bc (f_omega (p_enc p)) dn) (fun c =>
          bind (if Reqb (p_speed p) 0 then Ok c
                else bind (ddofdx_dot_n dof b) (fun l =>
                     add_bc c (map (Cmult (RtoC (p_speed p))) l))) (fun c =>
          bind (append_lid b c) (fun c =>
          Ok (with_bc p (Some c), Some dof)))))
        end
      end
    end).
End Problems.

(** Comparisons (lines 299-317 and 440-441). The class of the problem decides
    whether the tuple has a last component. *)
Record tagged := Tagged { t_problem : problem; t_dof : option (option string) }.

(** Elements of the compared tuples. *)
Definition body_eqb (a b : option body) : bool :=
  match a, b with
  | None, None => true
  | Some x, Some y => Nat.eqb (b_id x) (b_id y)
  | _, _ => false
  end.
Definition floats_of (p : problem) : list ext :=
  [p_fs p; p_depth p; ffloat (f_omega (p_freqs p)); ffloat (f_period (p_freqs p));
   ffloat (f_wavenumber (p_freqs p)); ffloat (f_wavelength (p_freqs p)); Fin (p_speed p); Fin (p_rho p)].
Fixpoint list_eqb {A} (eqb : A -> A -> bool) (l m : list A) : bool :=
  match l, m with
  | [], [] => true
  | x :: l', y :: m' => eqb x y && list_eqb eqb l' m'
  | _, _ => false
  end.
Definition ostring_eqb (a b : option string) : bool :=
  match a, b with
  | None, None => true
  | Some x, Some y => String.eqb x y
  | _, _ => false
  end.
(** [__eq__] (lines 304-308): equality of [_astuple()]. *)
Definition problem_eqb (a b : tagged) : bool :=
  body_eqb (p_body (t_problem a)) (p_body (t_problem b))
  && list_eqb ext_eqb (floats_of (t_problem a)) (floats_of (t_problem b))
  && Reqb (p_g (t_problem a)) (p_g (t_problem b))
  && match t_dof a, t_dof b with
     | None, None => true
     | Some x, Some y => ostring_eqb x y
     | _, _ => false
     end.

(** [str.__lt__]: lexicographic order on character codes. *)
Fixpoint string_ltb (s t : string) : bool :=
  match s, t with
  | _, EmptyString => false
  | EmptyString, String _ _ => true
  | String a s', String b t' =>
    if Nat.ltb (nat_of_ascii a) (nat_of_ascii b) then true
    else if Nat.eqb (nat_of_ascii a) (nat_of_ascii b) then string_ltb s' t' else false
  end.
Fixpoint floats_ltb (l m : list ext) : bool :=
  match l, m with
  | x :: l', y :: m' => if ext_eqb x y then floats_ltb l' m' else ext_ltb x y
  | [], _ :: _ => true
  | _, _ => false
  end.
(** [__lt__] (lines 310-317): order of tuples, the bodies being compared by name
    (bodies.py, lines 133-135). *)
Definition problem_ltb (a b : problem) : result bool :=
  match p_body a, p_body b with
  | None, None => Ok (floats_ltb (floats_of a) (floats_of b))
  | Some x, Some y =>
    if Nat.eqb (b_id x) (b_id y) then Ok (floats_ltb (floats_of a) (floats_of b))
    else Ok (string_ltb (b_name x) (b_name y))
  | None, Some _ => Err TypeError
  | Some _, None => Err AttributeError
  end.
