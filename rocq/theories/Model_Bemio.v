(** Model of the import of the results of other codes: [dataframe_from_bemio], io/bemio.py:13-152.

    The numbers are exact. The arrays with three axes are lists of lists of lists; reading out of bounds raises [IndexError]. The
    secant method of scipy ([newton]) is an argument. The columns [free_surface], [forward_speed] and [kind] are constants and
    are left out; [kind] is the constructor of the record. *)
From Coq Require Import Reals String.
From Coq Require Import List Bool Arith.
From Verif Require Import Model_Base Model_Mesh.
Import ListNotations.
Open Scope R_scope.

Definition array3 := list (list (list R)).
(** [a[:, j, k]] and [a[i, :, k]] *)
Definition column_of (a : array3) (j k : nat) : result (list R) := mapM (fun m => bind (get m j) (fun r => get r k)) a.
Definition row_of (a : array3) (i k : nat) : result (list R) := bind (get a i) (mapM (fun r => get r k)).

(** The body of a bemio object. [bm_fk] is [None] if the attribute [fk] is missing. *)
Inductive bemio_depth := InfiniteWord | Depth (d : ext).
Record bemio_body := BemioBody {
  bm_name : string;
  bm_depth : bemio_depth;
  bm_code : string;
  bm_w : list R;
  bm_dirs : list R;
  bm_ex_re : array3;
  bm_ex_im : array3;
  bm_fk : option (array3 * array3);
  bm_am : array3;
  bm_rd : array3 }.

(** [dofs], line 29. *)
Definition dofs : list string := ["Surge"; "Sway"; "Heave"; "Roll"; "Pitch"; "Yaw"]%string.

(** [np.sort] *)
Fixpoint insert_number (x : R) (l : list R) : list R :=
  match l with [] => [x] | y :: l' => if Rleb x y then x :: l else y :: insert_number x l' end.
Definition np_sort (l : list R) : list R := fold_right insert_number [] l.

(** The dictionaries of lines 47-95 and 102-137, before [explode]. *)
Record common := Common {
  c_body : string;
  c_depth : ext;
  c_omega : R;
  c_wavenumber : option R;
  c_wavelength : option ext }.
Record difr := Difr { d_common : common; d_period : ext; d_direction : R; d_force : list (R * R); d_fk : list (R * R) }.
Record rad := Rad { r_common : common; r_dof : string; r_mass : list R; r_damping : list R }.

(** The rows of the dataframe. *)
Inductive row :=
| DiffractionRow (c : common) (period : ext) (direction : R) (influenced : string) (force froude_krylov : R * R)
| RadiationRow (c : common) (radiating influenced : string) (mass damping : R).

Section Bemio.
  (** [newton(lambda x: x*tanh(x) - c, x0=1.0)] as a function of [c]; it may raise. *)
  Variable newton : R -> result R.
  Variables rho g : R.
  Variables wavenumber wavelength : bool.

  (** Lines 39-40. *)
  Definition depth_of (b : bemio_body) : ext := match bm_depth b with InfiniteWord => PInf | Depth d => d end.
  (** [2*np.pi/x] for a numpy number that is not negative. *)
  Definition over (x : R) : ext := if Reqb x 0 then PInf else Fin (2 * PI / x).
  (** Lines 60-64 and 122-126: [g] is not zero. A depth that is neither finite nor [inf] compares false. *)
  Definition wavenumber_of (h : ext) (omega : R) : result R :=
    match h with
    | PInf => Ok (omega ^ 2 / g)
    | Fin d =>
      if Rltb 20 (omega ^ 2 * d / g) then Ok (omega ^ 2 / g)
      else bind (newton (omega ^ 2 * d / g)) (fun x => if Reqb d 0 then Err ZeroDivisionError else Ok (x / d))
    | _ => Err OtherException
    end.
  Definition common_of (b : bemio_body) (omega : R) : result common :=
    if wavenumber || wavelength then
      bind (wavenumber_of (depth_of b) omega) (fun k =>
      Ok (Common (bm_name b) (depth_of b) omega (if wavenumber then Some k else None) (if wavelength then Some (over k) else None)))
    else Ok (Common (bm_name b) (depth_of b) omega None None).

  (** [from_wamit] is a local variable that is only ever set to [True], lines 42-43: [false] stands for an unbound variable, and
      reading it raises [UnboundLocalError]. *)
  Definition read_flag (from_wamit : bool) : result unit := if from_wamit then Ok tt else Err OtherException.
  (** Lines 75-81 and 84-92. Imaginary parts of length one would be broadcast; this is not modelled. *)
  Definition complex_column (re im : array3) (from_wamit : bool) (j k : nat) : result (list (R * R)) :=
    bind (column_of re j k) (fun _ =>
    bind (read_flag from_wamit) (fun _ =>
    bind (column_of re j k) (fun x =>
    bind (column_of im j k) (fun y =>
    if Nat.eqb (length x) (length y) then Ok (combine (map (fun v => v * rho * g) x) (map (fun v => v * rho * g) y)) else Err ValueError)))).
  (** Lines 48-100. *)
  Definition difr_of (b : bemio_body) (from_wamit : bool) (k : nat) (omega : R) (j : nat) (dir : R) : result difr :=
    bind (common_of b omega) (fun c =>
    bind (complex_column (bm_ex_re b) (bm_ex_im b) from_wamit j k) (fun force =>
    bind (match bm_fk b with
          | Some (re, im) => complex_column re im from_wamit j k
          | None => bind (column_of (bm_ex_re b) j k) (fun x => Ok (map (fun _ => (0, 0)) x))
          end) (fun fk =>
    Ok (Difr c (over omega) (dir * PI / 180) force fk)))).
  (** Lines 103-137. *)
  Definition rad_of (b : bemio_body) (from_wamit : bool) (k : nat) (omega : R) (i : nat) (dof : string) : result rad :=
    bind (row_of (bm_am b) i k) (fun am =>
    bind (row_of (bm_rd b) i k) (fun rd =>
    bind (read_flag from_wamit) (fun _ =>
    bind (common_of b omega) (fun c =>
    Ok (Rad c dof (map (fun v => v * rho) am) (map (fun v => v * rho * omega) rd)))))).

  Definition enumerate {A} (l : list A) : list (nat * A) := combine (seq 0 (length l)) l.
  (** The loop on the frequencies, lines 45-137. *)
  Definition body_records (b : bemio_body) (from_wamit : bool) : result (list difr * list rad) :=
    bind (mapM (fun p =>
            bind (mapM (fun q => difr_of b from_wamit (fst p) (snd p) (fst q) (snd q)) (enumerate (bm_dirs b))) (fun ds =>
            bind (mapM (fun q => rad_of b from_wamit (fst p) (snd p) (fst q) (snd q)) (enumerate dofs)) (fun rs =>
            Ok (ds, rs)))) (enumerate (np_sort (bm_w b)))) (fun l =>
    Ok (concat (map fst l), concat (map snd l))).
  (** The loop on the bodies, lines 30-137: the lists are created at each turn. *)
  Fixpoint bodies_loop (bodies : list bemio_body) (indices : list nat) (from_wamit : bool) (records : option (list difr * list rad))
    : result (option (list difr * list rad)) :=
    match indices with
    | [] => Ok records
    | i :: indices' =>
      bind (get bodies i) (fun b =>
      let from_wamit := from_wamit || String.eqb (bm_code b) "WAMIT" in
      bind (body_records b from_wamit) (fun r => bodies_loop bodies indices' from_wamit (Some r)))
    end.

  (** [explode], lines 140-141: a missing column raises [KeyError]; the lists of a row have the same length. *)
  Definition explode_difr (l : list difr) : result (list row) :=
    match l with
    | [] => Err KeyError
    | _ =>
      if forallb (fun d => Nat.eqb (length (d_force d)) (length dofs) && Nat.eqb (length (d_fk d)) (length dofs)) l
      then Ok (concat (map (fun d => map (fun x => DiffractionRow (d_common d) (d_period d) (d_direction d) (fst x) (fst (snd x)) (snd (snd x)))
                 (combine dofs (combine (d_force d) (d_fk d)))) l))
      else Err ValueError
    end.
  Definition explode_rad (l : list rad) : result (list row) :=
    match l with
    | [] => Err KeyError
    | _ =>
      if forallb (fun r => Nat.eqb (length (r_mass r)) (length dofs) && Nat.eqb (length (r_damping r)) (length dofs)) l
      then Ok (concat (map (fun r => map (fun x => RadiationRow (r_common r) (r_dof r) (fst x) (fst (snd x)) (snd (snd x)))
                 (combine dofs (combine (r_mass r) (r_damping r)))) l))
      else Err ValueError
    end.

  (** [dataframe_from_bemio]: [num_bodies] is the field of the first body. *)
  Definition dataframe_from_bemio (bodies : list bemio_body) (num_bodies : nat) : result (list row) :=
    bind (match bodies with [] => Err IndexError | _ => Ok tt end) (fun _ =>
    bind (bodies_loop bodies (seq 0 num_bodies) false None) (fun records =>
    match records with
    | None => Err OtherException
    | Some (ds, rs) => bind (explode_difr ds) (fun a => bind (explode_rad rs) (fun b => Ok (a ++ b)))
    end)).
End Bemio.
