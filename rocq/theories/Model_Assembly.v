(** Model of the assembly of the influence matrices: [BUILD_MATRICES]
    (green_functions/libDelhommeau/src/matrices.f90:18-283) executed by several threads, and
    [Delhommeau.evaluate] (green_functions/delhommeau.py:307-399).

    Simplifications:
    - the integrals over a panel are parameters: functions of the point, of the data of the panel and of the
      arguments given to the Fortran subroutines;
    - exact numbers; the only nan is the product of zero by an infinite wavenumber ([None] below);
    - each thread executes the statements one at a time, in any interleaving with the other threads. *)
From Coq Require Import Reals.
From Coquelicot Require Import Complex.
From Coq Require Import List Bool Arith.
From Verif Require Import Model_Base Model_Mesh.
Import ListNotations.
Open Scope nat_scope.

(** Complex numbers or nan. *)
Definition num := option C.
Definition nadd (a b : num) : num := match a, b with Some x, Some y => Some (Cplus x y) | _, _ => None end.
Definition nscale (k : R) (a : num) : num := match a with Some x => Some (Cmult (RtoC k) x) | None => None end.
Definition num3 := (num * num * num)%type.
Definition n3_add (a b : num3) : num3 :=
  let '(a1, a2, a3) := a in let '(b1, b2, b3) := b in (nadd a1 b1, nadd a2 b2, nadd a3 b3).
Definition n3_scale (k : R) (a : num3) : num3 := let '(a1, a2, a3) := a in (nscale k a1, nscale k a2, nscale k a3).
Definition n3_zero : num3 := (Some (RtoC 0), Some (RtoC 0), Some (RtoC 0)).
Definition n3_of (v : vec) : num3 := (Some (RtoC (vx v)), Some (RtoC (vy v)), Some (RtoC (vz v))).
Definition n3_ofC (v : C * C * C) : num3 := let '(a, b, c) := v in (Some a, Some b, Some c).
(** [DOT_PRODUCT] of a real vector and a complex vector. *)
Definition n3_dot (n : vec) (a : num3) : num :=
  let '(a1, a2, a3) := a in nadd (nadd (nscale (vx n) a1) (nscale (vy n) a2)) (nscale (vz n) a3).

(** constants.f90:15: this is not the closest approximation of pi. *)
Definition fortran_pi : R := (3141592653588979 / 1000000000000000)%R.

(** constants.f90:34-43, delhommeau.py:128-141. *)
Inductive singularities := HighFreq | LowFreq | LowFreqWithRankine.
Inductive depth_method := LegacyDepth | NewerDepth.

(** The data of a panel read by the assembly: [vertices_2(faces_2(J, :), :)], [centers_2(J, :)], [normals_2(J, :)],
    [areas_2(J)], [radiuses_2(J)], [quad_points(J, :, :)] and [quad_weights(J, :)]. *)
Record source_panel := SourcePanel { sp_corners : quad; sp_props : fprops; sp_quad : list (vec * R) }.

Section Assembly.
  (** [integral_of_Rankine], [integral_of_reflected_Rankine], [one_point_integral_of_reflected_Rankine] (with the coefficients
      of the reflection) and [integral_of_wave_part]; the boolean is [derivative_with_respect_to_first_variable]. *)
  Variable rankine : bool -> vec -> source_panel -> R * vec.
  Variable reflected : bool -> (R * R) -> vec -> source_panel -> R * vec.
  Variable one_point : bool -> (R * R) -> vec -> source_panel -> R * vec.
  Variable wave_part : singularities -> depth_method -> ext -> ext -> bool -> vec -> source_panel -> C * (C * C * C).

  (** The arguments of the subroutine. *)
  Record inputs := Inputs {
    points_1 : nat -> vec; nb_1 : nat;
    panels_2 : nat -> source_panel; nb_2 : nat;
    dot_normals : nat -> vec;
    wavenumber : ext; depth : ext;
    coeffs3 : R * R * R;
    finite_depth : depth_method; singular : singularities;
    same_body : bool; adjoint : bool; early_dot : bool }.

  (** The private variables of a thread (lines 96-97). *)
  Record registers := Registers {
    int_G : C; int_nablaG : num3; int_G_Rankine : R; int_nablaG_Rankine : vec; diagonal_coef : R;
    int_G_wave : C; int_nablaG_wave : C * C * C }.
  Inductive statement :=
  | Compute (f : registers -> registers) (** a statement that only changes private variables *)
  | WriteS (i j : nat) (f : registers -> C) (** [S(I, J) = ...] *)
  | WriteK (i j : nat) (f : registers -> list num). (** [K(I, J, :) = ...] *)

  Definition set_G x r := Registers x (int_nablaG r) (int_G_Rankine r) (int_nablaG_Rankine r) (diagonal_coef r) (int_G_wave r) (int_nablaG_wave r).
  Definition set_nablaG x r := Registers (int_G r) x (int_G_Rankine r) (int_nablaG_Rankine r) (diagonal_coef r) (int_G_wave r) (int_nablaG_wave r).
  Definition set_Rankine (x : R * vec) r := Registers (int_G r) (int_nablaG r) (fst x) (snd x) (diagonal_coef r) (int_G_wave r) (int_nablaG_wave r).
  Definition set_diagonal x r := Registers (int_G r) (int_nablaG r) (int_G_Rankine r) (int_nablaG_Rankine r) x (int_G_wave r) (int_nablaG_wave r).
  Definition set_wave (x : C * (C * C * C)) r := Registers (int_G r) (int_nablaG r) (int_G_Rankine r) (int_nablaG_Rankine r) (diagonal_coef r) (fst x) (snd x).

  Section Body.
    Variable a : inputs.
    (** Line 93. *)
    Definition coef (k : nat) : R :=
      let '(c1, c2, c3) := coeffs3 a in ((match k with 0%nat => c1 | 1%nat => c2 | _ => c3 end) / (-4 * fortran_pi))%R.
    Definition nonzero (x : R) : bool := negb (Reqb x 0).
    Definition infinite (x : ext) : bool := match x with Fin _ => false | _ => true end.
    Definition low_freq_rankine : bool := match singular a with LowFreqWithRankine => true | _ => false end.
    Definition legacy : bool := match finite_depth a with LegacyDepth => true | NewerDepth => false end.
    Definition depth_value : R := match depth a with Fin h => h | _ => 0%R end. (** only used when the depth is finite *)

    (** Lines 138-139, 174-175, 197-198, ...: adding a Rankine term with the coefficient number k. *)
    Definition add_rankine (k : nat) : list statement :=
      [ Compute (fun r => set_G (Cplus (int_G r) (RtoC (coef k * int_G_Rankine r))) r);
        Compute (fun r => set_nablaG (n3_add (int_nablaG r) (n3_scale (coef k) (n3_of (int_nablaG_Rankine r)))) r) ].
    (** Line 178: [coeffs(3) * 2*wavenumber * int_G_Rankine] is nan when the wavenumber is infinite. *)
    Definition rankine_derivative (r : registers) : num :=
      match wavenumber a with Fin k => Some (RtoC (coef 2 * 2 * k * int_G_Rankine r)) | _ => None end.
    Definition add_third (x : num) (v : num3) : num3 := let '(v1, v2, v3) := v in (v1, v2, nadd v3 x).

    (** Lines 107-120. *)
    Definition diagonal_statements (i j : nat) : list statement :=
      if Nat.eqb i j && same_body a then
        [ Compute (set_diagonal (if Rltb (Rabs (vz (p_center (sp_props (panels_2 a j))))) (/ 100000000) then 1%R else (1 / 2)%R));
          Compute (fun r => set_nablaG (n3_add (int_nablaG r) (n3_scale (diagonal_coef r) (n3_of (dot_normals a (if adjoint a then i else j))))) r) ]
      else [].
    (** Lines 125-140. *)
    Definition rankine_statements (i j : nat) : list statement :=
      if nonzero (coef 0) then Compute (set_Rankine (rankine (adjoint a) (points_1 a i) (panels_2 a j))) :: add_rankine 0 else [].
    (** Lines 146-238. *)
    Definition reflected_statements (i j : nat) : list statement :=
      let p := points_1 a i in let q := panels_2 a j in let ad := adjoint a in let h := depth_value in
      if nonzero (coef 1) || (low_freq_rankine && nonzero (coef 2)) then
        Compute (set_Rankine (if negb (infinite (depth a)) && legacy then one_point ad (-1, 0)%R p q else reflected ad (-1, 0)%R p q))
        :: add_rankine 1
        ++ (if low_freq_rankine then [Compute (fun r => set_nablaG (add_third (rankine_derivative r) (int_nablaG r)) r)] else [])
        ++ (if negb (infinite (depth a)) then
              Compute (set_Rankine (reflected ad (-1, -2 * h)%R p q)) :: add_rankine 1
              ++ Compute (set_Rankine (one_point ad (1, -2 * h)%R p q)) :: add_rankine 1
              ++ Compute (set_Rankine (one_point ad (1, 2 * h)%R p q)) :: add_rankine 1
              ++ Compute (set_Rankine (one_point ad (-1, -4 * h)%R p q)) :: add_rankine 1
            else [])
      else [].
    (** Lines 243-265. *)
    Definition wave_statements (i j : nat) : list statement :=
      if nonzero (coef 2) then
        [ Compute (set_wave (wave_part (singular a) (finite_depth a) (wavenumber a) (depth a) (adjoint a) (points_1 a i) (panels_2 a j)));
          Compute (fun r => set_G (Cplus (int_G r) (Cmult (RtoC (coef 2)) (int_G_wave r))) r);
          Compute (fun r => set_nablaG (n3_add (int_nablaG r) (n3_scale (coef 2) (n3_ofC (int_nablaG_wave r)))) r) ]
      else [].
    (** Lines 270-280. *)
    Definition write_statements (i j : nat) : list statement :=
      [ WriteS i j int_G;
        WriteK i j (fun r => if early_dot a then [n3_dot (dot_normals a (if adjoint a then i else j)) (int_nablaG r)]
                             else let '(x, y, z) := int_nablaG r in [x; y; z]) ].
    (** The body of the loops, lines 101-280. *)
    Definition iteration (i j : nat) : list statement :=
      [Compute (set_G (RtoC 0)); Compute (set_nablaG n3_zero)]
      ++ diagonal_statements i j ++ rankine_statements i j ++ reflected_statements i j ++ wave_statements i j ++ write_statements i j.
  End Body.

  (** ** The threads of the parallel loop, lines 95-283 *)

  (** What a thread is doing: waiting for a column, executing the statements left in the iteration (i, j), or nothing any more. *)
  Inductive control := Waiting | Executing (j i : nat) (todo : list statement) | Finished.
  Record machine := Machine {
    pending : list nat; (** the columns that no thread has started *)
    threads : list (registers * control);
    matrix_S : nat -> nat -> C; matrix_K : nat -> nat -> list num;
    log_S : list (nat * nat); log_K : list (nat * nat) (** the entries written so far, for the statement of the properties *) }.
  Definition update {X} (m : nat -> nat -> X) (i j : nat) (x : X) (i' j' : nat) : X := if Nat.eqb i' i && Nat.eqb j' j then x else m i' j'.
  Fixpoint replace_nth {X} (k : nat) (x : X) (l : list X) : list X :=
    match l, k with [], _ => [] | _ :: l', 0 => x :: l' | y :: l', S k' => y :: replace_nth k' x l' end.
  Fixpoint remove_nth {X} (k : nat) (l : list X) : list X :=
    match l, k with [], _ => [] | _ :: l', 0 => l' | y :: l', S k' => y :: remove_nth k' l' end.

  (** One step of the thread [t]. When it is waiting, the scheduler gives it the pending column number [pick]. *)
  Definition thread_step (a : inputs) (st : machine) (event : nat * nat) : machine :=
    let '(t, pick) := event in
    let set x st := Machine (pending st) (replace_nth t x (threads st)) (matrix_S st) (matrix_K st) (log_S st) (log_K st) in
    match nth_error (threads st) t with
    | None => st
    | Some (r, Finished) => st
    | Some (r, Waiting) =>
      match pending st with
      | [] => set (r, Finished) st
      | _ =>
        let k := pick mod (length (pending st)) in
        match nth_error (pending st) k with
        | None => st
        | Some j =>
          let st' := Machine (remove_nth k (pending st)) (threads st) (matrix_S st) (matrix_K st) (log_S st) (log_K st) in
          set (r, if Nat.ltb 0 (nb_1 a) then Executing j 0 (iteration a 0 j) else Waiting) st'
        end
      end
    | Some (r, Executing j i []) => set (r, if Nat.ltb (S i) (nb_1 a) then Executing j (S i) (iteration a (S i) j) else Waiting) st
    | Some (r, Executing j i (Compute f :: l)) => set (f r, Executing j i l) st
    | Some (r, Executing j i (WriteS i' j' f :: l)) =>
      set (r, Executing j i l) (Machine (pending st) (threads st) (update (matrix_S st) i' j' (f r)) (matrix_K st) ((i', j') :: log_S st) (log_K st))
    | Some (r, Executing j i (WriteK i' j' f :: l)) =>
      set (r, Executing j i l) (Machine (pending st) (threads st) (matrix_S st) (update (matrix_K st) i' j' (f r)) (log_S st) ((i', j') :: log_K st))
    end.
  (** The matrices are allocated by [np.empty] (abstract_green_function.py:42-45) and the private variables are not initialised. *)
  Definition launch (a : inputs) (regs : list registers) (s0 : nat -> nat -> C) (k0 : nat -> nat -> list num) : machine :=
    Machine (seq 0 (nb_2 a)) (map (fun r => (r, Waiting)) regs) s0 k0 [] [].
  Definition execute (a : inputs) (schedule : list (nat * nat)) (st : machine) : machine := fold_left (thread_step a) schedule st.

  (** ** [Delhommeau.evaluate] *)

  (** The settings of the class. *)
  Record settings := Settings { gf_singularities : singularities; gf_finite_depth : depth_method; known_precision : bool }.
  (** The first mesh: a mesh, an array of shape (n, 3), or something else. [own]: this is the same object as the second mesh. *)
  Inductive receiver := OnMesh (ps : list fprops) (own : bool) | OnPoints (ps : list vec) | Unrecognized.

  (** Lines 337-362; the second component tells that the Prony decomposition is computed. *)
  Definition choose_coeffs (s : settings) (free_surface_inf : bool) (h k : ext) : result ((R * R * R) * bool) :=
    if free_surface_inf then Ok ((1, 0, 0)%R, false)
    else match h with
    | PInf =>
      if ext_eqb k (Fin 0) then Ok ((1, 1, 0)%R, false)
      else if ext_eqb k PInf then Ok ((1, -1, 0)%R, false)
      else Ok (match gf_singularities s with HighFreq => (1, -1, 1)%R | _ => (1, 1, 1)%R end, false)
    | _ => if ext_eqb k (Fin 0) || ext_eqb k PInf then Err NotImplementedError else Ok ((1, 1, 1)%R, true)
    end.
  (** [_get_colocation_points_and_normals], abstract_green_function.py:15-40. *)
  Definition colocation_and_normals (m1 : receiver) (ps2 : list source_panel) (adj : bool) : result (list vec * list vec) :=
    match m1 with
    | OnMesh ps _ => Ok (map p_center ps, if adj then map p_normal ps else map (fun q => p_normal (sp_props q)) ps2)
    | OnPoints ps => Ok (ps, if adj then map (fun _ => v0) ps else map (fun q => p_normal (sp_props q)) ps2)
    | Unrecognized => Err ValueError
    end.
  Definition is_own (m1 : receiver) : bool := match m1 with OnMesh _ own => own | _ => false end.

  (** The call of the Fortran subroutine; [schedule] is the interleaving and [regs] the threads with their garbage. *)
  Variable prony : ext -> result unit.
  Definition no_panel : source_panel := SourcePanel (Q v0 v0 v0 v0) (FProps 0 v0 v0 0) [].
  Definition arguments (s : settings) (m1 : receiver) (ps2 : list source_panel) (cs : R * R * R) (xs ns : list vec) (h k : ext) (adj early : bool) : inputs :=
    Inputs (fun i => nth i xs v0) (length xs) (fun j => nth j ps2 no_panel) (length ps2) (fun i => nth i ns v0) k h cs
           (gf_finite_depth s) (gf_singularities s) (is_own m1) adj early.
  Definition is_nan (x : num) : bool := match x with None => true | Some _ => false end.
  (** [None]: the threads have not finished. *)
  Definition evaluate_with (regs : list registers) (schedule : list (nat * nat)) (s0 : nat -> nat -> C) (k0 : nat -> nat -> list num)
      (s : settings) (free_surface_inf : bool) (h k : ext) (adj early : bool) (m1 : receiver) (ps2 : list source_panel)
      : result (option ((nat -> nat -> C) * (nat -> nat -> list num))) :=
    bind (choose_coeffs s free_surface_inf h k) (fun cp =>
    bind (if snd cp then prony (match h, k with Fin x, Fin y => Fin (y * x) | _, _ => NaN end) else Ok tt) (fun _ =>
    bind (colocation_and_normals m1 ps2 adj) (fun xn =>
    if existsb (fun q => Rltb (Rabs (vz (p_center (sp_props q)))) (/ 1000000)) ps2 && negb (match gf_singularities s with LowFreq => true | _ => false end)
    then Err NotImplementedError
    else if negb (known_precision s) then Err NotImplementedError
    else
      let a := arguments s m1 ps2 (fst cp) (fst xn) (snd xn) h k adj early in
      let st := execute a schedule (launch a regs s0 k0) in
      if forallb (fun t => match snd t with Finished => true | _ => false end) (threads st) then
        if existsb (fun ij => existsb is_nan (matrix_K st (fst ij) (snd ij))) (list_prod (seq 0 (nb_1 a)) (seq 0 (nb_2 a))) then Err RuntimeError
        else Ok (Some (matrix_S st, matrix_K st))
      else Ok None))).
End Assembly.
