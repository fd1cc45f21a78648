(** Model of the functions handling complex values in datasets, io/xarray.py:535-571.

    A dataset is the list of its data variables and the list of its coordinates; an array is the list of its values with
    the last index running first. Numbers are extended reals, hence without rounding nor signed zeros. *)
From Coq Require Import Reals String List Bool Arith.
From Verif Require Import Model_Base Model_Mesh.
Import ListNotations.
Open Scope R_scope.

(** The values of an array, by dtype: floats, [complex] (that is complex128), complex64, and strings. *)
Inductive data :=
| Floats (l : list ext)
| Complexes (l : list (ext * ext))
| Complexes64 (l : list (ext * ext))
| Strings (l : list string).
Record variable := Var { v_dims : list string; v_shape : list nat; v_data : data }.
Record xdataset := XDataset { x_vars : list (string * variable); x_coords : list (string * variable) }.

(** [ds[name] = v]: an existing key of the dict keeps its place. *)
Fixpoint assign {A} (name : string) (v : A) (l : list (string * A)) : list (string * A) :=
  match l with
  | [] => [(name, v)]
  | (n, w) :: l' => if String.eqb n name then (n, v) :: l' else (n, w) :: assign name v l'
  end.
Definition has_key {A} (name : string) (l : list (string * A)) : bool := existsb (fun nv => String.eqb (fst nv) name) l.
Definition find_key {A} (name : string) (l : list (string * A)) : option A :=
  option_map snd (find (fun nv => String.eqb (fst nv) name) l).

(** [separate_complex_values], lines 535-551. Datasets which already have a dimension called "complex" are outside of the
    model: xarray then complains about sizes or repeated dimensions. *)
Definition complex_coord : variable := Var ["complex"%string] [2%nat] (Strings ["re"%string; "im"%string]).
Definition separate_one (ds : xdataset) (name : string) : xdataset :=
  match find_key name (x_vars ds) with
  | Some (Var dims shape (Complexes l)) =>
    {| x_vars := assign name (Var ("complex"%string :: dims) (2%nat :: shape) (Floats (map fst l ++ map snd l))) (x_vars ds);
       x_coords := assign "complex"%string complex_coord (x_coords ds) |}
  | _ => ds
  end.
Definition separate (ds : xdataset) : xdataset := fold_left separate_one (map fst (x_vars ds)) ds.

(** The values with the given index along an axis: [before] is the number of indices before the axis, each of them having
    [size * after] values. *)
Fixpoint take_axis {A} (before size after index : nat) (l : list A) : list A :=
  match before with
  | O => []
  | S b => firstn after (skipn (index * after) l) ++ take_axis b size after index (skipn (size * after) l)
  end.
Fixpoint axis_of (d : string) (dims : list string) : option nat :=
  match dims with
  | [] => None
  | x :: l => if String.eqb x d then Some O else option_map S (axis_of d l)
  end.
Definition prod (l : list nat) : nat := fold_right Nat.mul 1%nat l.
(** [da.sel(complex=label).data]. *)
Definition sel_data {A} (axis index : nat) (shape : list nat) (l : list A) : list A :=
  take_axis (prod (firstn axis shape)) (nth axis shape O) (prod (skipn (S axis) shape)) index l.

(** Arithmetic of complex floats. *)
Definition xadd (a b : ext * ext) : ext * ext := (ext_add (fst a) (fst b), ext_add (snd a) (snd b)).
Definition xmul (a b : ext * ext) : ext * ext :=
  (ext_sub (ext_mul (fst a) (fst b)) (ext_mul (snd a) (snd b)), ext_add (ext_mul (fst a) (snd b)) (ext_mul (snd a) (fst b))).
Definition of_float (x : ext) : ext * ext := (x, Fin 0).
(** The line [re.data + 1j*im.data]: the float operands are converted to complex numbers. *)
Definition recombine (re im : ext * ext) : ext * ext := xadd re (xmul (Fin 0, Fin 1) im).
Fixpoint map2 {A B C} (f : A -> B -> C) (l : list A) (l' : list B) : list C :=
  match l, l' with x :: l, y :: l' => f x y :: map2 f l l' | _, _ => [] end.

(** The shape without the dimension "complex" and the list [new_dims]. *)
Fixpoint remove_nth {A} (n : nat) (l : list A) : list A :=
  match l, n with [], _ => [] | _ :: l', O => l' | x :: l', S n => x :: remove_nth n l' end.
(** Lines 564-569, for a variable having the coordinate. *)
Definition merge_variable (coord : variable) (v : variable) : result variable :=
  match coord, axis_of "complex"%string (v_dims v) with
  | Var [_] _ (Strings labels), Some axis =>
    match axis_of "re"%string labels, axis_of "im"%string labels with
    | Some i, Some j =>
      let sel {A} k (l : list A) := sel_data axis k (v_shape v) l in
      bind (match v_data v with
            | Floats l => Ok (map2 (fun a b => recombine (of_float a) (of_float b)) (sel i l) (sel j l))
            | Complexes l | Complexes64 l => Ok (map2 recombine (sel i l) (sel j l))
            | Strings _ => Err TypeError
            end) (fun l =>
      Ok (Var (filter (fun d => negb (String.eqb d "complex"%string)) (v_dims v)) (remove_nth axis (v_shape v)) (Complexes l)))
    | _, _ => Err KeyError
    end
  | _, _ => Err KeyError
  end.
Definition includes (dims dims' : list string) : bool := forallb (fun d => existsb (String.eqb d) dims') dims.
(** [merge_complex_values], lines 554-571: a variable has the coordinates with dimensions among its own ones. *)
Definition merge (ds : xdataset) : result xdataset :=
  match find_key "complex"%string (x_coords ds) with
  | None => Ok ds
  | Some coord =>
    bind (mapM (fun nv => if includes (v_dims coord) (v_dims (snd nv))
                          then bind (merge_variable coord (snd nv)) (fun v => Ok (fst nv, v))
                          else Ok nv) (x_vars ds)) (fun vars =>
    Ok {| x_vars := vars; x_coords := filter (fun nv => negb (String.eqb (fst nv) "complex"%string)) (x_coords ds) |})
  end.
