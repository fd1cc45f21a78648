(** Model of [capytaine/tools/symbolic_multiplication.py]. *)
From Coq Require Import Reals List String Bool ZArith.
From Verif Require Import Model_Base.
Import ListNotations.
Open Scope R_scope.

(** The [symbol] attribute (line 17): the two limits, or anything else. *)
Inductive symb := SZero | SInf | SOther (name : string).
Definition symb_eqb (a b : symb) : bool :=
  match a, b with
  | SZero, SZero | SInf, SInf => true
  | SOther x, SOther y => String.eqb x y
  | _, _ => false
  end.

(** An ordinary number or one-dimensional numpy array. Arrays of other
    dimensions are not modelled. *)
Inductive leaf := Scal (x : ext) | Arr (l : list ext).

(** A Python value: ordinary, or a [SymbolicMultiplication] whose [value] may
    itself be symbolic (as in [omega*omega]). *)
Inductive num := Fl (v : leaf) | Sym (s : symb) (v : num).

(** Ordinary division. A zero divisor is an error (as for Python floats; numpy
    would return an infinity or nan with a warning). Divisions by infinities
    follow IEEE. *)
Definition ext_div (a b : ext) : result ext :=
  match b with
  | Fin y => if Req_EM_T y 0 then Err ZeroDivisionError else
      Ok (match a with
          | Fin x => Fin (x / y)
          | i => ext_mul (Fin (/ y)) i
          end)
  | NaN => Ok NaN
  | _ => Ok (match a with Fin x => Fin 0 | _ => NaN end)
  end.

Fixpoint map_result {A B} (f : A -> result B) (l : list A) : result (list B) :=
  match l with
  | [] => Ok []
  | x :: l' => bind (f x) (fun y => bind (map_result f l') (fun l'' => Ok (y :: l'')))
  end.
Fixpoint zip_result {A B} (f : A -> A -> result B) (l m : list A) : result (list B) :=
  match l, m with
  | [], [] => Ok []
  | x :: l', y :: m' => bind (f x y) (fun z => bind (zip_result f l' m') (fun r => Ok (z :: r)))
  | _, _ => Err ValueError   (* shapes do not match *)
  end.

(** numpy arithmetic on ordinary values (arrays of length one are not
    broadcast in the model). *)
Definition leaf_op (f : ext -> ext -> result ext) (a b : leaf) : result leaf :=
  match a, b with
  | Scal x, Scal y => bind (f x y) (fun z => Ok (Scal z))
  | Scal x, Arr m => bind (map_result (f x) m) (fun r => Ok (Arr r))
  | Arr l, Scal y => bind (map_result (fun x => f x y) l) (fun r => Ok (Arr r))
  | Arr l, Arr m => bind (zip_result f l m) (fun r => Ok (Arr r))
  end.
Definition leaf_mul := leaf_op (fun x y => Ok (ext_mul x y)).
Definition leaf_div := leaf_op ext_div.

(** [__mul__] (lines 45-46) when the left operand is symbolic and [__rmul__]
    (lines 48-49) when only the right one is. *)
Fixpoint num_mul (a b : num) {struct a} : result num :=
  match a with
  | Sym s v => bind (num_mul v b) (fun r => Ok (Sym s r))
  | Fl x =>
    (fix go (b : num) : result num :=
       match b with
       | Sym s v => bind (go v) (fun r => Ok (Sym s r))
       | Fl y => bind (leaf_mul x y) (fun r => Ok (Fl r))
       end) b
  end.

(** [__pow__] (lines 51-55). *)
Definition num_pow (a : num) (n : Z) : result num :=
  if Z.eqb n 2 then num_mul a a else Err NotImplementedError.

(** [x / self] with [x] ordinary: [__rtruediv__] (lines 63-71); the first branch
    cannot happen since Python tries [__truediv__] of the left operand first. *)
Fixpoint leaf_rdiv (x : leaf) (b : num) : result num :=
  match b with
  | Fl y => bind (leaf_div x y) (fun r => Ok (Fl r))
  | Sym SZero v => bind (leaf_rdiv x v) (fun r => Ok (Sym SInf r))
  | Sym SInf v => bind (leaf_rdiv x v) (fun r => Ok (Sym SZero r))
  | Sym (SOther _) _ => Err NotImplementedError
  end.

(** [__truediv__] (lines 57-61). *)
Fixpoint num_div (a b : num) : result num :=
  match a with
  | Fl x => leaf_rdiv x b
  | Sym s v =>
    match b with
    | Sym s' w => if symb_eqb s s' then num_div v w
                  else bind (num_div v b) (fun r => Ok (Sym s r))
    | Fl _ => bind (num_div v b) (fun r => Ok (Sym s r))
    end
  end.

(** [__float__] (lines 100-106). *)
Fixpoint num_float (a : num) : result ext :=
  match a with
  | Fl (Scal x) => Ok x
  | Fl (Arr _) => Err TypeError
  | Sym SZero v => bind (num_float v) (fun x => Ok (ext_mul (Fin 0) x))
  | Sym SInf v => bind (num_float v) (fun x => Ok (ext_mul PInf x))
  | Sym (SOther _) _ => Err NotImplementedError
  end.

(** [_concretize] (lines 91-98); the [None] returned for an array with another
    symbol is reported as an error. *)
Definition concretize (s : symb) (v : num) : result leaf :=
  match v with
  | Fl (Arr l) =>
    match s with
    | SZero => Ok (Arr (map (fun _ => Fin 0) l))
    | SInf => Ok (Arr (map (fun _ => PInf) l))
    | SOther _ => Err TypeError
    end
  | _ => bind (num_float (Sym s v)) (fun x => Ok (Scal x))
  end.
Definition to_leaf (a : num) : result leaf :=
  match a with Fl x => Ok x | Sym s v => concretize s v end.

(** [__add__], [__radd__] (lines 39-43). *)
Definition num_add (a b : num) : result leaf :=
  bind (to_leaf a) (fun x => bind (to_leaf b) (fun y => leaf_op (fun u v => Ok (ext_add u v)) x y)).

(** [__eq__] and [__lt__] (lines 82-86) between scalars. *)
Definition num_eqb (a b : num) : result bool :=
  bind (num_float a) (fun x => bind (num_float b) (fun y => Ok (ext_eqb x y))).
Definition num_ltb (a b : num) : result bool :=
  bind (num_float a) (fun x => bind (num_float b) (fun y => Ok (ext_ltb x y))).

(** [__hash__] (lines 88-89): Python's [hash] of the pair; here the pair itself. *)
Definition num_hash (a : num) : option symb * num :=
  match a with Sym s v => (Some s, v) | Fl x => (None, a) end.

(** [supporting_symbolic_multiplication] (lines 112-125). *)
Definition supporting {A} (f : A -> num -> result num) (a : A) (x : num) : result num :=
  match x with
  | Sym s v => bind (f a v) (fun r => Ok (Sym s r))
  | Fl _ => f a x
  end.
