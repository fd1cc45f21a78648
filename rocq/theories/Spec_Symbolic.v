(** Specification: a symbolic number stands for [coefficient * eps ^ order],
    [eps] being an infinitesimal: "0" is [eps] and "∞" is [1/eps]. *)
From Coq Require Import Reals ZArith.
From Verif Require Import Model_Base Model_Symbolic.
Open Scope Z_scope.

Fixpoint order (a : num) : Z :=
  match a with
  | Fl _ => 0
  | Sym SZero v => 1 + order v
  | Sym SInf v => -1 + order v
  | Sym (SOther _) v => order v
  end.
Fixpoint coefficient (a : num) : leaf :=
  match a with Fl x => x | Sym _ v => coefficient v end.

(** Only the two limit symbols are used. *)
Fixpoint limits_only (a : num) : bool :=
  match a with
  | Fl _ => true
  | Sym (SOther _) _ => false
  | Sym _ v => limits_only v
  end.

(** One kind of symbol only. *)
Fixpoint all_symbols (s : symb) (a : num) : bool :=
  match a with
  | Fl _ => true
  | Sym s' v => symb_eqb s s' && all_symbols s v
  end.

(** The limit of [c * eps ^ k] when [eps] decreases to 0. *)
Definition limit_value (c : R) (k : Z) : ext :=
  if Z.ltb 0 k then Fin 0
  else if Z.eqb k 0 then Fin c
  else if Rlt_dec 0 c then PInf else if Rlt_dec c 0 then NInf else Fin 0.
