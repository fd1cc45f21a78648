(** Property C03. *)
From Coq Require Import Reals List String Bool ZArith Lra.
From Coquelicot Require Import Coquelicot.
From Verif Require Import Model_Base Model_Symbolic Spec_Symbolic Proofs_Symbolic.
Import ListNotations.
Open Scope R_scope.

(** Multiplication adds the orders and multiplies the coefficients, whatever
    the nesting of the symbols; it fails only if the ordinary product does. *)
Theorem symbolic_mul :
  forall (a b : num) (r : leaf),
    leaf_mul (coefficient a) (coefficient b) = Ok r ->
    exists c, num_mul a b = Ok c /\ order c = (order a + order b)%Z /\ coefficient c = r.
Proof. exact num_mul_correct. Qed.
Print Assumptions symbolic_mul.

(** Division subtracts the orders and divides the coefficients. *)
Theorem symbolic_div :
  forall (a b : num) (r : leaf),
    limits_only b = true ->
    leaf_div (coefficient a) (coefficient b) = Ok r ->
    exists c, num_div a b = Ok c /\ order c = (order a - order b)%Z /\ coefficient c = r.
Proof. exact num_div_correct. Qed.
Print Assumptions symbolic_div.

(** [(0*6) / (0*(0*2))] has order [-1] and coefficient [3]. *)
Example symbolic_div_ex :
  let a := Sym SZero (Fl (Scal (Fin 6))) in
  let b := Sym SZero (Sym SZero (Fl (Scal (Fin 2)))) in
  exists c, num_div a b = Ok c /\ order c = (-1)%Z /\ coefficient c = Scal (Fin 3).
Proof.
  intros a b. apply (symbolic_div a b); [reflexivity|]. cbn.
  destruct (Req_EM_T 2 0); [lra|]. cbn. replace (6 / 2) with 3 by lra. reflexivity.
Qed.

(** Conversion to float (hence comparisons) gives the limit of
    [coefficient * eps ^ order], when the symbols are all of the same kind. *)
Theorem symbolic_float_zero :
  forall (a : num) (c : R),
    all_symbols SZero a = true -> coefficient a = Scal (Fin c) ->
    num_float a = Ok (limit_value c (order a)).
Proof. exact num_float_zero. Qed.
Print Assumptions symbolic_float_zero.
Theorem symbolic_float_inf :
  forall (a : num) (c : R),
    all_symbols SInf a = true -> coefficient a = Scal (Fin c) -> c <> 0 ->
    num_float a = Ok (limit_value c (order a)).
Proof. exact num_float_inf. Qed.
Print Assumptions symbolic_float_inf.
Theorem limit_value_is_limit :
  forall (c : R) (k : Z), c <> 0 ->
    exists l : Rbar, ext_of_Rbar l = limit_value c k
      /\ filterlim (fun eps => c * powerRZ eps k) (at_right 0) (Rbar_locally l).
Proof. exact limit_value_correct. Qed.
Print Assumptions limit_value_is_limit.

Example symbolic_float_ex :
  num_float (Sym SInf (Sym SInf (Fl (Scal (Fin (-3)))))) = Ok NInf.
Proof.
  rewrite (symbolic_float_inf _ (-3)); [|reflexivity|reflexivity|lra]. unfold limit_value. cbn.
  destruct (Rlt_dec 0 (-3)); [lra|]. destruct (Rlt_dec (-3) 0); [reflexivity|lra].
Qed.

(** What fails: mixing the two symbols gives a nan instead of the limit. *)
Theorem symbolic_float_mixed_refuted :
  exists a c, limits_only a = true /\ coefficient a = Scal (Fin c) /\ c <> 0
    /\ num_float a = Ok NaN /\ limit_value c (order a) = Fin c.
Proof.
  exists (Sym SZero (Sym SInf (Fl (Scal (Fin 1))))), 1.
  exact (conj eq_refl (conj eq_refl (conj R1_neq_R0 sym_mixed_nan))).
Qed.
Print Assumptions symbolic_float_mixed_refuted.

(** What fails: two symbolic numbers may be equal with different hash keys. *)
Theorem symbolic_hash_refuted :
  exists a b, num_eqb a b = Ok true /\ num_hash a <> num_hash b.
Proof. exact (ex_intro _ _ (ex_intro _ _ sym_hash_clash)). Qed.
Print Assumptions symbolic_hash_refuted.

(** What fails: adding an infinite array forgets the signs of its entries,
    unlike the same addition on scalars. *)
Theorem symbolic_array_sign_refuted :
  exists x, num_add (Sym SInf (Fl (Arr [Fin x]))) (Fl (Scal (Fin 0))) = Ok (Arr [PInf])
    /\ num_add (Sym SInf (Fl (Scal (Fin x)))) (Fl (Scal (Fin 0))) = Ok (Scal NInf).
Proof. exact (ex_intro _ (-1) sym_array_sign). Qed.
Print Assumptions symbolic_array_sign_refuted.
