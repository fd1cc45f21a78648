(** Model of the text manipulated by io/mesh_writers.py and io/mesh_loaders.py: the formatting of numbers
    ([str.format] and the operator [%]), the splitting of lines, and the conversions [int(...)] and [float(...)].

    A text is a list of characters. Numbers are exact: formatting a number rounds it to the nearest printed decimal (ties
    to even), and [float(...)] returns the printed decimal itself. Simplifications: only ASCII characters; [int(...)] and
    [float(...)] refuse the digit separator [_] and the words [inf] and [nan]. *)
From Coq Require Import Reals String Ascii.
From Coq Require Import List Bool ZArith Arith.
From Flocq Require Import Core.Zaux Core.Raux Core.Generic_fmt.
From Verif Require Import Model_Base.
Import ListNotations.
Open Scope Z_scope.

Definition text := list ascii.
(** The text of a literal. *)
Definition lit (s : string) : text := list_ascii_of_string s.

Definition is_char (n : nat) (c : ascii) : bool := Nat.eqb (nat_of_ascii c) n.
Definition newline : ascii := ascii_of_nat 10.
Definition tab : ascii := ascii_of_nat 9.
Definition space : ascii := ascii_of_nat 32.
Definition text_eqb (a b : text) : bool := if list_eq_dec ascii_dec a b then true else false.

(** ** Lines and words *)

(** [str.isspace] for one character: the characters skipped by [split], [strip] and [lstrip]. *)
Definition blank (c : ascii) : bool :=
  let n := nat_of_ascii c in (Nat.leb 9 n && Nat.leb n 13) || (Nat.leb 28 n && Nat.leb n 32).

(** [f.readlines()]; the successive values of [f.readline()] until the end of the file. Each line keeps its newline. *)
Fixpoint readlines_aux (cur : text) (t : text) : list text :=
  match t with
  | [] => match cur with [] => [] | _ => [rev cur] end
  | c :: t' => if is_char 10 c then rev (c :: cur) :: readlines_aux [] t' else readlines_aux (c :: cur) t'
  end.
Definition readlines (t : text) : list text := readlines_aux [] t.

(** [f.readline()]: the empty text at the end of the file. *)
Definition readline (f : list text) : text * list text :=
  match f with [] => ([], []) | l :: f' => (l, f') end.

(** [line.split()] *)
Fixpoint split_aux (cur : text) (t : text) : list text :=
  match t with
  | [] => match cur with [] => [] | _ => [rev cur] end
  | c :: t' =>
    if blank c then match cur with [] => split_aux [] t' | _ => rev cur :: split_aux [] t' end
    else split_aux (c :: cur) t'
  end.
Definition split (t : text) : list text := split_aux [] t.

(** [line.lstrip()] and [line.strip()] *)
Fixpoint lstrip (t : text) : text :=
  match t with [] => [] | c :: t' => if blank c then lstrip t' else t end.
Definition strip (t : text) : text := rev (lstrip (rev (lstrip t))).

(** [line.startswith(w)] *)
Fixpoint startswith (w t : text) : bool :=
  match w, t with
  | [], _ => true
  | _, [] => false
  | a :: w', c :: t' => if ascii_dec a c then startswith w' t' else false
  end.

(** ['\n'.join(lines)] *)
Fixpoint join_lines (l : list text) : text :=
  match l with [] => [] | [t] => t | t :: l' => t ++ newline :: join_lines l' end.

(** ** Decimal digits *)

Definition digit (d : Z) : ascii := ascii_of_nat (48 + Z.to_nat d).
Definition digit_value (c : ascii) : option Z :=
  let n := nat_of_ascii c in
  if Nat.leb 48 n && Nat.leb n 57 then Some (Z.of_nat n - 48) else None.
Definition is_digit (c : ascii) : bool := match digit_value c with Some _ => true | None => false end.

(** The last [k] digits of [z]. *)
Fixpoint fixed (k : nat) (z : Z) : text :=
  match k with O => [] | S k' => fixed k' (z / 10) ++ [digit (z mod 10)] end.
(** The number of digits of [z], at least one. *)
Fixpoint nb_digits_aux (fuel : nat) (z : Z) : nat :=
  match fuel with
  | O => 1
  | S n => if z <? 10 then 1 else S (nb_digits_aux n (z / 10))
  end.
Definition nb_digits (z : Z) : nat := nb_digits_aux (S (Z.to_nat (Z.log2 z))) z.

(** The decimal writing of a non-negative integer. *)
Definition dec (z : Z) : text := fixed (nb_digits z) z.

(** The value of a sequence of digits. *)
Fixpoint digits_value (acc : Z) (t : text) : option Z :=
  match t with
  | [] => Some acc
  | c :: t' => match digit_value c with Some d => digits_value (10 * acc + d) t' | None => None end
  end.
Definition nat_value (t : text) : option Z :=
  match t with [] => None | _ => digits_value 0 t end.

(** The sign at the beginning of a number. *)
Definition signed (t : text) : bool * text :=
  match t with
  | c :: t' => if is_char 45 c then (true, t') else if is_char 43 c then (false, t') else (false, t)
  | [] => (false, [])
  end.

(** [int(t)] *)
Definition int_of (t : text) : result Z :=
  let '(negative, u) := signed (strip t) in
  match nat_value u with
  | Some z => Ok (if negative then - z else z)
  | None => Err ValueError
  end.

(** ** Floating point numbers *)

Definition radix10 : radix := Build_radix 10 eq_refl.
(** [10 ^ e] *)
Definition pow10 (e : Z) : R := bpow radix10 e.

Fixpoint take_digits (t : text) : text * text :=
  match t with
  | c :: t' => if is_digit c then let '(a, b) := take_digits t' in (c :: a, b) else ([], t)
  | [] => ([], [])
  end.

(** The exponent at the end of a number, zero when absent. *)
Definition exponent_of (t : text) : result Z :=
  match t with
  | [] => Ok 0
  | c :: t' =>
    if is_char 69 c || is_char 101 c then
      let '(negative, u) := signed t' in
      match nat_value u with
      | Some z => Ok (if negative then - z else z)
      | None => Err ValueError
      end
    else Err ValueError
  end.

(** [float(t)] *)
Definition float_of (t : text) : result R :=
  let '(negative, u) := signed (strip t) in
  let '(whole, u1) := take_digits u in
  let '(decimals, u2) :=
    match u1 with
    | c :: r => if is_char 46 c then take_digits r else ([], u1)
    | [] => ([], [])
    end in
  match nat_value (whole ++ decimals) with
  | None => Err ValueError
  | Some m =>
    bind (exponent_of u2) (fun e =>
      Ok (IZR (if negative then - m else m) * pow10 (e - Z.of_nat (length decimals)))%R)
  end.

(** ** Formatting *)

(** Alignment on the right of a column: [%6u], [{:6d}], [{:>5}]... *)
Definition pad (width : nat) (t : text) : text := repeat space (width - length t) ++ t.

(** [{:6d}] and [%6u] for a non-negative integer. *)
Definition fmt_int (width : nat) (z : Z) : text := pad width (dec z).

Definition nearest (x : R) : Z := Znearest (fun n => negb (Z.even n)) x.
Definition sign_text (x : R) : text := if Rltb x 0 then lit "-" else [].

(** [{:16.6f}] *)
Definition fmt_fixed (width : nat) (x : R) : text :=
  let m := nearest (Rabs x * pow10 6) in
  pad width (sign_text x ++ dec (m / 10 ^ 6) ++ lit "." ++ fixed 6 (m mod 10 ^ 6)).

(** [{:16.6E}] and [{:15.6e}]: [letter] is the letter before the exponent. *)
Definition fmt_sci (letter : string) (width : nat) (x : R) : text :=
  let e := if Reqb x 0 then 0 else mag radix10 x - 1 in
  let m := nearest (Rabs x * pow10 (6 - e)) in
  let '(m, e) := if m =? 10 ^ 7 then (10 ^ 6, e + 1) else (m, e) in
  pad width (sign_text x ++ [digit (m / 10 ^ 6)] ++ lit "." ++ fixed 6 (m mod 10 ^ 6) ++ lit letter ++
             (if e <? 0 then lit "-" else lit "+") ++ (if Z.abs e <? 100 then fixed 2 (Z.abs e) else dec (Z.abs e))).
