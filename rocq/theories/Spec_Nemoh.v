(** What the lines of a Nemoh.cal file mean, and the problems such a file asks for. *)
From Coq Require Import Reals String Ascii.
From Coq Require Import List Bool ZArith Arith.
From Verif Require Import Model_Base Model_Geometry Model_Text Model_Body.
Import ListNotations.
Open Scope nat_scope.

(** A line that begins with some words: what follows is free. *)
Definition begins (ws : list text) (l : text) : Prop := exists rest, split l = ws ++ rest.
Definition is_real (x : R) (w : text) : Prop := float_of w = Ok x.
Definition is_integer (n : Z) (w : text) : Prop := int_of w = Ok n.
Definition is_count (n : nat) (w : text) : Prop := is_integer (Z.of_nat n) w.
Definition counts (n : nat) (l : text) : Prop := exists w, begins [w] l /\ is_count n w.
Definition gives (x : R) (l : text) : Prop := exists w, begins [w] l /\ is_real x w.

(** The line of a degree of freedom, or of a generalised force. *)
Inductive entry := Translation (direction : vec) | Rotation (direction point : vec) | Unknown (kind : Z).
Definition is_vector (v : vec) (x y z : text) : Prop := is_real (vx v) x /\ is_real (vy v) y /\ is_real (vz v) z.
Definition entry_line (e : entry) (l : text) : Prop :=
  match e with
  | Translation v => exists k x y z, begins [k; x; y; z] l /\ is_integer 1 k /\ is_vector v x y z
  | Rotation v p => exists k x y z a b c, begins [k; x; y; z; a; b; c] l /\ is_integer 2 k /\ is_vector v x y z /\ is_vector p a b c
  | Unknown n => n <> 1%Z /\ n <> 2%Z /\ exists k, begins [k] l /\ is_integer n k
  end.

(** The lines about one body. *)
Record section := Section_of { c_file : text; c_dofs : list entry; c_forces : list entry }.
Definition section_lines (c : section) (ls : list text) : Prop :=
  exists title file sizes nb_dofs dofs nb_forces forces nb_more more,
    ls = [title; file; sizes; nb_dofs] ++ dofs ++ [nb_forces] ++ forces ++ [nb_more] ++ more /\
    begins [c_file c] file /\ counts (length dofs) nb_dofs /\ Forall2 entry_line (c_dofs c) dofs /\
    counts (length forces) nb_forces /\ Forall2 entry_line (c_forces c) forces /\ counts (length more) nb_more.

(** A range: a number of values evenly spaced from one end to the other. *)
Record range := Range { r_first : R; r_last : R; r_number : nat }.
Definition range_words (r : range) (n x y : text) : Prop := is_count (r_number r) n /\ is_real (r_first r) x /\ is_real (r_last r) y.
Definition range_line (r : range) (l : text) : Prop := exists n x y, begins [n; x; y] l /\ range_words r n x y.
Definition spaced (r : range) (l : list R) : Prop :=
  length l = r_number r /\
  (forall x, nth_error l 0 = Some x -> x = r_first r) /\
  (forall x, 1 < length l -> nth_error l (length l - 1) = Some x -> x = r_last r) /\
  (exists step, forall k x y, nth_error l k = Some x -> nth_error l (S k) = Some y -> (y - x = step)%R).

(** The line of the frequencies, in one of three units, before a comment. *)
Inductive frequency_unit := RadPerSecond | Hertz | Seconds.
Definition unit_code (u : frequency_unit) : Z := match u with RadPerSecond => 1 | Hertz => 2 | Seconds => 3 end%Z.
Definition no_mark (t : text) : Prop := Forall (fun c => is_char 33 c = false) t.
Definition before_comment (l a : text) : Prop := no_mark a /\ (l = a \/ exists c, l = a ++ lit "!" ++ c).
Definition frequency_line (u : frequency_unit) (r : range) (l : text) : Prop := exists a, before_comment l a /\
  ((u = RadPerSecond /\ exists n x y, split a = [n; x; y] /\ range_words r n x y) \/
   (exists k n x y rest, split a = k :: n :: x :: y :: rest /\ is_integer (unit_code u) k /\ range_words r n x y)).
Definition pulsation (u : frequency_unit) (x : R) : R :=
  match u with RadPerSecond => x | Hertz => 2 * PI * x | Seconds => 2 * PI / x end%R.

(** The file. *)
Record cal := Cal {
  k_rho : R; k_g : R; k_depth : R; k_bodies : list section; k_unit : frequency_unit; k_frequencies : range; k_directions : range }.
Definition heading (c : cal) (ls : list text) : Prop := exists title rho g depth point title2 nb_bodies,
  ls = [title; rho; g; depth; point; title2; nb_bodies] /\
  gives (k_rho c) rho /\ gives (k_g c) g /\ gives (k_depth c) depth /\
  (exists x y a b, begins [x; y] point /\ is_real a x /\ is_real b y) /\ counts (length (k_bodies c)) nb_bodies.
Definition ending (c : cal) (ls : list text) : Prop := exists title frequencies directions title2 irf pressure kochin more r w,
  ls = [title; frequencies; directions; title2; irf; pressure; kochin] ++ more /\
  frequency_line (k_unit c) (k_frequencies c) frequencies /\ range_line (k_directions c) directions /\
  begins [w] pressure /\ range_line r kochin.
Definition cal_lines (c : cal) (ls : list text) : Prop := exists first sections last,
  ls = first ++ concat sections ++ last /\ heading c first /\ Forall2 section_lines (k_bodies c) sections /\ ending c last.

(** The degrees of freedom of a body: the entries of an unknown kind are left out. *)
Definition known (e : entry) : bool := match e with Unknown _ => false | _ => true end.
Definition motion (e : entry) (at_point : vec) : vec :=
  match e with
  | Translation v => v
  | Rotation v p => vscale (/ norm v) (cross v (vsub at_point p))
  | Unknown _ => v0
  end.
Definition dof_name (k : nat) (e : entry) : string :=
  ("dof_" ++ str_nat k ++ match e with Rotation _ _ => "_rotation" | _ => "_translation" end)%string.
Definition numbered_dofs (es : list entry) (centers : list vec) : list (string * list vec) :=
  let l := filter known es in
  map (fun ke => (dof_name (fst ke) (snd ke), map (motion (snd ke)) centers)) (combine (seq 0 (length l)) l).
Definition no_null_axis (es : list entry) : Prop := forall v p, In (Rotation v p) es -> v <> v0.

(** The problems asked for: for each pulsation, the directions then the degrees of freedom. *)
Inductive kind := Diffraction (direction : R) | Radiation (dof : string).
Definition requests (omegas : list R) (directions : list R) (dofs : list string) : list (R * kind) :=
  flat_map (fun w => map (fun d => (w, Diffraction d)) directions ++ map (fun n => (w, Radiation n)) dofs) omegas.
