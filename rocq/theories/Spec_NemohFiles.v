(** The bodies and problems a Nemoh.cal file leads to, and what is asked of a problem to be exported. *)
From Coq Require Import Reals String Ascii.
From Coq Require Import List Bool ZArith Arith.
From Verif Require Import Model_Base Model_Geometry Model_Mesh Model_Tree Model_Text Model_Problem Model_Body.
From Verif Require Import Proofs_Text Spec_Nemoh Model_Nemoh.
Import ListNotations.
Open Scope nat_scope.

(** ** Reading *)

Section Reading.
  Variable argsort : list R -> list nat.
  Variable heal_normals : mesh -> result mesh.
  Variable other_loader : text -> text -> result tree.
  Variable run_python : text -> result fbody.
  (** The body of a section, from the body in its file. *)
  Definition body_of_section (d : disk) (cal : text) (c : section) (b : fbody) : Prop := exists b0 cs,
    load_body argsort heal_normals other_loader run_python d (path_join (dirname cal) (c_file c)) = Ok b0 /\
    fb_dofs b0 = [] /\ fb_centers b0 = Ok cs /\ b = set_dofs b0 (numbered_dofs (c_dofs c) cs).
  (** One body is taken as it is, several are joined. *)
  Definition whole_body (bodies : list fbody) (body : fbody) : Prop :=
    match bodies with
    | [] => False
    | [b] => body = b
    | _ => join_bodies argsort heal_normals bodies None = Ok body
    end.
  Variable problem : Type.
  Variable DiffractionProblem : fbody -> R -> ext -> R -> R -> ext -> result problem.
  Variable RadiationProblem : fbody -> string -> ext -> R -> R -> ext -> result problem.
  (** How each problem is built. *)
  Definition build (body : fbody) (rho g : R) (depth : ext) (q : R * kind) : result problem :=
    match snd q with
    | Diffraction direction => DiffractionProblem body direction (Fin (fst q)) rho g depth
    | Radiation dof => RadiationProblem body dof (Fin (fst q)) rho g depth
    end.
End Reading.
(** A null depth stands for an infinite depth. *)
Definition water_depth (h : R) : ext := if Req_EM_T h 0 then PInf else Fin h.
Definition no_null_period (c : cal) (l : list R) : Prop := k_unit c = Seconds -> ~ In 0%R l.
Definition radians (x : R) : R := (PI / 180 * x)%R.

(** ** Exporting *)

Definition without (is : ascii -> bool) (t : text) : Prop := Forall (fun c => is c = false) t.
(** A path that does not end with a slash. *)
Definition directory_name (d : text) : Prop := forall d' c, d = d' ++ [c] -> slash c = false.
(** The name of a body that makes a file name of one word. *)
Definition plain_name (n : text) : Prop := is_word n /\ without slash n /\ existsb (fun c => negb (dot_char c)) n = true.
(** The range of frequencies that is exported. *)
Definition is_min (x : R) (l : list R) : Prop := In x l /\ forall y, In y l -> (x <= y)%R.
Definition is_max (x : R) (l : list R) : Prop := In x l /\ forall y, In y l -> (y <= x)%R.
Definition exported_range (omega : R) (given : option (list R)) (r : range) : Prop :=
  match given with
  | None => r = Range omega omega 1
  | Some l => r_number r = length l /\ is_min (r_first r) l /\ is_max (r_last r) l
  end.
(** A number that is written in one word without exclamation mark, and read back as it is. *)
Definition printed (show : R -> text) (x : R) : Prop := is_word (show x) /\ no_mark (show x) /\ float_of (show x) = Ok x.
Definition printed_depth (show : R -> text) (h : ext) : Prop :=
  match h with Fin x => printed show x /\ x <> 0%R | PInf => True | _ => False end.
(** A body with one degree of freedom, the one written by the export. *)
Definition heaving (b : fbody) (cs : list vec) : fbody := set_dofs b [("dof_0_translation"%string, map (fun _ => V 0 0 1) cs)].
