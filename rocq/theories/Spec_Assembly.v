(** Vocabulary of the properties of the assembly of the influence matrices. *)
From Coq Require Import Reals.
From Coquelicot Require Import Complex.
From Coq Require Import List Bool Arith.
From Verif Require Import Model_Base Model_Mesh Model_Assembly.
Import ListNotations.
Open Scope R_scope.

Definition C3 := (C * C * C)%type.
Definition plus3 (a b : C3) : C3 := (Cplus (fst (fst a)) (fst (fst b)), Cplus (snd (fst a)) (snd (fst b)), Cplus (snd a) (snd b)).
Definition times3 (k : R) (a : C3) : C3 := (Cmult (RtoC k) (fst (fst a)), Cmult (RtoC k) (snd (fst a)), Cmult (RtoC k) (snd a)).
Definition real3 (v : vec) : C3 := (RtoC (vx v), RtoC (vy v), RtoC (vz v)).
Definition zero3 : C3 := (RtoC 0, RtoC 0, RtoC 0).
(** The product of a complex vector by a normal vector. *)
Definition along (n : vec) (a : C3) : C :=
  Cplus (Cplus (Cmult (RtoC (vx n)) (fst (fst a))) (Cmult (RtoC (vy n)) (snd (fst a)))) (Cmult (RtoC (vz n)) (snd a)).

Section Entries.
  Variable rankine : bool -> vec -> source_panel -> R * vec.
  Variable reflected : bool -> (R * R) -> vec -> source_panel -> R * vec.
  Variable one_point : bool -> (R * R) -> vec -> source_panel -> R * vec.
  Variable wave_part : singularities -> depth_method -> ext -> ext -> bool -> vec -> source_panel -> C * (C * C * C).
  Variable a : inputs.

  (** The images of the source: its reflection by the free surface, and in finite depth four other images. *)
  Definition first_image (p : vec) (q : source_panel) : R * vec :=
    match depth a, finite_depth a with
    | Fin _, LegacyDepth => one_point (adjoint a) (-1, 0) p q
    | _, _ => reflected (adjoint a) (-1, 0) p q
    end.
  Definition images (p : vec) (q : source_panel) : list (R * vec) :=
    match depth a with
    | Fin h => [ first_image p q; reflected (adjoint a) (-1, -2 * h) p q; one_point (adjoint a) (1, -2 * h) p q;
                 one_point (adjoint a) (1, 2 * h) p q; one_point (adjoint a) (-1, -4 * h) p q ]
    | _ => [ first_image p q ]
    end.
  Definition c_source := fst (fst (coeffs3 a)).
  Definition c_images := snd (fst (coeffs3 a)).
  Definition c_wave := snd (coeffs3 a).
  Definition waves (p : vec) (q : source_panel) := wave_part (singular a) (finite_depth a) (wavenumber a) (depth a) (adjoint a) p q.
  Definition scale4pi : R := / (-4 * fortran_pi).

  (** The integral of the Green function over the panel j, seen from the point i. *)
  Definition S_entry (i j : nat) : C :=
    let p := points_1 a i in let q := panels_2 a j in
    Cmult (RtoC scale4pi)
      (Cplus (RtoC (c_source * fst (rankine (adjoint a) p q) + c_images * Rsum (map fst (images p q))))
             (Cmult (RtoC c_wave) (fst (waves p q)))).
  (** The jump of the gradient on a panel seen from its own centre. *)
  Definition jump_entry (i j : nat) : C3 :=
    if Nat.eqb i j && same_body a then
      times3 (if Rltb (Rabs (vz (p_center (sp_props (panels_2 a j))))) (/ 100000000) then 1 else 1 / 2) (real3 (dot_normals a (if adjoint a then i else j)))
    else zero3.
  (** The term integrated exactly by the variant [low_freq_with_rankine_part], for a finite wavenumber. *)
  Definition extra_entry (p : vec) (q : source_panel) : C3 :=
    match singular a, wavenumber a with
    | LowFreqWithRankine, Fin k => (RtoC 0, RtoC 0, RtoC (2 * k * fst (first_image p q)))
    | _, _ => zero3
    end.
  (** The integral of the gradient of the Green function over the panel j, seen from the point i. *)
  Definition gradient_entry (i j : nat) : C3 :=
    let p := points_1 a i in let q := panels_2 a j in
    plus3 (jump_entry i j)
      (times3 scale4pi
        (plus3 (real3 (vadd (vscale c_source (snd (rankine (adjoint a) p q))) (vscale c_images (vsum (map snd (images p q))))))
               (times3 c_wave (plus3 (extra_entry p q) (snd (waves p q)))))).
  Definition K_entry (i j : nat) : list C :=
    if early_dot a then [along (dot_normals a (if adjoint a then i else j)) (gradient_entry i j)]
    else [fst (fst (gradient_entry i j)); snd (fst (gradient_entry i j)); snd (gradient_entry i j)].
  (** The wavenumber can be used by the assembly: infinite wavenumbers are multiplied by zero in a variant. *)
  Definition usable_wavenumber : Prop := singular a <> LowFreqWithRankine \/ exists k, wavenumber a = Fin k.
End Entries.

(** All the threads have finished. *)
Definition all_finished (st : machine) : Prop := Forall (fun t => snd t = Finished) (threads st).
(** The pairs (i, j) of the matrices. *)
Definition all_entries (n1 n2 : nat) : list (nat * nat) := list_prod (seq 0 n1) (seq 0 n2).
(** How many times the schedule lets the thread t make a step. *)
Definition turns_of (t : nat) (schedule : list (nat * nat)) : nat := length (filter (fun e => Nat.eqb (fst e) t) schedule).
(** The panels can be used with the singularities of the setting: panels on the free surface need [low_freq]. *)
Definition allowed_panels (s : settings) (ps : list source_panel) : Prop :=
  gf_singularities s = LowFreq \/ forall q, In q ps -> (/ 1000000 <= Rabs (vz (p_center (sp_props q))))%R.
(** The points where the matrices are evaluated, and the normal vectors given for the early dot product. *)
Definition points_of (m1 : receiver) : list vec :=
  match m1 with OnMesh ps _ => map p_center ps | OnPoints ps => ps | Unrecognized => [] end.
Definition normals_of (m1 : receiver) (ps2 : list source_panel) (adj : bool) : list vec :=
  if adj then match m1 with OnMesh ps _ => map p_normal ps | OnPoints ps => map (fun _ => v0) ps | Unrecognized => [] end
  else map (fun q => p_normal (sp_props q)) ps2.
(** The sign of the image of the source by the free surface at the limits of the frequency, or without free surface. *)
Inductive limit_sign : bool -> ext -> ext -> R -> Prop :=
| no_free_surface h k : limit_sign true h k 0
| zero_frequency : limit_sign false PInf (Fin 0) 1
| infinite_frequency : limit_sign false PInf PInf (-1).
