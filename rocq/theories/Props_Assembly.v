(** Properties C47, C57 and C58: the assembly of the influence matrices. *)
From Coq Require Import Reals.
From Coquelicot Require Import Complex.
From Coq Require Import List Bool Lra Lia Arith Permutation.
From Verif Require Import Model_Base Model_Mesh Proofs_Problem Proofs_Geometry Proofs_Integrals Model_Assembly Spec_Assembly Proofs_Assembly4 Proofs_Assembly5.
Import ListNotations.
Open Scope nat_scope.

Section Assembly.
  Variable rankine : bool -> vec -> source_panel -> R * vec.
  Variable reflected : bool -> (R * R) -> vec -> source_panel -> R * vec.
  Variable one_point : bool -> (R * R) -> vec -> source_panel -> R * vec.
  Variable wave_part : singularities -> depth_method -> ext -> ext -> bool -> vec -> source_panel -> C * (C * C * C).
  Variable prony : ext -> result unit.
  Notation S_entry := (S_entry rankine reflected one_point wave_part).
  Notation K_entry := (K_entry rankine reflected one_point wave_part).
  Notation gradient_entry := (gradient_entry rankine reflected one_point wave_part).
  Notation execute := (execute rankine reflected one_point wave_part).
  Notation evaluate_with := (evaluate_with rankine reflected one_point wave_part prony).

  (** C47: whatever the number of threads, their interleaving, the distribution of the columns and the contents of the memory
      beforehand, each entry of both matrices is written exactly once, with the value that depends only on its own point and panel,
      and nothing else is written. *)
  Theorem assembly_any_schedule a regs s0 k0 schedule : regs <> [] -> let st := execute a schedule (launch a regs s0 k0) in all_finished st ->
    Permutation (log_S st) (all_entries (nb_1 a) (nb_2 a)) /\ Permutation (log_K st) (all_entries (nb_1 a) (nb_2 a))
    /\ (forall i j, i < nb_1 a -> j < nb_2 a -> matrix_S st i j = S_entry a i j /\ (usable_wavenumber a -> matrix_K st i j = map Some (K_entry a i j)))
    /\ (forall i j, ~ (i < nb_1 a /\ j < nb_2 a) -> matrix_S st i j = s0 i j /\ matrix_K st i j = k0 i j).
  Proof. exact (assembled rankine reflected one_point wave_part a regs s0 k0 schedule). Qed.

  (** C47: two executions give the same matrices. *)
  Theorem assembly_schedules_agree a regs s0 k0 schedule regs' s0' k0' schedule' : regs <> [] -> regs' <> [] -> usable_wavenumber a ->
    let st := execute a schedule (launch a regs s0 k0) in let st' := execute a schedule' (launch a regs' s0' k0') in all_finished st -> all_finished st' ->
    forall i j, i < nb_1 a -> j < nb_2 a -> matrix_S st i j = matrix_S st' i j /\ matrix_K st i j = matrix_K st' i j.
  Proof.
    intros N N' U st st' F1 F2 i j Hi Hj.
    destruct (assembly_any_schedule a regs s0 k0 schedule N F1) as (_ & _ & M & _). destruct (assembly_any_schedule a regs' s0' k0' schedule' N' F2) as (_ & _ & M' & _).
    destruct (M i j Hi Hj) as (A & B). destruct (M' i j Hi Hj) as (A' & B'). split; [exact (eq_trans A (eq_sym A'))|exact (eq_trans (B U) (eq_sym (B' U)))].
  Qed.

  (** C47: every schedule that gives enough turns to each thread finishes. *)
  Theorem assembly_finishes a regs s0 k0 : exists n, forall schedule, (forall t, t < length regs -> n < turns_of t schedule) ->
    all_finished (execute a schedule (launch a regs s0 k0)).
  Proof. exact (enough_turns rankine reflected one_point wave_part a regs s0 k0). Qed.

  (** C47: changing the order of the points and of the panels changes the order of the rows and of the columns.
      [s] and [t] are the new orders; for the influence of a mesh on itself they are the same. *)
  Theorem assembly_permuted_faces a a' s t regs s0 k0 schedule regs' s0' k0' schedule' :
    (forall i, i < nb_1 a' -> s i < nb_1 a) -> (forall j, j < nb_2 a' -> t j < nb_2 a) ->
    (forall i, points_1 a' i = points_1 a (s i)) -> (forall j, panels_2 a' j = panels_2 a (t j)) ->
    (forall i, dot_normals a' i = dot_normals a ((if adjoint a then s else t) i)) ->
    wavenumber a' = wavenumber a -> depth a' = depth a -> coeffs3 a' = coeffs3 a -> finite_depth a' = finite_depth a -> singular a' = singular a ->
    same_body a' = same_body a -> adjoint a' = adjoint a -> early_dot a' = early_dot a ->
    (same_body a = true -> forall i j, s i = t j <-> i = j) ->
    regs <> [] -> regs' <> [] -> usable_wavenumber a ->
    let st := execute a schedule (launch a regs s0 k0) in let st' := execute a' schedule' (launch a' regs' s0' k0') in all_finished st -> all_finished st' ->
    forall i j, i < nb_1 a' -> j < nb_2 a' -> matrix_S st' i j = matrix_S st (s i) (t j) /\ matrix_K st' i j = matrix_K st (s i) (t j).
  Proof.
    intros Ps Pt P1 P2 Pn Ek Eh Ec Ef Es Eb Ea Ee Sb N N' U st st' F1 F2 i j Hi Hj.
    destruct (assembly_any_schedule a regs s0 k0 schedule N F1) as (_ & _ & M & _). destruct (assembly_any_schedule a' regs' s0' k0' schedule' N' F2) as (_ & _ & M' & _).
    destruct (M (s i) (t j) (Ps i Hi) (Pt j Hj)) as (A & B). destruct (M' i j Hi Hj) as (A' & B').
    assert (U' : usable_wavenumber a') by (unfold usable_wavenumber in *; rewrite Ek, Es; exact U).
    destruct (permuted rankine reflected one_point wave_part a a' s t i j P1 P2 Pn Ek Eh Ec Ef Es Eb Ea Ee (fun b => Sb b i j)) as (X & Y).
    split; [exact (eq_trans A' (eq_trans X (eq_sym A)))|]. refine (eq_trans (B' U') (eq_trans _ (eq_sym (B U)))). now rewrite Y.
  Qed.

  (** C58: the matrix with the early dot product is the product of the full gradient with the normal vectors: those of the points
      for the adjoint double layer, those of the panels otherwise. *)
  Theorem early_dot_product_consistent a a' regs s0 k0 schedule regs' s0' k0' schedule' :
    a' = Inputs (points_1 a) (nb_1 a) (panels_2 a) (nb_2 a) (dot_normals a) (wavenumber a) (depth a) (coeffs3 a) (finite_depth a) (singular a) (same_body a) (adjoint a) true ->
    early_dot a = false -> regs <> [] -> regs' <> [] -> usable_wavenumber a ->
    let st := execute a schedule (launch a regs s0 k0) in let st' := execute a' schedule' (launch a' regs' s0' k0') in all_finished st -> all_finished st' ->
    forall i j, i < nb_1 a -> j < nb_2 a -> matrix_S st' i j = matrix_S st i j
    /\ exists x y z, matrix_K st i j = [Some x; Some y; Some z] /\ matrix_K st' i j = [Some (along (dot_normals a (if adjoint a then i else j)) (x, y, z))].
  Proof.
    intros -> Ed N N' U st st' F1 F2 i j Hi Hj.
    destruct (assembly_any_schedule a regs s0 k0 schedule N F1) as (_ & _ & M & _).
    destruct (assembly_any_schedule _ regs' s0' k0' schedule' N' F2) as (_ & _ & M' & _).
    destruct (M i j Hi Hj) as (A & B). destruct (M' i j Hi Hj) as (A' & B'). split; [exact (eq_trans A' (eq_sym A))|].
    specialize (B U). specialize (B' U). unfold Spec_Assembly.K_entry in B. rewrite Ed in B.
    exists (fst (fst (gradient_entry a i j))), (snd (fst (gradient_entry a i j))), (snd (gradient_entry a i j)). split; [exact B|].
    refine (eq_trans B' _). rewrite <- !surjective_pairing. reflexivity.
  Qed.

  (** C57: at zero and infinite frequency, and without free surface, the matrices are those of the source and of its image with the
      right sign; this holds for all the settings except [low_freq_with_rankine_part] at infinite frequency. *)
  Theorem evaluate_limits_partial regs schedule s0 k0 s no_surface h k adj early m1 ps2 e :
    let call := evaluate_with regs schedule s0 k0 s no_surface h k adj early m1 ps2 in
    limit_sign no_surface h k e -> m1 <> Unrecognized -> allowed_panels s ps2 -> known_precision s = true ->
    (gf_singularities s <> LowFreqWithRankine \/ exists x, k = Fin x) -> regs <> [] -> call <> Ok None ->
    exists Sm Km, call = Ok (Some (Sm, Km))
    /\ forall i j p q, nth_error (points_of m1) i = Some p -> nth_error ps2 j = Some q ->
       Sm i j = RtoC (scale4pi * (fst (rankine adj p q) + e * fst (reflected adj (-1, 0) p q)))%R
       /\ forall n, nth_error (normals_of m1 ps2 adj) (if adj then i else j) = Some n ->
          let jump := if Nat.eqb i j && is_own m1 then times3 (if Rltb (Rabs (vz (p_center (sp_props q)))) (/ 100000000) then 1 else 1 / 2) (real3 n) else zero3 in
          let g := plus3 jump (times3 scale4pi (real3 (vadd (snd (rankine adj p q)) (vscale e (snd (reflected adj (-1, 0)%R p q)))))) in
          Km i j = if early then [Some (along n g)] else [Some (fst (fst g)); Some (snd (fst g)); Some (snd g)].
  Proof. exact (limits rankine reflected one_point wave_part prony regs schedule s0 k0 s no_surface h k adj early m1 ps2 e). Qed.

  (** C57 is false for [low_freq_with_rankine_part] at infinite frequency: the call always fails, on any mesh. *)
  Theorem infinite_frequency_refuted regs schedule s0 k0 s adj early m1 ps2 :
    let call := evaluate_with regs schedule s0 k0 s false PInf PInf adj early m1 ps2 in
    gf_singularities s = LowFreqWithRankine -> m1 <> Unrecognized -> allowed_panels s ps2 -> known_precision s = true ->
    points_of m1 <> [] -> ps2 <> [] -> regs <> [] -> call <> Ok None -> call = Err RuntimeError.
  Proof. exact (infinite_fails rankine reflected one_point wave_part prony regs schedule s0 k0 s adj early m1 ps2). Qed.

  (** C47: at the other frequencies, the call returns the entries of the specification or raises one of the documented errors. *)
  Theorem evaluate_outcomes regs schedule s0 k0 s h k adj early m1 ps2 x cs :
    let call := evaluate_with regs schedule s0 k0 s false h k adj early m1 ps2 in
    k = Fin x -> (0 < x)%R -> regs <> [] -> call <> Ok None ->
    (h = PInf \/ exists y, h = Fin y /\ prony (Fin (x * y)) = Ok tt) ->
    cs = (if match h, gf_singularities s with PInf, HighFreq => true | _, _ => false end then (1, -1, 1) else (1, 1, 1))%R ->
    (m1 = Unrecognized /\ call = Err ValueError)
    \/ (m1 <> Unrecognized /\ (~ allowed_panels s ps2 \/ known_precision s = false) /\ call = Err NotImplementedError)
    \/ (m1 <> Unrecognized /\ allowed_panels s ps2 /\ known_precision s = true /\ exists Sm Km, call = Ok (Some (Sm, Km))
        /\ let a := arguments s m1 ps2 cs (points_of m1) (normals_of m1 ps2 adj) h k adj early in
           forall i j, i < length (points_of m1) -> j < length ps2 -> Sm i j = S_entry a i j /\ Km i j = map Some (K_entry a i j)).
  Proof. exact (outcomes rankine reflected one_point wave_part prony regs schedule s0 k0 s h k adj early m1 ps2 x cs). Qed.
  Theorem evaluate_limits_in_finite_depth regs schedule s0 k0 s k adj early m1 ps2 x : k = Fin 0 \/ k = PInf ->
    evaluate_with regs schedule s0 k0 s false (Fin x) k adj early m1 ps2 = Err NotImplementedError.
  Proof. exact (call_zero_depth rankine reflected one_point wave_part prony regs schedule s0 k0 s false (Fin x) k adj early m1 ps2 x eq_refl eq_refl). Qed.

  (** C47: the call finishes when each thread gets enough turns. *)
  Theorem evaluate_finishes regs s0 k0 s no_surface h k adj early m1 ps2 : exists n, forall schedule,
    (forall t, t < length regs -> n < turns_of t schedule) -> evaluate_with regs schedule s0 k0 s no_surface h k adj early m1 ps2 <> Ok None.
  Proof. exact (call_finishes rankine reflected one_point wave_part prony regs s0 k0 s no_surface h k adj early m1 ps2). Qed.

  (** C58 is false for a list of points: no normal vector is known, and the matrix is zero. *)
  Theorem early_dot_product_of_points_refuted regs schedule s0 k0 s no_surface h k xs ps2 Sm Km :
    evaluate_with regs schedule s0 k0 s no_surface h k true true (OnPoints xs) ps2 = Ok (Some (Sm, Km)) -> regs <> [] ->
    (gf_singularities s <> LowFreqWithRankine \/ exists x, k = Fin x) ->
    forall i j, i < length xs -> j < length ps2 -> Km i j = [Some (RtoC 0)].
  Proof. exact (points_zero rankine reflected one_point wave_part prony regs schedule s0 k0 s no_surface h k xs ps2 Sm Km). Qed.
End Assembly.

(** C57: the factor of the matrices is not exactly - 1 / (4 pi), because of the digits of the constant of the Fortran code. *)
Theorem normalisation_error : (2 / 10000000000000 < scale4pi / (- / (4 * PI)) - 1 < 3 / 10000000000000)%R.
Proof. exact scale_error. Qed.

(** Two points and two panels, with recognizable values. *)
Definition ex_rankine (b : bool) (p : vec) (q : source_panel) : R * vec := (vx p + p_area (sp_props q), V 0 0 (if b then 1 else -1))%R.
Definition ex_reflected (b : bool) (c : R * R) (p : vec) (q : source_panel) : R * vec := (fst c * vy p + snd c, V 0 1 0)%R.
Definition ex_wave (s : singularities) (d : depth_method) (k h : ext) (b : bool) (p : vec) (q : source_panel) : C * (C * C * C) := (Ci, (Ci, Ci, RtoC 1)).
Definition ex_panel (x : R) : source_panel := SourcePanel (Q v0 v0 v0 v0) (FProps x (V 0 0 1) (V x 0 (-1)) 1) [].
Definition ex_garbage : registers := Registers Ci (None, Some Ci, None) 17 (V 3 3 3) 5 Ci (Ci, Ci, Ci).
Definition ex_points : receiver := OnPoints [V 1 2 (-3); V 4 5 (-6)].
Definition ex_mesh : receiver := OnMesh [FProps 1 (V 0 0 1) (V 1 0 (-1)) 1; FProps 2 (V 0 0 1) (V 2 0 (-1)) 1] true.
Definition ex_panels := [ex_panel 1; ex_panel 2].
Definition ex_settings (s : singularities) := Settings s LegacyDepth true.
(** The two threads in turn. *)
Fixpoint in_turn (n : nat) : list (nat * nat) := match n with 0 => [] | S n' => (0, 1) :: (1, 0) :: in_turn n' end.
Lemma in_turn_turns n t : t < 2 -> turns_of t (in_turn n) = n.
Proof. intros H. induction n as [|n IH]; [reflexivity|]. destruct t as [|[|t]]; [| |lia]; unfold turns_of in *; cbn in *; now rewrite IH. Qed.
Notation ex_evaluate n s fs h k adj early m := (evaluate_with ex_rankine ex_reflected ex_reflected ex_wave (fun _ => Ok tt) [ex_garbage; ex_garbage] (in_turn n)
  (fun _ _ => Ci) (fun _ _ => [None]) (ex_settings s) fs h k adj early m ex_panels).
Lemma ex_finishes s fs h k adj early m : exists n, ex_evaluate n s fs h k adj early m <> Ok None.
Proof.
  destruct (evaluate_finishes ex_rankine ex_reflected ex_reflected ex_wave (fun _ => Ok tt) [ex_garbage; ex_garbage]
    (fun _ _ => Ci) (fun _ _ => [None]) (ex_settings s) fs h k adj early m ex_panels) as (n & H).
  exists (S n). apply H. intros t Ht. rewrite in_turn_turns by exact Ht. lia.
Qed.
Lemma ex_allowed s : allowed_panels (ex_settings s) ex_panels.
Proof. right. intros q [<-|[<-|[]]]; cbn; rewrite Rabs_left; lra. Qed.

Example assembly_example : exists a regs schedule s0 k0, length regs = 2 /\ nb_1 a = 2 /\ nb_2 a = 2 /\ usable_wavenumber a
  /\ all_finished (execute ex_rankine ex_reflected ex_reflected ex_wave a schedule (launch a regs s0 k0)).
Proof.
  set (a := arguments (ex_settings LowFreqWithRankine) ex_mesh ex_panels (1, 1, 1)%R (points_of ex_mesh) (normals_of ex_mesh ex_panels true) (Fin 10) (Fin 1) true true).
  destruct (assembly_finishes ex_rankine ex_reflected ex_reflected ex_wave a [ex_garbage; ex_garbage] (fun _ _ => Ci) (fun _ _ => [None])) as (n & H).
  exists a, [ex_garbage; ex_garbage], (in_turn (S n)), (fun _ _ => Ci), (fun _ _ => [None]). repeat (split; [reflexivity|]). split.
  - right. exists 1%R. reflexivity.
  - apply H. intros t Ht. rewrite in_turn_turns by exact Ht. lia.
Qed.
(** A finite frequency: the first entry is the sum of the source, its image and the wave part. *)
Example evaluate_example : exists n Sm Km, ex_evaluate n HighFreq false PInf (Fin 1) true true ex_mesh = Ok (Some (Sm, Km))
  /\ Sm 0 1 = Cmult (RtoC scale4pi) (Cplus (RtoC 3) Ci).
Proof.
  destruct (ex_finishes HighFreq false PInf (Fin 1) true true ex_mesh) as (n & Hn). exists n.
  destruct (evaluate_outcomes ex_rankine ex_reflected ex_reflected ex_wave (fun _ => Ok tt) [ex_garbage; ex_garbage] (in_turn n) (fun _ _ => Ci) (fun _ _ => [None])
    (ex_settings HighFreq) PInf (Fin 1) true true ex_mesh ex_panels 1 (1, -1, 1)%R eq_refl Rlt_0_1 ltac:(discriminate) Hn (or_introl eq_refl) eq_refl)
    as [(A & _)|[(_ & [A|A] & _)|(_ & _ & _ & Sm & Km & E & M)]]; [discriminate|now contradiction A; apply ex_allowed|discriminate|].
  exists Sm, Km. split; [exact E|]. destruct (M 0 1) as (A & _); [cbn; lia|cbn; lia|]. rewrite A.
  unfold S_entry, images, first_image, waves, c_source, c_images, c_wave. cbn -[scale4pi]. f_equal. f_equal; [f_equal; ring|]. apply injective_projections; cbn; ring.
Qed.
(** Zero frequency. *)
Example limits_example : exists n Sm Km, ex_evaluate n LowFreqWithRankine false PInf (Fin 0) true false ex_points = Ok (Some (Sm, Km)) /\ Sm 1 0 = RtoC (scale4pi * 0)%R.
Proof.
  destruct (ex_finishes LowFreqWithRankine false PInf (Fin 0) true false ex_points) as (n & Hn). exists n.
  destruct (evaluate_limits_partial ex_rankine ex_reflected ex_reflected ex_wave (fun _ => Ok tt) [ex_garbage; ex_garbage] (in_turn n) (fun _ _ => Ci) (fun _ _ => [None])
    (ex_settings LowFreqWithRankine) false PInf (Fin 0) true false ex_points ex_panels 1 zero_frequency ltac:(discriminate) (ex_allowed _) eq_refl
    (or_intror (ex_intro _ 0%R eq_refl)) ltac:(discriminate) Hn) as (Sm & Km & E & M).
  exists Sm, Km. split; [exact E|]. destruct (M 1 0 (V 4 5 (-6)) (ex_panel 1) eq_refl eq_refl) as (A & _). rewrite A. f_equal. cbn. ring.
Qed.
(** Infinite frequency: two settings. *)
Example infinite_frequency_example : exists n, ex_evaluate n LowFreqWithRankine false PInf PInf true true ex_mesh = Err RuntimeError
  /\ exists n' Sm Km, ex_evaluate n' LowFreq false PInf PInf true true ex_mesh = Ok (Some (Sm, Km)).
Proof.
  destruct (ex_finishes LowFreqWithRankine false PInf PInf true true ex_mesh) as (n & Hn). exists n. split.
  - apply (infinite_frequency_refuted ex_rankine ex_reflected ex_reflected ex_wave (fun _ => Ok tt)); try exact Hn; try reflexivity; try discriminate. apply ex_allowed.
  - destruct (ex_finishes LowFreq false PInf PInf true true ex_mesh) as (n' & Hn'). exists n'.
    assert (Ns : gf_singularities (ex_settings LowFreq) <> LowFreqWithRankine) by discriminate.
    destruct (evaluate_limits_partial ex_rankine ex_reflected ex_reflected ex_wave (fun _ => Ok tt) [ex_garbage; ex_garbage] (in_turn n') (fun _ _ => Ci) (fun _ _ => [None])
      (ex_settings LowFreq) false PInf PInf true true ex_mesh ex_panels (-1)%R infinite_frequency ltac:(discriminate) (ex_allowed _) eq_refl
      (or_introl Ns) ltac:(discriminate) Hn') as (Sm & Km & E & _). exists Sm, Km. exact E.
Qed.
Example points_example : exists n Sm Km, ex_evaluate n LowFreq false PInf (Fin 0) true true ex_points = Ok (Some (Sm, Km)) /\ Km 1 1 = [Some (RtoC 0)]
  /\ exists n' Sm' Km', ex_evaluate n' LowFreq false PInf (Fin 0) true false ex_points = Ok (Some (Sm', Km'))
     /\ Km' 1 1 = map (fun x => Some (RtoC (scale4pi * x)%R)) [0; 1; 1]%R.
Proof.
  destruct (ex_finishes LowFreq false PInf (Fin 0) true true ex_points) as (n & Hn). exists n.
  destruct (evaluate_limits_partial ex_rankine ex_reflected ex_reflected ex_wave (fun _ => Ok tt) [ex_garbage; ex_garbage] (in_turn n) (fun _ _ => Ci) (fun _ _ => [None])
    (ex_settings LowFreq) false PInf (Fin 0) true true ex_points ex_panels 1 zero_frequency ltac:(discriminate) (ex_allowed _) eq_refl
    (or_intror (ex_intro _ 0%R eq_refl)) ltac:(discriminate) Hn) as (Sm & Km & E & _).
  exists Sm, Km. split; [exact E|]. split.
  - refine (early_dot_product_of_points_refuted ex_rankine ex_reflected ex_reflected ex_wave (fun _ => Ok tt) _ _ _ _ _ _ _ _ _ _ _ _ E _ _ 1 1 _ _); [discriminate|left; discriminate|cbn; lia|cbn; lia].
  - destruct (ex_finishes LowFreq false PInf (Fin 0) true false ex_points) as (n' & Hn'). exists n'.
    destruct (evaluate_limits_partial ex_rankine ex_reflected ex_reflected ex_wave (fun _ => Ok tt) [ex_garbage; ex_garbage] (in_turn n') (fun _ _ => Ci) (fun _ _ => [None])
      (ex_settings LowFreq) false PInf (Fin 0) true false ex_points ex_panels 1 zero_frequency ltac:(discriminate) (ex_allowed _) eq_refl
      (or_intror (ex_intro _ 0%R eq_refl)) ltac:(discriminate) Hn') as (Sm' & Km' & E' & M').
    exists Sm', Km'. split; [exact E'|]. destruct (M' 1 1 (V 4 5 (-6)) (ex_panel 2) eq_refl eq_refl) as (_ & A). rewrite (A v0 eq_refl). cbn [Nat.eqb andb is_own ex_points].
    cbn -[scale4pi]. unfold plus3, times3, real3, zero3. cbn -[scale4pi]. 
    assert (X : forall u v w u' v' w' : C, u = u' -> v = v' -> w = w' -> [Some u; Some v; Some w] = [Some u'; Some v'; Some w']) by (intros; congruence).
    apply X; apply injective_projections; cbn -[scale4pi]; ring.
Qed.

Print Assumptions assembly_any_schedule.
Print Assumptions assembly_schedules_agree.
Print Assumptions assembly_finishes.
Print Assumptions assembly_permuted_faces.
Print Assumptions early_dot_product_consistent.
Print Assumptions early_dot_product_of_points_refuted.
Print Assumptions evaluate_limits_partial.
Print Assumptions infinite_frequency_refuted.
Print Assumptions evaluate_outcomes.
Print Assumptions evaluate_limits_in_finite_depth.
Print Assumptions evaluate_finishes.
Print Assumptions normalisation_error.
