(** Proofs about the matrices of [Delhommeau.evaluate] without wave part: the velocities are the gradients of the potentials. *)
From Coq Require Import Reals.
From Coquelicot Require Import Coquelicot.
From Coq Require Import List Bool Arith Lra Lia.
From Verif Require Import Model_Base Model_Geometry Model_Mesh Proofs_Problem Proofs_Geometry Model_Assembly Spec_Assembly Proofs_Assembly5
  Model_Rankine Model_Wave Proofs_Green2 Proofs_Green4 Spec_Rankine Spec_Boundary Proofs_Rankine2 Proofs_Rankine3.
Import ListNotations.
Open Scope R_scope.

Lemma gradient_scaled (f : vec -> R) M g c : gradient_at f M g -> gradient_at (fun P => c * f P) M (vscale c g).
Proof.
  intros G u. replace (dot (vscale c g) u) with (c * dot g u) by (unfold dot, vscale; cbn; ring).
  exact (is_derive_scal (fun t => f (vadd M (vscale t u))) 0 c (dot g u) (G u)).
Qed.
Lemma gradient_plus (f f' : vec -> R) M g g' : gradient_at f M g -> gradient_at f' M g' -> gradient_at (fun P => f P + f' P) M (vadd g g').
Proof.
  intros G G' u. replace (dot (vadd g g') u) with (dot g u + dot g' u) by (unfold dot, vadd; cbn; ring).
  exact (is_derive_plus (fun t => f (vadd M (vscale t u))) (fun t => f' (vadd M (vscale t u))) 0 _ _ (G u) (G' u)).
Qed.
Lemma gradient_ext (f f' : vec -> R) M g : (forall P, f P = f' P) -> gradient_at f M g -> gradient_at f' M g.
Proof. intros E G u. apply (is_derive_ext (fun t => f (vadd M (vscale t u)))); [intros t; apply E|apply G]. Qed.

Section Limits.
  Variable elementary : R -> R -> integrals.
  Variable decomposition : R -> list (R * R).
  Variable prony : ext -> result unit.
  Notation w := (wave_part elementary decomposition).
  Notation evaluate_with := (evaluate_with rankine_of reflected_of one_point_of w prony).
  Variables (regs : list registers) (s0 : nat -> nat -> C) (k0 : nat -> nat -> list num) (s : settings) (no_surface : bool) (h k : ext) (q : source_panel).
  Hypothesis N : regs <> [].
  Hypothesis U : gf_singularities s <> LowFreqWithRankine \/ exists y, k = Fin y.
  Hypothesis Limit : no_surface = true \/ (h = PInf /\ (k = Fin 0 \/ k = PInf)).
  Hypothesis Rp : 0 <= p_radius (sp_props q).

  Lemma limit_coeffs : exists ci pr, choose_coeffs s no_surface h k = Ok ((1, ci, 0), pr) /\ (ci = 0 \/ h = PInf).
  Proof.
    unfold choose_coeffs. destruct no_surface; [exists 0, false; split; [reflexivity|now left]|].
    destruct Limit as [E|(-> & [-> | ->])]; [discriminate| |].
    - exists 1, false. unfold ext_eqb. rewrite Reqb_refl. split; [reflexivity|now right].
    - exists (-1), false. split; [reflexivity|now right].
  Qed.
  (** The values and the gradients of the source and of its image. *)
  Definition value ci x := scale4pi * (fst (rankine true x (sp_corners q) (sp_props q)) + ci * fst (reflected_rankine true (-1, 0) x (sp_corners q) (sp_props q))).
  Definition slope ci x := vscale scale4pi (vadd (snd (rankine true x (sp_corners q) (sp_props q))) (vscale ci (snd (reflected_rankine true (-1, 0) x (sp_corners q) (sp_props q))))).
  Lemma limit_entries : exists ci, forall x schedule Sm Km, evaluate_with regs schedule s0 k0 s no_surface h k true false (OnPoints [x]) [q] = Ok (Some (Sm, Km)) ->
    Sm 0%nat 0%nat = RtoC (value ci x) /\ Km 0%nat 0%nat = [Some (RtoC (vx (slope ci x))); Some (RtoC (vy (slope ci x))); Some (RtoC (vz (slope ci x)))].
  Proof.
    destruct limit_coeffs as (ci & pr & Ec & Hc). exists ci. intros x schedule Sm Km Run.
    destruct (evaluated_entries elementary decomposition prony _ _ _ _ _ _ _ _ _ _ _ _ _ _ Run N U) as (cs & pr' & Ec' & _ & X). cbv zeta in X.
    rewrite Ec in Ec'. injection Ec' as <- <-. destruct (X 0%nat 0%nat ltac:(cbn; lia) ltac:(cbn; lia)) as (X1 & X2). rewrite X1, X2.
    set (a := arguments _ _ _ _ _ _ _ _ _ _).
    assert (Im : exists r, ci * Rsum (map fst (images reflected_of one_point_of a x q)) = ci * fst r /\ vscale ci (vsum (map snd (images reflected_of one_point_of a x q))) = vscale ci (snd r)
      /\ r = reflected_rankine true (-1, 0) x (sp_corners q) (sp_props q)).
    { eexists. split; [|split; [|reflexivity]].
      - destruct Hc as [->|Hh]; [ring|]. unfold images, first_image. cbn [depth a arguments]. rewrite Hh. cbn [map]. unfold Rsum. cbn [fold_right]. unfold reflected_of. cbn [adjoint a arguments finite_depth]. destruct (gf_finite_depth s); ring.
      - destruct Hc as [->|Hh]; [unfold vscale; f_equal; ring|]. unfold images, first_image. cbn [depth a arguments]. rewrite Hh. cbn [map]. unfold vsum. cbn [fold_right]. unfold reflected_of. cbn [adjoint a arguments finite_depth].
        destruct (gf_finite_depth s); unfold vscale, vadd, v0; cbn [vx vy vz]; f_equal; ring. }
    destruct Im as (r & I1 & I2 & Er). split.
    - unfold S_entry. change (points_1 a 0%nat) with x. change (panels_2 a 0%nat) with q. change (c_images a) with ci. change (c_source a) with 1. change (c_wave a) with 0. rewrite I1, Er. unfold value, rankine_of. change (adjoint a) with true.
      apply injective_projections; cbn; ring.
    - unfold K_entry. change (early_dot a) with false. cbv iota. cbn [map].
      assert (G : gradient_entry rankine_of reflected_of one_point_of w a 0 0 = real3 (slope ci x)).
      { unfold gradient_entry. change (points_1 a 0%nat) with x. change (panels_2 a 0%nat) with q. change (c_images a) with ci. change (c_source a) with 1. change (c_wave a) with 0. rewrite I2, Er.
        assert (J : jump_entry a 0 0 = zero3) by reflexivity. rewrite J. unfold slope, rankine_of. change (adjoint a) with true.
        destruct (extra_entry reflected_of one_point_of a x q) as [[e1 e2] e3]. destruct (snd (waves w a x q)) as [[w1 w2] w3]. 
        unfold plus3, times3, real3, zero3. cbn [fst snd]. unfold vadd, vscale. cbn [vx vy vz].
        f_equal; [f_equal|]; apply injective_projections; cbn; ring. }
      rewrite G. reflexivity.
  Qed.
  Lemma limit_gradient : exists f, forall x schedule Sm Km, evaluate_with regs schedule s0 k0 s no_surface h k true false (OnPoints [x]) [q] = Ok (Some (Sm, Km)) ->
    Sm 0%nat 0%nat = RtoC (f x) /\ (regular_point x (sp_corners q) (sp_props q) -> regular_point (above x) (sp_corners q) (sp_props q) ->
      exists g, Km 0%nat 0%nat = [Some (RtoC (vx g)); Some (RtoC (vy g)); Some (RtoC (vz g))] /\ gradient_at f x g).
  Proof.
    destruct limit_entries as (ci & X). exists (value ci). intros x schedule Sm Km Run. destruct (X x schedule Sm Km Run) as (X1 & X2). split; [exact X1|]. intros G1 G2.
    exists (slope ci x). split; [exact X2|]. unfold slope. apply gradient_scaled, gradient_plus; [now apply rankine_gradient|]. apply gradient_scaled, reflected_first_gradient; [exact Rp|].
    replace (image_point (-1, 0) x) with (above x) by (unfold image_point, above; cbn [fst snd]; f_equal; ring). exact G2.
  Qed.
End Limits.

(** A call that returns. *)
Lemma run_limit elementary decomposition prony s no_surface h k e m1 ps2 : limit_sign no_surface h k e -> m1 <> Unrecognized -> allowed_panels s ps2 -> known_precision s = true ->
  (gf_singularities s <> LowFreqWithRankine \/ exists x, k = Fin x) -> forall adj early,
  exists schedule Sm Km, evaluate_with rankine_of reflected_of one_point_of (wave_part elementary decomposition) prony [Registers Ci (None, None, None) 0 v0 0 Ci (Ci, Ci, Ci)] schedule
    (fun _ _ => Ci) (fun _ _ => []) s no_surface h k adj early m1 ps2 = Ok (Some (Sm, Km)).
Proof.
  intros L M A Kp U adj early. set (regs := [Registers Ci (None, None, None) 0 v0 0 Ci (Ci, Ci, Ci)]).
  destruct (call_finishes rankine_of reflected_of one_point_of (wave_part elementary decomposition) prony regs (fun _ _ => Ci) (fun _ _ => []) s no_surface h k adj early m1 ps2) as (n & Hn).
  exists (repeat (0%nat, 0%nat) (S n)).
  assert (T : forall t, (t < length regs)%nat -> (n < turns_of t (repeat (0%nat, 0%nat) (S n)))%nat).
  { intros t Ht. assert (t = 0%nat) by (cbn in Ht; lia). subst t. unfold turns_of. clear. assert (X : forall k, length (filter (fun e => fst e =? 0)%nat (repeat (0%nat, 0%nat) k)) = k).
    { induction k; [reflexivity|]. cbn. now rewrite IHk. } rewrite X. lia. }
  specialize (Hn _ T).
  destruct (limits rankine_of reflected_of one_point_of (wave_part elementary decomposition) prony regs (repeat (0%nat, 0%nat) (S n)) (fun _ _ => Ci) (fun _ _ => [])
    s no_surface h k adj early m1 ps2 e L M A Kp U ltac:(discriminate) Hn) as (Sm & Km & X & _). now exists Sm, Km.
Qed.
