(** The value of an entry: one iteration executed by one thread. *)
From Coq Require Import Reals.
From Coquelicot Require Import Complex.
From Coq Require Import List Bool Arith Lia Lra.
From Verif Require Import Model_Base Model_Mesh Model_Assembly Spec_Assembly Proofs_Geometry Proofs_Problem Proofs_Integrals.
Import ListNotations.
Open Scope nat_scope.

Fixpoint exec (l : list statement) (r : registers) : registers :=
  match l with [] => r | Compute f :: l' => exec l' (f r) | _ :: l' => exec l' r end.
Lemma exec_app l l' r : exec (l ++ l') r = exec l' (exec l r).
Proof. revert r. induction l as [|[f|i j f|i j f] l IH]; intros r; cbn; auto. Qed.

Lemma n3_add_assoc a b c : n3_add (n3_add a b) c = n3_add a (n3_add b c).
Proof.
  destruct a as [[a1 a2] a3], b as [[b1 b2] b3], c as [[c1 c2] c3].
  assert (K : forall x y z, nadd (nadd x y) z = nadd x (nadd y z)) by (intros [x|] [y|] [z|]; cbn; try reflexivity; now rewrite Cplus_assoc).
  cbn. now rewrite !K.
Qed.
Lemma n3_add_zero a : n3_add n3_zero a = a.
Proof. destruct a as [[a1 a2] a3]. cbn. destruct a1, a2, a3; cbn; rewrite ?Cplus_0_l; reflexivity. Qed.
Lemma n3_zero_add a : n3_add a n3_zero = a.
Proof. destruct a as [[a1 a2] a3]. cbn. destruct a1, a2, a3; cbn; rewrite ?Cplus_0_r; reflexivity. Qed.

(** A stage adds something to the two accumulators, whatever the registers. *)
Definition adds (l : list statement) (dG : C) (dN : num3) : Prop :=
  forall r, int_G (exec l r) = Cplus (int_G r) dG /\ int_nablaG (exec l r) = n3_add (int_nablaG r) dN.
Lemma adds_nil : adds [] (RtoC 0) n3_zero.
Proof. intros r. cbn. now rewrite Cplus_0_r, n3_zero_add. Qed.
Lemma adds_app l l' g n g' n' : adds l g n -> adds l' g' n' -> adds (l ++ l') (Cplus g g') (n3_add n n').
Proof.
  intros H H' r. rewrite exec_app. destruct (H r) as (A & B), (H' (exec l r)) as (A' & B'). rewrite A', B', A, B, n3_add_assoc. split; [now rewrite Cplus_assoc|reflexivity].
Qed.

Section Stages.
  Variable rankine : bool -> vec -> source_panel -> R * vec.
  Variable reflected : bool -> (R * R) -> vec -> source_panel -> R * vec.
  Variable one_point : bool -> (R * R) -> vec -> source_panel -> R * vec.
  Variable wave_part : singularities -> depth_method -> ext -> ext -> bool -> vec -> source_panel -> C * (C * C * C).
  Variable a : inputs.
  Notation coef := (coef a).

  Lemma rankine_stage k x : adds (Compute (set_Rankine x) :: add_rankine a k) (RtoC (coef k * fst x)) (n3_scale (coef k) (n3_of (snd x))).
  Proof. intros r. split; reflexivity. Qed.
  Lemma diagonal_stage i j : adds (diagonal_statements a i j) (RtoC 0) (n3_ofC (jump_entry a i j)).
  Proof.
    unfold diagonal_statements, jump_entry. destruct (Nat.eqb i j && same_body a); [|exact adds_nil]. intros r. cbn [exec set_diagonal set_nablaG int_G int_nablaG].
    rewrite Cplus_0_r. split; reflexivity.
  Qed.
  Lemma wave_stage i j : adds (wave_statements wave_part a i j) (Cmult (RtoC (coef 2)) (fst (waves wave_part a (points_1 a i) (panels_2 a j))))
    (n3_scale (coef 2) (n3_ofC (snd (waves wave_part a (points_1 a i) (panels_2 a j))))).
  Proof.
    unfold wave_statements, waves, nonzero. destruct (Reqb (coef 2) 0) eqn:Z; cbn [negb].
    - apply Reqb_true in Z. rewrite Z. intros r. cbn [exec]. destruct (wave_part _ _ _ _ _ _ _) as [g [[x y] z]]. cbn [fst snd n3_ofC n3_scale nscale].
      split; [ring|]. rewrite <- (n3_zero_add (int_nablaG r)) at 1. f_equal. unfold n3_zero. repeat f_equal; ring.
    - intros r. split; reflexivity.
  Qed.
  Lemma source_stage i j : adds (rankine_statements rankine a i j) (RtoC (coef 0 * fst (rankine (adjoint a) (points_1 a i) (panels_2 a j))))
    (n3_scale (coef 0) (n3_of (snd (rankine (adjoint a) (points_1 a i) (panels_2 a j))))).
  Proof.
    unfold rankine_statements, nonzero. destruct (Reqb (coef 0) 0) eqn:Z; cbn [negb]; [|apply rankine_stage]. apply Reqb_true in Z. rewrite Z.
    intros r. cbn [exec]. destruct (rankine _ _ _) as [g [x y z]]. cbn [fst snd n3_of n3_scale nscale vx vy vz].
    split; [rewrite Rmult_0_l; ring|]. rewrite <- (n3_zero_add (int_nablaG r)) at 1. f_equal. unfold n3_zero. repeat f_equal; ring.
  Qed.
  Lemma third_stage x : adds (Compute (set_Rankine x) :: add_rankine a 1 ++ [Compute (fun r => set_nablaG (add_third (rankine_derivative a r) (int_nablaG r)) r)])
    (RtoC (coef 1 * fst x)) (n3_add (n3_scale (coef 1) (n3_of (snd x))) (Some (RtoC 0), Some (RtoC 0), match wavenumber a with Fin k => Some (RtoC (coef 2 * 2 * k * fst x)) | _ => None end)).
  Proof.
    intros r. split; [reflexivity|]. cbn [exec app add_rankine set_Rankine set_G set_nablaG int_G int_nablaG int_G_Rankine int_nablaG_Rankine rankine_derivative].
    rewrite <- n3_add_assoc. set (u := n3_add (int_nablaG r) _). destruct u as [[u1 u2] u3]. unfold rankine_derivative. cbn [int_G_Rankine add_third n3_add].
    destruct u1, u2; cbn [nadd]; rewrite ?Cplus_0_r; reflexivity.
  Qed.
  (** The images of the source. *)
  Definition third (x : R * vec) : num3 :=
    match singular a with
    | LowFreqWithRankine => (Some (RtoC 0), Some (RtoC 0), match wavenumber a with Fin k => Some (RtoC (coef 2 * 2 * k * fst x)) | _ => None end)
    | _ => n3_zero
    end.
  Definition sumN (l : list num3) : num3 := fold_right n3_add n3_zero l.
  Lemma image_stage i j : let im := images reflected one_point a (points_1 a i) (panels_2 a j) in let x := first_image reflected one_point a (points_1 a i) (panels_2 a j) in
    nonzero (coef 1) = true \/ low_freq_rankine a && nonzero (coef 2) = true ->
    adds (reflected_statements reflected one_point a i j) (RtoC (coef 1 * Rsum (map fst im)))
      (n3_add (n3_add (n3_scale (coef 1) (n3_of (snd x))) (third x)) (sumN (map (fun y => n3_scale (coef 1) (n3_of (snd y))) (tl im)))).
  Proof.
    intros im x H. unfold reflected_statements. rewrite (proj2 (orb_true_iff _ _) H).
    replace (if negb (infinite (depth a)) && legacy a then one_point (adjoint a) (-1, 0)%R (points_1 a i) (panels_2 a j) else reflected (adjoint a) (-1, 0)%R (points_1 a i) (panels_2 a j)) with x
      by (unfold x, first_image, legacy; destruct (depth a), (finite_depth a); reflexivity).
    assert (A1 : adds (Compute (set_Rankine x) :: add_rankine a 1 ++ (if low_freq_rankine a then [Compute (fun r => set_nablaG (add_third (rankine_derivative a r) (int_nablaG r)) r)] else []))
      (RtoC (coef 1 * fst x)) (n3_add (n3_scale (coef 1) (n3_of (snd x))) (third x))).
    { unfold low_freq_rankine, third. destruct (singular a); try (rewrite app_nil_r, n3_zero_add; apply rankine_stage). apply third_stage. }
    rewrite app_comm_cons, app_assoc, <- app_comm_cons. set (l1 := Compute (set_Rankine x) :: _) in *.
    unfold im, images. fold x. destruct (depth a) as [h| | |] eqn:D; cbn [infinite negb].
    2-4: rewrite app_nil_r; cbn [map tl sumN fold_right Rsum]; rewrite n3_zero_add; unfold Rsum; cbn [fold_right]; rewrite Rplus_0_r; exact A1.
    cbn [map tl sumN fold_right]. rewrite n3_zero_add.
    replace (RtoC (coef 1 * Rsum _)) with (Cplus (RtoC (coef 1 * fst x)) (Cplus (RtoC (coef 1 * fst (reflected (adjoint a) (-1, -2 * h)%R (points_1 a i) (panels_2 a j))))
      (Cplus (RtoC (coef 1 * fst (one_point (adjoint a) (1, -2 * h)%R (points_1 a i) (panels_2 a j)))) (Cplus (RtoC (coef 1 * fst (one_point (adjoint a) (1, 2 * h)%R (points_1 a i) (panels_2 a j))))
      (RtoC (coef 1 * fst (one_point (adjoint a) (-1, -4 * h)%R (points_1 a i) (panels_2 a j)))))))).
    2:{ rewrite <- !RtoC_plus. f_equal. unfold Rsum. cbn [map fold_right]. ring. }
    apply adds_app; [exact A1|]. unfold depth_value. rewrite D.
    change (Compute (set_Rankine (reflected (adjoint a) (-1, -2 * h)%R (points_1 a i) (panels_2 a j))) :: add_rankine a 1 ++ ?l)
      with ((Compute (set_Rankine (reflected (adjoint a) (-1, -2 * h)%R (points_1 a i) (panels_2 a j))) :: add_rankine a 1) ++ l).
    apply adds_app; [apply rankine_stage|].
    change (Compute (set_Rankine (one_point (adjoint a) (1, -2 * h)%R (points_1 a i) (panels_2 a j))) :: add_rankine a 1 ++ ?l)
      with ((Compute (set_Rankine (one_point (adjoint a) (1, -2 * h)%R (points_1 a i) (panels_2 a j))) :: add_rankine a 1) ++ l).
    apply adds_app; [apply rankine_stage|].
    change (Compute (set_Rankine (one_point (adjoint a) (1, 2 * h)%R (points_1 a i) (panels_2 a j))) :: add_rankine a 1 ++ ?l)
      with ((Compute (set_Rankine (one_point (adjoint a) (1, 2 * h)%R (points_1 a i) (panels_2 a j))) :: add_rankine a 1) ++ l).
    apply adds_app; [apply rankine_stage|apply rankine_stage].
  Qed.
End Stages.
