(** Properties C16 and C17: linear solvers. *)
From Coq Require Import Reals.
From Coquelicot Require Import Complex.
From Coq Require Import List Arith Bool Lia Lra.
From Verif Require Import Model_Base Model_Ring Spec_Ring Proofs_Ring Model_Block Spec_Block Proofs_Block2
  Model_LinSolve Spec_LinSolve Proofs_LinSolve Proofs_LinSolve2 Proofs_LU Proofs_Gauss.
Import ListNotations.
Open Scope nat_scope.

(** ** C16: the direct solver *)
Theorem direct_solver_solution_partial :
  forall (A : coeffs), ring_laws A -> fourier_laws A ->
    forall lapack, exact_solver lapack ->
    forall fuel d (m : mat A) F b x, d < fuel -> wf m -> solve_ready m -> depth_le d m -> height m = width m ->
      represents m F -> solve_directly lapack fuel m (height m) b = Ok x ->
      solution (height m) F x b.
Proof.
  intros A HA HFo lapack Hex fuel d m F b x Hd Hw Hr Hdep Hsq HF.
  exact (proj1 (solve_directly_ok HA HFo lapack Hex fuel d m F b Hd Hw Hr Hdep Hsq HF) x).
Qed.
Print Assumptions direct_solver_solution_partial.
Theorem direct_solver_succeeds_partial :
  forall (A : coeffs), ring_laws A -> fourier_laws A ->
    forall lapack, exact_solver lapack ->
    forall fuel d (m : mat A) F b, d < fuel -> wf m -> solve_ready m -> depth_le d m -> height m = width m ->
      represents m F -> nonsingular (height m) F ->
      exists x, solve_directly lapack fuel m (height m) b = Ok x /\ solution (height m) F x b.
Proof.
  intros A HA HFo lapack Hex fuel d m F b Hd Hw Hr Hdep Hsq HF Hn.
  destruct (solve_directly_ok HA HFo lapack Hex fuel d m F b Hd Hw Hr Hdep Hsq HF) as [H1 H2].
  destruct (H2 Hn) as (x & Ex). exists x. split; [exact Ex|exact (H1 x Ex)].
Qed.
Print Assumptions direct_solver_succeeds_partial.

(** A symmetric 2x2 matrix of circulant matrices of three blocks of size 2, all zero except the diagonal. *)
Definition diag_leaf (x : R) : mat complexes := Dense 2 2 (fun i j => (RtoC (if i =? j then x else 0%R) : complexes)).
Definition circ_diag (x : R) : mat complexes :=
  Blk Circulant 1 3 (fun _ => 2) (fun _ => 2) (fun _ k => diag_leaf (if k =? 0 then x else 0%R)).
Definition sym_diag : mat complexes :=
  Blk SymToeplitz 1 2 (fun _ => 6) (fun _ => 6) (fun _ k => circ_diag (if k =? 0 then 2%R else 0%R)).
Lemma circ_diag_wf x : wf (circ_diag x).
Proof. split; [reflexivity|]. split; [cbn; lia|]. intros k _. split; [exact I|reflexivity]. Qed.
Lemma sym_diag_wf : wf sym_diag.
Proof. split; [reflexivity|]. split; [cbn; lia|]. intros k _. split; [apply circ_diag_wf|reflexivity]. Qed.
Definition twice_identity (i j : nat) : complexes := RtoC (if i =? j then 2%R else 0%R).
Ltac upto := repeat match goal with
  | H : ?k < S _ |- _ => destruct k; [clear H|apply Nat.succ_lt_mono in H]
  | H : ?k < 0 |- _ => inversion H end.
Lemma sym_diag_represents : represents sym_diag twice_identity.
Proof.
  intros I J HI HJ. cbn in HI, HJ. intros I' J' HI' HJ'. cbn in HI', HJ'. intros i j Hi Hj.
  upto; reflexivity.
Qed.
Lemma twice_nonsingular n : nonsingular n twice_identity.
Proof.
  intros x Hx i Hi. specialize (Hx i Hi). unfold times_vec in Hx.
  rewrite (ksum_single complexes complexes_ring n i) in Hx; [|exact Hi|].
  - unfold twice_identity in Hx. rewrite Nat.eqb_refl in Hx.
    destruct (x i) as [a b]. apply (f_equal (fun z => z)) in Hx. cbn in Hx. injection Hx as H1 H2.
    apply injective_projections; cbn; lra.
  - intros j Hj Hne. unfold twice_identity. rewrite (proj2 (Nat.eqb_neq i j)) by congruence.
    apply injective_projections; cbn; ring.
Qed.
Example direct_solver_example :
  exact_solver complex_gauss /\ wf sym_diag /\ solve_ready sym_diag /\ depth_le 2 sym_diag
  /\ height sym_diag = width sym_diag /\ represents sym_diag twice_identity
  /\ nonsingular (height sym_diag) twice_identity.
Proof.
  split; [exact complex_gauss_exact|]. split; [exact sym_diag_wf|]. split.
  { intros _. split; [cbn; repeat split; auto|]. intros k _. split; [intros i j _ _; exact I|].
    split; [left; exists 0; split; [lia|reflexivity]|]. intros i _. split; exact I. }
  split; [intros i j _ _ i' j' _ _; exact I|]. split; [reflexivity|]. split; [exact sym_diag_represents|].
  apply twice_nonsingular.
Qed.
(** Low-rank matrices are refused. *)
Theorem direct_solver_low_rank_refuted :
  forall (A : coeffs) lapack fuel h w r (l rr : nat -> nat -> A) b,
    solve_directly lapack (S fuel) (Low h w r l rr) h b = Err ValueError.
Proof. intros. cbn [solve_directly]. unfold height. cbn [shape fst]. rewrite Nat.eqb_refl. reflexivity. Qed.
Print Assumptions direct_solver_low_rank_refuted.
Theorem direct_solver_wrong_length :
  forall (A : coeffs) lapack fuel (m : mat A) nb b, height m <> nb ->
    solve_directly lapack (S fuel) m nb b = Err AssertionError.
Proof. intros A lapack fuel m nb b H. cbn [solve_directly]. now rewrite (proj2 (Nat.eqb_neq _ _) H). Qed.
Print Assumptions direct_solver_wrong_length.
Example direct_solver_wrong_length_example : height sym_diag <> 11.
Proof. cbn. lia. Qed.

(** ** C17: the LU solver with cache *)
(** Over every careful history the cache cannot be seen. *)
Theorem lu_cache_transparent_partial :
  forall (A : coeffs) lu lu_factor lu_solve fuel (h : @heap A) es,
    careful lu_factor fuel h None es ->
    history lu lu_factor lu_solve fuel h (lu_init lu) es = memoryless_history lu_factor lu_solve fuel h es.
Proof. intros. now apply careful_transparent with (last := None). Qed.
Print Assumptions lu_cache_transparent_partial.
(** Without cache, the solution is exact for dense matrices and (nested) 2x2 symmetric matrices. *)
Theorem lu_solution_partial :
  forall (A : coeffs) lu lu_factor lu_solve, ring_laws A -> fourier_laws A -> exact_lu lu_factor lu_solve ->
    forall fuel d (m : mat A) F b, d < fuel -> wf m -> lu_ready m -> depth_le d m ->
      height m = width m -> represents m F -> nonsingular (height m) F ->
      exists x, memoryless (lu := lu) lu_factor lu_solve fuel m (height m) b = Ok x /\ solution (height m) F x b.
Proof.
  intros A lu lu_factor lu_solve HA HFo Hex fuel d m F b Hd Hw Hr Hdep Hsq HF Hn.
  destruct (lu_decomp_ok lu_factor lu_solve HA HFo Hex fuel d m F Hd Hw Hr Hdep Hsq HF Hn) as (dec & E & H).
  unfold memoryless. rewrite E. eexists. split; [reflexivity|apply H].
Qed.
Print Assumptions lu_solution_partial.
Definition num (x : R) : mat complexes := Dense 1 1 (fun _ _ => (RtoC x : complexes)).
Definition pair_num (x y : R) : mat complexes :=
  Blk SymToeplitz 1 2 (fun _ => 1) (fun _ => 1) (fun _ k => if k =? 0 then num x else num y).
Definition not_decomposable : mat complexes := Blk Plain 1 1 (fun _ => 1) (fun _ => 1) (fun _ _ => num 2).
Definition some_matrices : @heap complexes :=
  fun r => if r =? 0 then num 1 else if r =? 1 then not_decomposable else pair_num 2 0.
Definition one_vec (i : nat) : complexes := RtoC 1.
Example lu_example :
  careful complex_lu_factor 5 some_matrices None
    [Solve 0 1 one_vec; Solve 0 1 one_vec; Solve 1 1 one_vec; Solve 2 2 one_vec; Mutate 0 (num 3); Solve 2 2 one_vec; Solve 0 1 one_vec]
  /\ wf (pair_num 2 0) /\ lu_ready (pair_num 2 0) /\ represents (pair_num 2 0) twice_identity
  /\ nonsingular 2 twice_identity /\ exact_lu complex_lu_factor complex_lu_solve.
Proof.
  split; [cbn; repeat split; discriminate|]. split.
  { split; [reflexivity|]. split; [cbn; lia|]. intros k Hk. upto; (split; [exact I|reflexivity]). }
  split; [repeat split|]. split.
  { intros I J HI HJ. cbn in HI, HJ. upto; intros i j Hi Hj; upto; reflexivity. }
  split; [apply twice_nonsingular|exact complex_lu_exact].
Qed.
(** A matrix that cannot be decomposed is refused the first time; the second time it is solved with
    the decomposition of another matrix. *)
Theorem lu_cache_after_failure_refuted :
  forall lu lu_factor lu_solve, exact_lu (A := complexes) lu_factor lu_solve ->
    exists x, history lu lu_factor lu_solve 5 some_matrices (lu_init lu)
                [Solve 0 1 one_vec; Solve 1 1 one_vec; Solve 1 1 one_vec]
              = [Ok x; Err NotImplementedError; Ok x]
      /\ represents (some_matrices 1) (fun _ _ => RtoC 2) /\ ~ solution 1 (fun _ _ => (RtoC 2 : complexes)) x one_vec.
Proof.
  intros lu lu_factor lu_solve [E1 E2].
  assert (N : nonsingular 1 (fun _ _ => (RtoC 1 : complexes))).
  { intros x Hx i Hi. upto. specialize (Hx 0 ltac:(lia)). cbn in Hx. injection Hx as H1 H2.
    apply injective_projections; cbn in *; lra. }
  destruct (E1 1 _ N) as (l & El). pose proof (E2 1 _ l one_vec N El) as Hs.
  exists (lu_solve l one_vec). split; [cbn [history]; unfold lu_solve_cached, cached_lu_decomp; cbn [lu_init cached_matrix cached_decomp]; unfold some_matrices, num; cbn [Nat.eqb lu_decomp]; rewrite El; reflexivity|]. split.
  - intros I J HI HJ. upto. intros i j Hi Hj. reflexivity.
  - intros H. specialize (H 0 ltac:(lia)). specialize (Hs 0 ltac:(lia)). cbn in H, Hs.
    injection Hs as H1 H2. injection H as H3 H4. lra.
Qed.
Print Assumptions lu_cache_after_failure_refuted.
(** A matrix modified in place is solved with its former decomposition. *)
Theorem lu_cache_after_mutation_refuted :
  forall lu lu_factor lu_solve, exact_lu (A := complexes) lu_factor lu_solve ->
    exists x, history lu lu_factor lu_solve 5 some_matrices (lu_init lu)
                [Solve 0 1 one_vec; Mutate 0 (num 2); Solve 0 1 one_vec] = [Ok x; Ok x]
      /\ ~ solution 1 (fun _ _ => (RtoC 2 : complexes)) x one_vec.
Proof.
  intros lu lu_factor lu_solve [E1 E2].
  assert (N : nonsingular 1 (fun _ _ => (RtoC 1 : complexes))).
  { intros x Hx i Hi. upto. specialize (Hx 0 ltac:(lia)). cbn in Hx. injection Hx as H1 H2.
    apply injective_projections; cbn in *; lra. }
  destruct (E1 1 _ N) as (l & El). pose proof (E2 1 _ l one_vec N El) as Hs.
  exists (lu_solve l one_vec). split; [cbn [history]; unfold lu_solve_cached, cached_lu_decomp; cbn [lu_init cached_matrix cached_decomp]; unfold some_matrices, num; cbn [Nat.eqb lu_decomp]; rewrite El; reflexivity|].
  intros H. specialize (H 0 ltac:(lia)). specialize (Hs 0 ltac:(lia)). cbn in H, Hs.
  injection Hs as H1 H2. injection H as H3 H4. lra.
Qed.
Print Assumptions lu_cache_after_mutation_refuted.
