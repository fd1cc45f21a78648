(** C93: the decomposition of the finite depth Green function. *)
From Coq Require Import Reals List String Arith Lra Lia Sorting Psatz.
From Verif Require Import Model_Problem Proofs_Problem Model_Prony Spec_Prony Proofs_Prony
  Props_Prony Model_PronyGreen Spec_PronyGreen Proofs_PronyGreen.
Import ListNotations.
Open Scope R_scope.

(** The function to be decomposed has a value at each point from -0.1 to 20, for
    each dimensionless wavenumber above 0.1 or below 0.05; it is the expression
    of the thesis far from the wavenumber and also at both ends of the interval
    where this expression is replaced, so that nothing jumps there. *)
Theorem ff_defined_partial : forall kh x,
  1 / 10 < kh \/ 0 < kh < 1 / 20 -> - 1 / 10 <= x <= 20 ->
  exists v, ff x (kh * tanh kh) kh = Some v /\
    (Rmax (1 / 10) (1 / 10 * kh) <= Rabs (x - kh) -> v = thesis x (kh * tanh kh) kh).
Proof.
  intros kh x H B. assert (P : 0 < kh) by lra.
  pose proof (coef_denominator kh P) as Q. pose proof (tanh_pos kh P) as T.
  assert (0 < kh * tanh kh) by (apply Rmult_lt_0_compat; assumption).
  unfold ff. rewrite quotient_some by lra. cbv zeta.
  set (t := Rmax (1 / 10) (1 / 10 * kh)).
  assert (Pt : 1 / 10 <= t) by apply Rmax_l.
  assert (Mt : t = 1 / 10 \/ t = 1 / 10 * kh)
    by (unfold t, Rmax; destruct (Rle_dec _ _); auto).
  destruct (Rlt_dec t (Rabs (x - kh))) as [F | F].
  - exists (thesis x (kh * tanh kh) kh). split; [| reflexivity].
    apply far_defined; [exact P | |].
    + intros ->. rewrite Rminus_diag_eq, Rabs_R0 in F by reflexivity. lra.
    + intros ->. replace (- kh - kh) with (- (2 * kh)) in F by ring.
      rewrite Rabs_Ropp, Rabs_right in F by lra. lra.
  - rewrite (far_defined (kh - t) kh P), (far_defined (kh + t) kh P) by lra.
    rewrite quotient_some by lra. eexists. split; [reflexivity |].
    intros G. assert (E : Rabs (x - kh) = t) by lra.
    assert (X : x = kh - t \/ x = kh + t)
      by (revert E; unfold Rabs; destruct (Rcase_abs _); intros; lra).
    destruct X as [-> | ->]; field; lra.
Qed.
Print Assumptions ff_defined_partial.

(** For each wavenumber above 0.05 and up to 0.1, the function has a pole inside
    the interval where it is decomposed. *)
Theorem ff_defined_refuted : forall kh, 1 / 20 < kh <= 1 / 10 ->
  exists x, - 1 / 10 <= x <= 20 /\ ff x (kh * tanh kh) kh = None.
Proof.
  intros kh B. assert (P : 0 < kh) by lra. exists (- kh). split; [lra |].
  pose proof (coef_denominator kh P) as Q.
  unfold ff. rewrite quotient_some by lra. cbv zeta.
  assert (E : Rmax (1 / 10) (1 / 10 * kh) = 1 / 10) by (apply Rmax_left; lra).
  rewrite E. replace (- kh - kh) with (- (2 * kh)) by ring.
  rewrite Rabs_Ropp, Rabs_right by lra.
  destruct (Rlt_dec (1 / 10) (2 * kh)); [| lra].
  unfold ff_far. unfold quotient at 1.
  destruct (Req_EM_T _ 0) as [_ | Z]; [reflexivity |].
  exfalso. apply Z. apply denominator_zero; [exact P | right; reflexivity].
Qed.
Print Assumptions ff_defined_refuted.

(** With the method "python", in any case, the rows returned are sorted rates
    between -20 and 0 and the coefficients of a sum that meets the tolerance. *)
Theorem green_decomposition_python : forall lstsq polyroots curve_fit g lisc default method kh lamda a,
  lower (match method with None => default | Some s => s end) = "python"%string ->
  green_decomposition lstsq polyroots curve_fit g lisc default method kh = Rows lamda a ->
  StronglySorted Rlt lamda /\ Forall (fun l => -20 < l < 0) lamda /\
  exists n, (4 <= n <= 30)%nat /\
    mean_square (exponentials a lamda) (fun x => g x (kh * tanh kh) kh)
      (- 1 / 10) 20 (8 * n + 1) < 1 / 10000.
Proof.
  intros lstsq polyroots curve_fit g lisc default method kh lamda a E H.
  unfold green_decomposition in H. cbv zeta in H. rewrite E in H. simpl String.eqb in H.
  cbv iota in H.
  destruct (find_best_exponential_decomposition _ _ _ _ _ _ _ _) as [[a' l'] | |] eqn:F;
    try discriminate.
  injection H; intros; subst a' l'.
  destruct (prony_tolerance _ _ _ _ _ _ _ _ _ _ F) as (S & B & n & I & T).
  split; [exact S |]. split; [exact B |]. exists n. split; [| exact T].
  unfold sizes in I. apply in_map_iff in I. destruct I as (i & <- & I).
  apply in_seq in I. lia.
Qed.
Print Assumptions green_decomposition_python.

(** When no size meets the tolerance, the warning is followed by an error about a
    variable that is not set, instead of a result or NoConvergenceError. *)
Theorem green_decomposition_refuted : forall lstsq polyroots curve_fit g lisc default method kh,
  lower (match method with None => default | Some s => s end) = "python"%string ->
  (forall n, In n [4; 6; 8; 10; 12; 14; 16; 18; 20; 22; 24; 26; 28; 30]%nat -> exists a lamda,
    exponential_decomposition lstsq polyroots curve_fit (4 * n + 1)
      (linspace (- 1 / 10) 20 (4 * n + 1))
      (fun j => g (linspace (- 1 / 10) 20 (4 * n + 1) j) (kh * tanh kh) kh) n = Some (a, lamda) /\
    1 / 10000 <= mean_square (exponentials a lamda) (fun x => g x (kh * tanh kh) kh)
      (- 1 / 10) 20 (8 * n + 1)) ->
  green_decomposition lstsq polyroots curve_fit g lisc default method kh = UnboundLocalError.
Proof.
  intros lstsq polyroots curve_fit g lisc default method kh E H.
  unfold green_decomposition. cbv zeta. rewrite E. simpl String.eqb. cbv iota.
  destruct (prony_gives_up lstsq polyroots curve_fit
    (fun x => g x (kh * tanh kh) kh) (- 1 / 10) 20 sizes (1 / 10000)) as [_ G].
  rewrite G; [reflexivity | exact H].
Qed.
Print Assumptions green_decomposition_refuted.

(** The other methods *)
Theorem green_decomposition_others : forall lstsq polyroots curve_fit g lisc default method kh,
  let m := lower (match method with None => default | Some s => s end) in
  let r := green_decomposition lstsq polyroots curve_fit g lisc default method kh in
  (m = "fortran"%string -> forall n rates coefficients,
     lisc (kh * tanh kh) kh = (n, (rates, coefficients)) ->
     r = Rows (firstn n rates) (firstn n coefficients)) /\
  (r = ValueError <-> m <> "python"%string /\ m <> "fortran"%string).
Proof.
  intros. unfold r, green_decomposition. cbv zeta. fold m. split.
  - intros E n rates coefficients L. rewrite E. simpl String.eqb. cbv iota. rewrite L. reflexivity.
  - destruct (String.eqb_spec m "python") as [E | E].
    + destruct (find_best_exponential_decomposition _ _ _ _ _ _ _ _) as [[? ?] | |];
        (split; [discriminate | tauto]).
    + destruct (String.eqb_spec m "fortran") as [E' | E'].
      * destruct (lisc _ _) as [n pr]. split; [discriminate | tauto].
      * tauto.
Qed.
Print Assumptions green_decomposition_others.

(** A solver that fits nothing on a constant function never meets the tolerance. *)
Example unbound_reached :
  green_decomposition lstsq1 roots1 (fun _ _ _ _ => Some []) (fun _ _ _ => 1)
    (fun _ _ => (0%nat, ([], []))) "fortran" (Some "Python"%string) 1 = UnboundLocalError.
Proof.
  apply green_decomposition_refuted; [reflexivity |].
  intros n _. exists []. eexists. split; [reflexivity |].
  unfold mean_square. rewrite (lsum_ext _ _ (fun _ => 1)) by
    (intros; unfold exponentials, lsum, Rsqr; simpl; ring).
  assert (E : forall k, lsum (fun _ : nat => 1) (seq 0 k) = INR k).
  { induction k; [reflexivity |]. rewrite lsum_last, IHk, S_INR. reflexivity. }
  rewrite E. unfold Rdiv. rewrite Rinv_r; [lra |]. apply not_0_INR. lia.
Qed.

(** A decomposition that is accepted: the function is zero. *)
Example python_reached : exists lamda a,
  green_decomposition lstsq1 roots1 (fun _ _ _ _ => Some []) (fun _ _ _ => 0)
    (fun _ _ => (0%nat, ([], []))) "python" None 1 = Rows lamda a.
Proof.
  unfold green_decomposition. cbv zeta. simpl String.eqb. cbv iota.
  destruct (find_best_exponential_decomposition _ _ _ _ _ _ _ _) as [[a l] | |] eqn:F.
  - exists l, a. reflexivity.
  - exfalso. destruct (proj1 (prony_gives_up _ _ _ _ _ _ _ _) F 4%nat) as (a & l & E & T).
    { left; reflexivity. }
    unfold exponential_decomposition in E. injection E; intros _ <-.
    unfold mean_square in T. rewrite lsum_zero in T.
    + unfold Rdiv in T. lra.
    + intros; unfold exponentials, lsum, Rsqr; simpl; ring.
  - exfalso. revert F. generalize sizes. intros s. induction s as [| n s IH]; [discriminate |].
    cbn [find_best_exponential_decomposition]. unfold exponential_decomposition.
    destruct (Rlt_dec _ _); [discriminate | exact IH].
Qed.

(** The first point of each grid is the pole for the wavenumber 0.1; there is no
    pole for the wavenumber 1. *)
Example ff_poles :
  ff (- (1 / 10)) (1 / 10 * tanh (1 / 10)) (1 / 10) = None /\
  exists v, ff (- (1 / 10)) (1 * tanh 1) 1 = Some v.
Proof.
  split.
  - pose proof (coef_denominator (1 / 10) ltac:(lra)) as Q.
    unfold ff. rewrite quotient_some by lra. cbv zeta.
    rewrite Rmax_left by lra. rewrite Rabs_left by lra.
    destruct (Rlt_dec _ _); [| lra]. unfold ff_far, quotient at 1.
    destruct (Req_EM_T _ 0) as [_ | Z]; [reflexivity |].
    exfalso; apply Z. apply denominator_zero; [lra | right; reflexivity].
  - destruct (ff_defined_partial 1 (- (1 / 10))) as (v & E & _); [lra | lra |].
    exists v; exact E.
Qed.
