(** C92: approximation by sums of exponentials. *)
From Coq Require Import Reals List Bool Arith Lra Lia Permutation Sorting.
From Verif Require Import Model_Prony Spec_Prony Proofs_Prony.
Import ListNotations.
Open Scope R_scope.

Lemma error_mean_square : forall x_min x_max n f a lamda,
  error_exponential_decomposition n (linspace x_min x_max n)
    (fun j => f (linspace x_min x_max n j)) a lamda
  = mean_square (exponentials a lamda) f x_min x_max n.
Proof.
  intros. unfold error_exponential_decomposition, mean_square, linspace.
  f_equal. apply lsum_ext. intros j _. unfold Rdiv. rewrite !Rmult_assoc. reflexivity.
Qed.

(** Whatever the solvers of numpy and scipy return, an accepted decomposition
    meets the tolerance on one of the fine grids, and its rates are sorted,
    distinct and between -20 and 0. *)
Theorem prony_tolerance : forall lstsq polyroots curve_fit f x_min x_max range tol a lamda,
  find_best_exponential_decomposition lstsq polyroots curve_fit f x_min x_max range tol
    = Done (a, lamda) ->
  StronglySorted Rlt lamda /\ Forall (fun l => -20 < l < 0) lamda /\
  exists n, In n range /\
    mean_square (exponentials a lamda) f x_min x_max (8 * n + 1) < tol.
Proof.
  intros lstsq polyroots curve_fit f x_min x_max range tol a lamda.
  induction range as [| n range IH]; intros H; [discriminate |].
  cbn [find_best_exponential_decomposition] in H.
  destruct (exponential_decomposition _ _ _ _ _ _ _) as [[a' l'] |] eqn:E; [| discriminate].
  rewrite error_mean_square in H.
  destruct (Rlt_dec _ tol) as [T | T].
  - injection H; intros; subst a' l'.
    unfold exponential_decomposition in E.
    destruct (curve_fit _ _ _ _) as [b |]; [| discriminate]. injection E; intros El _.
    split; [rewrite <- El; apply rates_sorted |]. split.
    + rewrite <- El. apply Forall_forall. intros l I. exact (rates_bounds _ _ _ I).
    + exists n. split; [left; reflexivity | exact T].
  - destruct (IH H) as (S & B & k & I & T'). repeat split; auto.
    exists k. split; [right; exact I | exact T'].
Qed.
Print Assumptions prony_tolerance.

(** NoConvergenceError is raised exactly when every size has been tried and none
    meets the tolerance. *)
Theorem prony_gives_up : forall lstsq polyroots curve_fit f x_min x_max range tol,
  find_best_exponential_decomposition lstsq polyroots curve_fit f x_min x_max range tol
    = NoConvergence <->
  forall n, In n range -> exists a lamda,
    exponential_decomposition lstsq polyroots curve_fit (4 * n + 1)
      (linspace x_min x_max (4 * n + 1))
      (fun j => f (linspace x_min x_max (4 * n + 1) j)) n = Some (a, lamda) /\
    tol <= mean_square (exponentials a lamda) f x_min x_max (8 * n + 1).
Proof.
  intros lstsq polyroots curve_fit f x_min x_max range tol.
  induction range as [| n range IH]; [split; [intros _ n [] | reflexivity] |].
  cbn [find_best_exponential_decomposition]. split.
  - destruct (exponential_decomposition _ _ _ _ _ _ _) as [[a l] |] eqn:E; [| discriminate].
    rewrite error_mean_square. destruct (Rlt_dec _ tol) as [T | T]; [discriminate |].
    intros H k [<- | I]; [| apply IH; assumption].
    exists a, l. split; [exact E | lra].
  - intros H. destruct (H n (or_introl eq_refl)) as (a & l & E & T). rewrite E.
    rewrite error_mean_square. destruct (Rlt_dec _ tol); [lra |].
    apply IH. intros k I. apply H; right; exact I.
Qed.
Print Assumptions prony_gives_up.

(** A sum of [m] exponentials with distinct rates between -20 and 0 is found
    exactly when [m] is tried first, given exact solvers. *)
Theorem prony_exact : forall lstsq polyroots curve_fit l x_min x_max others tol,
  let m := length l in
  (0 < m)%nat -> x_min < x_max -> 0 < tol -> admissible l ->
  exact_lstsq (3 * m + 1) m lstsq -> exact_roots m polyroots ->
  exact_fit m (4 * m + 1) curve_fit ->
  exists a lamda,
    find_best_exponential_decomposition lstsq polyroots curve_fit (sum_of l) x_min x_max
      (m :: others) tol = Done (a, lamda) /\
    Permutation lamda (map snd l) /\ length a = m /\
    forall x, exponentials a lamda x = sum_of l x.
Proof.
  intros lstsq polyroots curve_fit l x_min x_max others tol m Hm Hx Ht A Hl Hr Hf.
  cbn [find_best_exponential_decomposition].
  pose proof (decomposition_found lstsq polyroots curve_fit l (4 * m + 1) x_min
    ((x_max - x_min) / INR (4 * m + 1 - 1))) as D.
  cbv zeta in D. fold m in D.
  replace (4 * m + 1 - m)%nat with (3 * m + 1)%nat in D by lia.
  specialize (D ltac:(lia)).
  assert (P : 0 < (x_max - x_min) / INR (4 * m + 1 - 1)).
  { apply Rdiv_lt_0_compat; [lra |]. apply lt_0_INR. lia. }
  specialize (D P Hl Hr Hf A). unfold linspace at 1 2.
  destruct D as (a & lamda & D0 & D1 & D2 & D3).
  exists a, lamda. rewrite D0. rewrite error_mean_square.
  assert (Z : mean_square (exponentials a lamda) (sum_of l) x_min x_max (8 * m + 1) = 0).
  { unfold mean_square. rewrite lsum_zero; [unfold Rdiv; ring |].
    intros j _. rewrite D3. unfold Rsqr; ring. }
  destruct (Rlt_dec _ tol) as [_ | T]; [| exfalso; apply T; rewrite Z; exact Ht].
  repeat split; assumption.
Qed.
Print Assumptions prony_exact.

(** When [m] is anywhere among the tried sizes, it never says that there is no
    suitable decomposition; curve_fit may still raise its own exception for
    another size, tried before. *)
Theorem prony_converges : forall lstsq polyroots curve_fit l x_min x_max range tol,
  let m := length l in
  (0 < m)%nat -> In m range -> x_min < x_max -> 0 < tol -> admissible l ->
  exact_lstsq (3 * m + 1) m lstsq -> exact_roots m polyroots ->
  exact_fit m (4 * m + 1) curve_fit ->
  find_best_exponential_decomposition lstsq polyroots curve_fit (sum_of l) x_min x_max
    range tol <> NoConvergence.
Proof.
  intros lstsq polyroots curve_fit l x_min x_max range tol m Hm I Hx Ht A Hl Hr Hf.
  induction range as [| n range IH]; [destruct I |].
  destruct (Nat.eq_dec n m) as [-> | Nm].
  - destruct (prony_exact lstsq polyroots curve_fit l x_min x_max range tol Hm Hx Ht A Hl Hr Hf)
      as (a & lamda & E & _). fold m in E. rewrite E. discriminate.
  - destruct I as [I | I]; [congruence |].
    cbn [find_best_exponential_decomposition].
    destruct (exponential_decomposition _ _ _ _ _ _ _) as [[a lamda] |]; [| discriminate].
    destruct (Rlt_dec _ tol); [discriminate | exact (IH I)].
Qed.
Print Assumptions prony_converges.

(** The tolerance is only checked on the grid of the accepted size: between its
    points the function may be as far as one wants from its approximation. *)
Theorem prony_between_points_refuted : forall lstsq polyroots curve_fit far,
  exact_lstsq 4 1 lstsq -> exact_roots 1 polyroots -> exact_fit 1 5 curve_fit -> 0 < far ->
  exists f x a lamda, 0 <= x <= 1 /\
    find_best_exponential_decomposition lstsq polyroots curve_fit f 0 1 [1%nat] (1 / 10000)
      = Done (a, lamda) /\
    f x - exponentials a lamda x = far.
Proof.
  intros lstsq polyroots curve_fit far Hl Hr Hf B.
  set (g := sum_of [(1, -1)]).
  set (f := fun x => if Req_EM_T x (1 / 16) then g x + far else g x).
  destruct (prony_exact lstsq polyroots curve_fit [(1, -1)] 0 1 [] (1 / 10000))
    as (a & lamda & E & _ & _ & V); auto; try lra.
  { split; [repeat constructor; simpl; tauto |]. repeat constructor; simpl; lra. }
  exists f, (1 / 16), a, lamda. split; [lra |]. split.
  - assert (Z : forall n, (n = 4 \/ n = 8)%nat ->
      (fun k => f (linspace 0 1 (n + 1) k)) = (fun k => g (linspace 0 1 (n + 1) k))).
    { intros n Hn. apply FunctionalExtensionality.functional_extensionality. intros k.
      unfold f, linspace. destruct (Req_EM_T _ (1 / 16)) as [Q | Q]; [| reflexivity].
      exfalso. replace (n + 1 - 1)%nat with n in Q by lia.
      assert (E2 : INR (2 * k) = 1 \/ INR (4 * k) = 1).
      { destruct Hn as [-> | ->]; rewrite !mult_INR; simpl in *; lra. }
      destruct E2 as [E2 | E2]; change 1 with (INR 1) in E2; apply INR_eq in E2; lia. }
    cbn [find_best_exponential_decomposition length] in E |- *.
    rewrite (Z (4 * 1)%nat), (Z (8 * 1)%nat) by (simpl; lia). exact E.
  - rewrite V. fold g. unfold f. destruct (Req_EM_T (1 / 16) (1 / 16)); lra.
Qed.
Print Assumptions prony_between_points_refuted.

(** The hypotheses are met, for instance, by 3 exp(-2 x) and by exact solvers
    for one exponential. *)
Example prony_meets :
  let l := [(3, -2)] in
  admissible l /\ exact_lstsq (3 * length l + 1) (length l) lstsq1 /\
  exact_roots (length l) roots1 /\ exact_fit (length l) (4 * length l + 1) fit1.
Proof.
  split; [| split; [apply lstsq1_exact | split; [apply roots1_exact | apply fit1_exact]]].
  split; [repeat constructor; simpl; tauto |].
  repeat constructor; simpl; lra.
Qed.

Example prony_one : exists a,
  find_best_exponential_decomposition lstsq1 roots1 fit1 (sum_of [(3, -2)]) (-1 / 10) 20
    [1%nat] (1 / 10000) = Done (a, [-2]) /\ forall x, exponentials a [-2] x = 3 * exp (-2 * x).
Proof.
  destruct (prony_exact lstsq1 roots1 fit1 [(3, -2)] (-1 / 10) 20 [] (1 / 10000))
    as (a & lamda & E & P & _ & V).
  - simpl; lia.
  - lra.
  - lra.
  - apply prony_meets.
  - apply lstsq1_exact.
  - apply roots1_exact.
  - apply fit1_exact.
  - apply Permutation_sym, Permutation_length_1_inv in P. subst lamda.
    exists a. split; [exact E |]. intros x. rewrite V. unfold sum_of, lsum; simpl. ring.
Qed.

(** With a zero tolerance even an exact decomposition is refused: the comparison
    is strict. *)
Example gives_up_meets :
  find_best_exponential_decomposition lstsq1 roots1 fit1 (sum_of [(3, -2)]) (-1 / 10) 20
    [1%nat] 0 = NoConvergence.
Proof.
  apply prony_gives_up. intros n [<- | []].
  pose proof (decomposition_found lstsq1 roots1 fit1 [(3, -2)] 5 (-1 / 10)
    ((20 - -1 / 10) / INR (4 * 1 + 1 - 1))) as D. cbv zeta in D.
  destruct D as (a & lamda & E & _ & _ & V).
  - simpl; lia.
  - simpl; lra.
  - apply lstsq1_exact.
  - apply roots1_exact.
  - apply fit1_exact.
  - apply prony_meets.
  - exists a, lamda. split; [exact E |]. unfold mean_square.
    rewrite lsum_zero; [unfold Rdiv; lra |]. intros j _. rewrite V. unfold Rsqr; ring.
Qed.
