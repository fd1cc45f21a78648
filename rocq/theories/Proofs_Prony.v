(** Proofs about the sums of exponentials. *)
From Coq Require Import Reals List Bool Arith Lra Lia Permutation Sorting.
From Verif Require Import Model_Prony Spec_Prony.
Import ListNotations.
Open Scope R_scope.

Lemma lsum_cons : forall A (f : A -> R) x l, lsum f (x :: l) = f x + lsum f l.
Proof. reflexivity. Qed.

Lemma lsum_app : forall A (f : A -> R) l l', lsum f (l ++ l') = lsum f l + lsum f l'.
Proof. induction l; intros; simpl app; rewrite ?lsum_cons, ?IHl; unfold lsum; simpl; lra. Qed.

Lemma lsum_ext : forall A (f g : A -> R) l,
  (forall x, In x l -> f x = g x) -> lsum f l = lsum g l.
Proof.
  induction l; intros H; [reflexivity |].
  rewrite !lsum_cons, IHl, H; auto using in_eq, in_cons.
Qed.

Lemma lsum_map : forall A B (f : B -> R) (g : A -> B) l,
  lsum f (map g l) = lsum (fun x => f (g x)) l.
Proof. induction l; [reflexivity |]. simpl map; rewrite !lsum_cons, IHl; reflexivity. Qed.

Lemma lsum_plus : forall A (f g : A -> R) l,
  lsum (fun x => f x + g x) l = lsum f l + lsum g l.
Proof. induction l; [unfold lsum; simpl; lra |]. rewrite !lsum_cons, IHl; lra. Qed.

Lemma lsum_scal : forall A (f : A -> R) k l, lsum (fun x => k * f x) l = k * lsum f l.
Proof. induction l; [unfold lsum; simpl; lra |]. rewrite !lsum_cons, IHl; lra. Qed.

Lemma lsum_zero : forall A (f : A -> R) l, (forall x, In x l -> f x = 0) -> lsum f l = 0.
Proof.
  induction l; intros H; [reflexivity |].
  rewrite lsum_cons, IHl, H; auto using in_eq, in_cons; lra.
Qed.

Lemma lsum_swap : forall A B (f : A -> B -> R) l l',
  lsum (fun x => lsum (f x) l') l = lsum (fun y => lsum (fun x => f x y) l) l'.
Proof.
  induction l; intros l'.
  - symmetry; apply lsum_zero; reflexivity.
  - rewrite lsum_cons, IHl, <- lsum_plus. apply lsum_ext; intros; rewrite lsum_cons; reflexivity.
Qed.

Lemma lsum_perm : forall A (f : A -> R) l l', Permutation l l' -> lsum f l = lsum f l'.
Proof. intros A f l l' P; induction P; rewrite ?lsum_cons; try lra; reflexivity. Qed.

Lemma lsum_first : forall f n, lsum f (seq 0 (S n)) = f 0%nat + lsum (fun j => f (S j)) (seq 0 n).
Proof. intros. simpl seq. rewrite lsum_cons, <- seq_shift, lsum_map. reflexivity. Qed.

Lemma lsum_last : forall f n, lsum f (seq 0 (S n)) = lsum f (seq 0 n) + f n.
Proof. intros. rewrite seq_S, lsum_app, lsum_cons. unfold lsum at 2; simpl; lra. Qed.

Lemma lsum_rev : forall f n,
  lsum (fun j => f (n - 1 - j)%nat) (seq 0 n) = lsum f (seq 0 n).
Proof.
  intros f n; induction n; [reflexivity |].
  rewrite lsum_first, lsum_last, <- IHn, Rplus_comm. f_equal.
  - apply lsum_ext; intros; f_equal; lia.
  - f_equal; lia.
Qed.

(** Polynomials *)
Lemma polynomial_monic : forall cs x,
  polynomial (cs ++ [1]) x
  = lsum (fun k => nth k cs 0 * x ^ k) (seq 0 (length cs)) + x ^ length cs.
Proof.
  induction cs; intros x; [unfold lsum; simpl; lra |].
  change (polynomial ((a :: cs) ++ [1]) x) with (a + x * polynomial (cs ++ [1]) x).
  rewrite IHcs. simpl length. rewrite lsum_first.
  rewrite (lsum_ext _ (fun j => nth (S j) (a :: cs) 0 * x ^ S j)
             (fun j => x * (nth j cs 0 * x ^ j))) by (intros; simpl; ring).
  rewrite lsum_scal. simpl. ring.
Qed.

Lemma polynomial_add : forall u v, length u = length v ->
  exists w, length w = length u /\
  forall x, polynomial (w ++ [1]) x = polynomial (u ++ [1]) x + polynomial v x.
Proof.
  induction u; intros [| b v] E; try discriminate.
  - exists []. split; [reflexivity | intros; simpl; lra].
  - injection E; intros E'. destruct (IHu v E') as (w & L & H).
    exists ((a + b) :: w). split; [simpl; congruence |].
    intros x. specialize (H x). unfold polynomial in *. simpl. rewrite H. ring.
Qed.

Lemma polynomial_scal : forall k p x, polynomial (map (Rmult k) p) x = k * polynomial p x.
Proof. induction p; intros; simpl; [lra | rewrite IHp; ring]. Qed.

Lemma monic_product : forall zs, exists cs, length cs = length zs /\
  forall x, polynomial (cs ++ [1]) x = product zs x.
Proof.
  induction zs.
  - exists []. split; [reflexivity | intros; simpl; lra].
  - destruct IHzs as (cs & L & H).
    destruct (polynomial_add (0 :: cs) (map (Rmult (- a)) (cs ++ [1]))) as (w & Lw & Hw).
    { rewrite map_length, app_length; simpl; lia. }
    exists w. split; [rewrite Lw; simpl; congruence |].
    intros x. rewrite Hw, polynomial_scal.
    change (polynomial ((0 :: cs) ++ [1]) x) with (0 + x * polynomial (cs ++ [1]) x).
    rewrite H. simpl. ring.
Qed.

Lemma monic_divide : forall cs z, cs <> [] ->
  exists cs', S (length cs') = length cs /\
  forall x, polynomial (cs ++ [1]) x
            = polynomial (cs ++ [1]) z + (x - z) * polynomial (cs' ++ [1]) x.
Proof.
  induction cs; intros z N; [congruence |].
  destruct cs as [| b cs].
  - exists []. split; [reflexivity | intros; simpl; ring].
  - destruct (IHcs z ltac:(discriminate)) as (t & L & H).
    destruct (polynomial_add (b :: cs) (map (Rmult z) (t ++ [1]))) as (w & Lw & Hw).
    { rewrite map_length, app_length; simpl in *; lia. }
    exists w. split; [rewrite Lw; reflexivity |].
    intros x. rewrite Hw, polynomial_scal.
    assert (E : forall y, polynomial ((a :: b :: cs) ++ [1]) y
                = a + y * polynomial ((b :: cs) ++ [1]) y) by reflexivity.
    rewrite !E, (H x). ring.
Qed.

Lemma monic_roots : forall zs cs, NoDup zs -> length cs = length zs ->
  (forall z, In z zs -> polynomial (cs ++ [1]) z = 0) ->
  forall x, polynomial (cs ++ [1]) x = product zs x.
Proof.
  induction zs; intros cs N L H x.
  - destruct cs; [simpl; lra | discriminate].
  - inversion N; subst.
    destruct (monic_divide cs a) as (t & Lt & Ht); [destruct cs; discriminate |].
    assert (E : forall y, polynomial (cs ++ [1]) y = (y - a) * polynomial (t ++ [1]) y)
      by (intros y; rewrite (Ht y), (H a (or_introl eq_refl)); ring).
    rewrite E, (IHzs t); [reflexivity | assumption | simpl in L; lia |].
    intros z I. specialize (H z (or_intror I)). rewrite E in H.
    apply Rmult_integral in H. destruct H as [H | H]; [| exact H].
    exfalso; apply H2. replace a with z by lra. exact I.
Qed.

Lemma product_zero : forall zs z, In z zs -> product zs z = 0.
Proof.
  induction zs; intros z I; [destruct I |]. simpl.
  destruct I as [-> | I]; [ring | rewrite IHzs by exact I; ring].
Qed.

Lemma product_nonzero : forall zs z, ~ In z zs -> product zs z <> 0.
Proof.
  induction zs; intros z I; simpl; [lra |].
  apply Rmult_integral_contrapositive. split.
  - intros E; apply I; left; lra.
  - apply IHzs; intros E; apply I; right; exact E.
Qed.

(** Independence of the powers of distinct numbers *)
Lemma powers_polynomial : forall (l : list (R * R)) n,
  (forall j, (j < n)%nat -> lsum (fun cz => fst cz * snd cz ^ j) l = 0) ->
  forall p k, (k + length p <= n)%nat ->
  lsum (fun cz => fst cz * snd cz ^ k * polynomial p (snd cz)) l = 0.
Proof.
  intros l n H p; induction p; intros k L.
  - apply lsum_zero; intros; simpl; ring.
  - simpl in L.
    rewrite (lsum_ext _ _ (fun cz => a * (fst cz * snd cz ^ k)
                         + fst cz * snd cz ^ S k * polynomial p (snd cz)))
      by (intros; simpl; ring).
    rewrite lsum_plus, lsum_scal, H, IHp by lia. ring.
Qed.

Lemma powers_independent : forall l : list (R * R), NoDup (map snd l) ->
  (forall j, (j < length l)%nat -> lsum (fun cz => fst cz * snd cz ^ j) l = 0) ->
  Forall (fun cz => fst cz = 0) l.
Proof.
  induction l as [| [c z] l IH]; intros N H; [constructor |].
  inversion N; subst. simpl in H2.
  destruct (monic_product (map snd l)) as (cs & L & E).
  assert (C : c = 0).
  { pose proof (powers_polynomial ((c, z) :: l) (length ((c, z) :: l)) H (cs ++ [1]) 0) as Q.
    rewrite app_length, L, map_length in Q. simpl length in Q.
    specialize (Q ltac:(lia)). rewrite lsum_cons in Q.
    rewrite (lsum_zero _ _ l) in Q.
    - simpl fst in Q; simpl snd in Q. rewrite E in Q.
      assert (c * product (map snd l) z = 0) by (simpl in Q; lra).
      apply Rmult_integral in H0. destruct H0 as [H0 | H0]; [exact H0 |].
      exfalso; exact (product_nonzero _ _ H2 H0).
    - intros x I. rewrite E, product_zero by (apply in_map; exact I). ring. }
  constructor; [exact C |]. apply IH; [assumption |].
  intros j Lj. specialize (H j ltac:(simpl; lia)).
  rewrite lsum_cons in H. simpl in H. rewrite C in H. lra.
Qed.

(** The linear system *)
Lemma prony_matrix_index : forall m F i j, (j < m)%nat ->
  prony_matrix m F i j = F (m - 1 + i - j)%nat.
Proof.
  intros; unfold prony_matrix. destruct (Nat.leb_spec j i); f_equal; lia.
Qed.

Lemma prony_coefficients_value : forall m P z,
  polynomial (prony_coefficients m P) z
  = z ^ m - lsum (fun j => P j * z ^ (m - 1 - j)) (seq 0 m).
Proof.
  intros; unfold prony_coefficients. rewrite polynomial_monic, map_length, seq_length.
  rewrite <- (lsum_rev (fun j => P j * z ^ (m - 1 - j)) m).
  rewrite (lsum_ext _ _ (fun k => (-1) * (P (m - 1 - k)%nat * z ^ (m - 1 - (m - 1 - k)))) (seq 0 m)).
  - rewrite lsum_scal. ring.
  - intros k I. apply in_seq in I.
    rewrite (nth_indep _ 0 ((fun k => - P (m - 1 - k)%nat) 0%nat))
      by (rewrite map_length, seq_length; lia).
    rewrite (map_nth (fun k => - P (m - 1 - k)%nat)), seq_nth by lia.
    replace (m - 1 - (m - 1 - k))%nat with k by lia. simpl. ring.
Qed.

Lemma prony_row : forall (l : list (R * R)) m P i,
  let F := fun k => lsum (fun cz => fst cz * snd cz ^ k) l in
  F (m + i)%nat - lsum (fun j => prony_matrix m F i j * P j) (seq 0 m)
  = lsum (fun cz => fst cz * polynomial (prony_coefficients m P) (snd cz) * snd cz ^ i) l.
Proof.
  intros l m P i F.
  rewrite (lsum_ext _ _ (fun j => lsum (fun cz => fst cz * (snd cz ^ i * (P j * snd cz ^ (m - 1 - j)))) l)
    (seq 0 m)).
  - rewrite lsum_swap.
    rewrite (lsum_ext _ (fun y => lsum _ _)
      (fun cz => fst cz * (snd cz ^ i * lsum (fun j => P j * snd cz ^ (m - 1 - j)) (seq 0 m))))
      by (intros; rewrite !lsum_scal; reflexivity).
    unfold F.
    match goal with |- lsum ?f l - lsum ?g l = _ =>
      replace (lsum f l - lsum g l) with (lsum f l + (-1) * lsum g l) by ring end.
    rewrite <- lsum_scal, <- lsum_plus. apply lsum_ext; intros cz _.
    rewrite prony_coefficients_value, pow_add. ring.
  - intros j I. apply in_seq in I. rewrite prony_matrix_index by lia.
    unfold F. rewrite Rmult_comm, <- lsum_scal. apply lsum_ext; intros cz _.
    replace (m - 1 + i - j)%nat with (i + (m - 1 - j))%nat by lia. rewrite pow_add. ring.
Qed.

Lemma prony_roots : forall lstsq polyroots (l : list (R * R)) n,
  let m := length l in
  let F := fun k => lsum (fun cz => fst cz * snd cz ^ k) l in
  (2 * m <= n)%nat -> exact_lstsq (n - m) m lstsq -> exact_roots m polyroots ->
  NoDup (map snd l) -> Forall (fun cz => fst cz <> 0) l ->
  Permutation
    (polyroots (prony_coefficients m
       (lstsq (n - m)%nat m (prony_matrix m F) (fun i => F (m + i)%nat))))
    (map (fun z => (z, 0)) (map snd l)).
Proof.
  intros lstsq polyroots l n m F Ln Hl Hr N C.
  set (P := lstsq _ _ _ _).
  assert (S : forall i, (i < n - m)%nat ->
    lsum (fun j => prony_matrix m F i j * P j) (seq 0 m) = F (m + i)%nat).
  { apply Hl. destruct (monic_product (map snd l)) as (cs & L & E).
    rewrite map_length in L.
    exists (fun j => - nth (m - 1 - j) cs 0). intros i _.
    assert (V : forall z, polynomial (prony_coefficients m (fun j => - nth (m - 1 - j) cs 0)) z
                = polynomial (cs ++ [1]) z).
    { intros z. unfold prony_coefficients. rewrite !polynomial_monic, map_length, seq_length.
      rewrite L. f_equal. apply lsum_ext. intros k I. apply in_seq in I. f_equal.
      rewrite (nth_indep _ 0 ((fun k => - - nth (m - 1 - (m - 1 - k)) cs 0) 0%nat))
        by (rewrite map_length, seq_length; lia).
      rewrite (map_nth (fun k => - - nth (m - 1 - (m - 1 - k)) cs 0)), seq_nth by lia.
      simpl. rewrite Ropp_involutive. f_equal. lia. }
    pose proof (prony_row l m (fun j => - nth (m - 1 - j) cs 0) i) as Q.
    cbv zeta in Q. fold F in Q. rewrite (lsum_zero _ _ l) in Q.
    - lra.
    - intros cz I. rewrite V, E, product_zero by (apply in_map; exact I). ring. }
  apply Hr.
  - apply map_length.
  - exact N.
  - unfold prony_coefficients. rewrite app_length, map_length, seq_length. simpl; lia.
  - unfold prony_coefficients. apply monic_roots; [exact N | |].
    + rewrite !map_length, seq_length. reflexivity.
    + intros z I. fold (prony_coefficients m P).
      apply in_map_iff in I. destruct I as (cz & <- & I).
      assert (Z : Forall (fun x => fst x = 0)
        (map (fun cz => (fst cz * polynomial (prony_coefficients m P) (snd cz), snd cz)) l)).
      { apply powers_independent.
        - rewrite map_map. simpl. exact N.
        - intros j Lj. rewrite map_length in Lj. fold m in Lj. rewrite lsum_map. simpl.
          pose proof (prony_row l m P j) as Q. cbv zeta in Q. fold F in Q.
          rewrite S in Q by lia. lra. }
      rewrite Forall_forall in Z, C.
      specialize (Z _ (in_map _ _ _ I)). simpl in Z.
      apply Rmult_integral in Z. destruct Z as [Z | Z]; [| exact Z].
      exfalso; exact (C _ I Z).
Qed.

(** The rates *)
Lemma insert_in : forall x y l, In y (insert x l) <-> y = x \/ In y l.
Proof.
  induction l; simpl; [intuition |].
  destruct (Rlt_dec x a); [simpl; intuition |].
  destruct (Req_EM_T x a); [subst; simpl; intuition |].
  simpl. rewrite IHl. intuition.
Qed.

Lemma unique_in : forall y l, In y (unique l) <-> In y l.
Proof. induction l; simpl; [tauto |]. rewrite insert_in, IHl. intuition. Qed.

Lemma insert_sorted : forall x l, StronglySorted Rlt l -> StronglySorted Rlt (insert x l).
Proof.
  induction l; intros S; simpl; [repeat constructor |].
  inversion S; subst.
  destruct (Rlt_dec x a).
  - constructor; [exact S |]. constructor; [assumption |].
    eapply Forall_impl; [| exact H2]. intros; simpl in *; lra.
  - destruct (Req_EM_T x a); [exact S |].
    constructor; [apply IHl; assumption |].
    apply Forall_forall. intros y I. apply insert_in in I. destruct I as [-> | I]; [lra |].
    rewrite Forall_forall in H2. apply H2; exact I.
Qed.

Lemma unique_sorted : forall l, StronglySorted Rlt (unique l).
Proof. induction l; simpl; [constructor | apply insert_sorted; assumption]. Qed.

Lemma filter_sorted : forall f l, StronglySorted Rlt l -> StronglySorted Rlt (filter f l).
Proof.
  intros f l S; induction S; simpl; [constructor |].
  destruct (f a); [| assumption]. constructor; [assumption |].
  apply Forall_forall. intros y I. apply filter_In in I.
  rewrite Forall_forall in H. apply H; tauto.
Qed.

Lemma rates_sorted : forall dx roots, StronglySorted Rlt (prony_rates dx roots).
Proof. intros; apply filter_sorted, unique_sorted. Qed.

Lemma sorted_nodup : forall l, StronglySorted Rlt l -> NoDup l.
Proof.
  intros l S; induction S; constructor; [| assumption].
  intros I. rewrite Forall_forall in H. specialize (H _ I). lra.
Qed.

Lemma interesting_iff : forall l, interesting l = true <-> -20 < l < 0.
Proof.
  intros; unfold interesting.
  destruct (Rlt_dec (-20) l), (Rlt_dec l 0); simpl; split; intros; try discriminate; auto; lra.
Qed.

Lemma rates_bounds : forall dx roots l, In l (prony_rates dx roots) -> -20 < l < 0.
Proof. intros dx roots l I. apply filter_In in I. apply interesting_iff; tauto. Qed.

Lemma modulus_real : forall x, 0 < x -> modulus (x, 0) = x.
Proof.
  intros; unfold modulus; simpl. rewrite Rsqr_0, Rplus_0_r. apply sqrt_Rsqr; lra.
Qed.

Lemma rates_found : forall dx roots ls, 0 < dx -> NoDup ls ->
  Forall (fun l => -20 < l < 0) ls ->
  Permutation roots (map (fun z => (z, 0)) (map (fun l => exp (l * dx)) ls)) ->
  Permutation ls (prony_rates dx roots).
Proof.
  intros dx roots ls D N B P. apply NoDup_Permutation.
  - exact N.
  - apply sorted_nodup, rates_sorted.
  - intros l. unfold prony_rates. rewrite filter_In, unique_in, in_flat_map, interesting_iff.
    rewrite Forall_forall in B.
    assert (K : forall z, In z (filter log_defined roots) <->
              exists l, z = (exp (l * dx), 0) /\ In l ls).
    { intros z. rewrite filter_In. split.
      - intros [I _]. apply (Permutation_in _ P) in I.
        apply in_map_iff in I. destruct I as (y & <- & I).
        apply in_map_iff in I. destruct I as (k & <- & I). exists k; auto.
      - intros (k & -> & I). split.
        + apply (Permutation_in _ (Permutation_sym P)). apply (in_map (fun z => (z, 0))).
          apply (in_map (fun l => exp (l * dx))). exact I.
        + unfold log_defined; simpl. destruct (Rle_dec 0 (exp (k * dx))) as [_ | E];
            [apply orb_true_r |]. exfalso; apply E; left; apply exp_pos. }
    assert (V : forall k, rate dx (exp (k * dx), 0) = [k]).
    { intros k. unfold rate. pose proof (exp_pos (k * dx)).
      rewrite modulus_real by assumption.
      destruct (Req_EM_T (exp (k * dx)) 0); [lra |].
      rewrite ln_exp. f_equal. field. lra. }
    split.
    + intros I. split; [| apply B; exact I].
      exists (exp (l * dx), 0). split; [apply K; exists l; auto |].
      rewrite V; left; reflexivity.
    + intros [(z & I & E) _]. apply K in I. destruct I as (k & -> & I).
      rewrite V in E. destruct E as [<- | []]. exact I.
Qed.

(** The whole decomposition *)
Lemma combine_pairs : forall l : list (R * R), combine (map fst l) (map snd l) = l.
Proof. induction l as [| [a b] l IH]; simpl; [reflexivity | now rewrite IH]. Qed.

Lemma sum_of_pairs : forall l x, exponentials (map fst l) (map snd l) x = sum_of l x.
Proof. intros; unfold exponentials, sum_of. rewrite combine_pairs. reflexivity. Qed.

Lemma exp_pow : forall x j, exp (x * INR j) = exp x ^ j.
Proof.
  intros x j; induction j.
  - simpl. rewrite Rmult_0_r. apply exp_0.
  - rewrite S_INR. replace (x * (INR j + 1)) with (x + x * INR j) by ring.
    rewrite exp_plus, IHj. reflexivity.
Qed.

(** Coefficients and powers of a sum of exponentials on regular points *)
Definition powers (x0 dx : R) (l : list (R * R)) : list (R * R) :=
  map (fun al => (fst al * exp (snd al * x0), exp (snd al * dx))) l.

Lemma sum_of_powers : forall x0 dx l j,
  sum_of l (x0 + INR j * dx) = lsum (fun cz => fst cz * snd cz ^ j) (powers x0 dx l).
Proof.
  intros; unfold sum_of, powers. rewrite lsum_map. apply lsum_ext; intros al _. simpl.
  rewrite <- exp_pow, Rmult_assoc, <- exp_plus. do 2 f_equal. ring.
Qed.

Lemma powers_nodup : forall x0 dx l, 0 < dx -> NoDup (map snd l) ->
  NoDup (map snd (powers x0 dx l)).
Proof.
  intros x0 dx l D N. unfold powers. rewrite map_map. simpl.
  rewrite <- (map_map snd (fun z => exp (z * dx))).
  apply FinFun.Injective_map_NoDup; [| exact N].
  intros u v E. apply exp_inv in E. apply Rmult_eq_reg_r in E; lra.
Qed.

Lemma lsum_minus_pairs : forall x (a : list R) (l : list (R * R)), length a = length l ->
  exponentials a (map snd l) x - sum_of l x
  = sum_of (map (fun p => (fst p - fst (snd p), snd (snd p))) (combine a l)) x.
Proof.
  intros x a; induction a; intros [| [b k] l] E; try discriminate.
  - unfold exponentials, sum_of, lsum; simpl; lra.
  - injection E; intros E'. specialize (IHa l E').
    unfold exponentials, sum_of in *. cbn [combine map]. rewrite !lsum_cons. cbn [fst snd] in *. cbn [fst snd map] in IHa. lra.
Qed.

Lemma combine_rates : forall (a : list R) (l : list (R * R)), length a = length l ->
  map snd (map (fun p => (fst p - fst (snd p), snd (snd p))) (combine a l)) = map snd l.
Proof.
  induction a; intros [| [b k] l] E; try discriminate; [reflexivity |].
  injection E; intros E'. simpl. f_equal. apply IHa; exact E'.
Qed.

(** Two sums with the same rates that agree on enough points agree everywhere. *)
Lemma same_values : forall (a : list R) (l : list (R * R)) x0 dx n,
  length a = length l -> (length l <= n)%nat -> 0 < dx -> NoDup (map snd l) ->
  (forall j, (j < n)%nat ->
     exponentials a (map snd l) (x0 + INR j * dx) = sum_of l (x0 + INR j * dx)) ->
  forall x, exponentials a (map snd l) x = sum_of l x.
Proof.
  intros a l x0 dx n L Ln D N H x.
  set (d := map (fun p => (fst p - fst (snd p), snd (snd p))) (combine a l)).
  assert (Ld : length d = length l)
    by (unfold d; rewrite map_length, combine_length; lia).
  assert (Z : Forall (fun cz => fst cz = 0) (powers x0 dx d)).
  { apply powers_independent.
    - apply powers_nodup; [exact D |]. unfold d. rewrite combine_rates by exact L. exact N.
    - intros j Lj. unfold powers in Lj. rewrite map_length, Ld in Lj.
      rewrite <- sum_of_powers. unfold d. rewrite <- lsum_minus_pairs by exact L.
      rewrite H by lia. lra. }
  apply Rminus_diag_uniq. rewrite lsum_minus_pairs by exact L. fold d.
  apply lsum_zero. intros al I. unfold powers in Z. rewrite Forall_forall in Z.
  specialize (Z _ (in_map _ _ _ I)). simpl in Z.
  apply Rmult_integral in Z. destruct Z as [Z | Z].
  - rewrite Z; ring.
  - pose proof (exp_pos (snd al * x0)). lra.
Qed.

Lemma decomposition_found : forall lstsq polyroots curve_fit (l : list (R * R)) n x0 dx,
  let m := length l in
  let X := fun j => x0 + INR j * dx in
  (2 * m <= n)%nat -> 0 < dx ->
  exact_lstsq (n - m) m lstsq -> exact_roots m polyroots -> exact_fit m n curve_fit ->
  admissible l ->
  exists a lamda,
  exponential_decomposition lstsq polyroots curve_fit n X (fun j => sum_of l (X j)) m
    = Some (a, lamda) /\
  Permutation lamda (map snd l) /\ length a = m /\ forall x, exponentials a lamda x = sum_of l x.
Proof.
  intros lstsq polyroots curve_fit l n x0 dx m X Ln D Hl Hr Hf [N A].
  unfold exponential_decomposition.
  replace (X 1%nat - X 0%nat) with dx by (unfold X; simpl; lra).
  set (F := fun j => sum_of l (X j)).
  set (lamda := prony_rates _ _).
  assert (P : Permutation (map snd l) lamda).
  { apply rates_found; [exact D | exact N | |].
    - rewrite Forall_map. eapply Forall_impl; [| exact A]. intros al H; apply H.
    - assert (Lp : length (powers x0 dx l) = m) by apply map_length.
      pose proof (prony_roots lstsq polyroots (powers x0 dx l) n) as Q.
      cbv zeta in Q. rewrite Lp in Q.
      assert (E : F = fun k => lsum (fun cz => fst cz * snd cz ^ k) (powers x0 dx l)).
      { apply FunctionalExtensionality.functional_extensionality. intros j.
        unfold F, X. apply sum_of_powers. }
      change (fun i : nat => sum_of l (X (m + i)%nat)) with (fun i : nat => F (m + i)%nat).
      rewrite E. replace (map (fun k => exp (k * dx)) (map snd l))
        with (map snd (powers x0 dx l)) by (unfold powers; rewrite !map_map; reflexivity).
      apply Q; auto.
      + apply powers_nodup; assumption.
      + unfold powers. rewrite Forall_map. eapply Forall_impl; [| exact A].
        intros al [C _]. simpl. apply Rmult_integral_contrapositive. split; [exact C |].
        pose proof (exp_pos (snd al * x0)). lra. }
  destruct (Permutation_map_inv _ _ (Permutation_sym P)) as (l' & E & P').
  assert (Ll : length l' = m) by (symmetry; apply Permutation_length; exact P').
  assert (V : forall x, sum_of l' x = sum_of l x)
    by (intros; apply lsum_perm; apply Permutation_sym; exact P').
  rewrite E in *.
  destruct (Hf (map snd l') X F) as (a & Ea & La & Ha).
  - rewrite map_length; exact Ll.
  - exists (map fst l'). split; [rewrite map_length; exact Ll |].
    intros j _. rewrite sum_of_pairs, V. reflexivity.
  - exists a, (map snd l'). rewrite Ea. split; [reflexivity |].
    split; [apply Permutation_sym; exact P |]. split; [exact La |].
    intros x. rewrite <- V. apply (same_values _ l' x0 dx n).
    + congruence.
    + lia.
    + exact D.
    + eapply Permutation_NoDup; [exact P | exact N].
    + intros j Lj. rewrite V. exact (Ha j Lj).
Qed.

(** Least squares with one unknown *)
Lemma squares_zero : forall u n, lsum (fun i => u i * u i) (seq 0 n) = 0 ->
  forall i, (i < n)%nat -> u i = 0.
Proof.
  intros u n; induction n; intros H i L; [lia |].
  rewrite lsum_last in H.
  assert (G : forall k, 0 <= lsum (fun i => u i * u i) (seq 0 k)).
  { induction k; [unfold lsum; simpl; lra |]. rewrite lsum_last.
    pose proof (Rle_0_sqr (u k)). unfold Rsqr in *. lra. }
  pose proof (G n). pose proof (Rle_0_sqr (u n)). unfold Rsqr in *.
  destruct (Nat.eq_dec i n) as [-> |]; [apply Rsqr_0_uniq; unfold Rsqr; lra |].
  apply IHn; [lra | lia].
Qed.

Definition ratio (n : nat) (u b : nat -> R) : R :=
  lsum (fun i => u i * b i) (seq 0 n) / lsum (fun i => u i * u i) (seq 0 n).

Lemma ratio_exact : forall n u b x, (forall i, (i < n)%nat -> u i * x = b i) ->
  forall i, (i < n)%nat -> u i * ratio n u b = b i.
Proof.
  intros n u b x H i L. unfold ratio.
  rewrite (lsum_ext _ (fun i => u i * b i) (fun i => x * (u i * u i)))
    by (intros j I; apply in_seq in I; rewrite <- H by lia; ring).
  rewrite lsum_scal. set (s := lsum _ _). destruct (Req_dec s 0) as [Z | Z].
  - rewrite <- (H i L), (squares_zero u n Z i L). ring.
  - rewrite <- (H i L). field. exact Z.
Qed.

Definition lstsq1 (rows cols : nat) (A : nat -> nat -> R) (b : nat -> R) : nat -> R :=
  fun _ => ratio rows (fun i => A i 0%nat) b.

Definition roots1 (p : list R) : list (R * R) :=
  match p with c :: _ => [(- c, 0)] | [] => [] end.

Definition fit1 (lamda : list R) (n : nat) (X F : nat -> R) : option (list R) :=
  match lamda with
  | [] => None
  | _ => Some (map (fun k => ratio n (fun j => exp (k * X j)) F) lamda)
  end.

Lemma lstsq1_exact : forall rows, exact_lstsq rows 1 lstsq1.
Proof.
  intros rows A b; cbv zeta. intros [x H] i L.
  unfold lstsq1, lsum; simpl. rewrite Rplus_0_r.
  apply (ratio_exact rows (fun i => A i 0%nat) b (x 0%nat)); [| exact L].
  intros k Lk. specialize (H k Lk). unfold lsum in H; simpl in H. lra.
Qed.

Lemma roots1_exact : exact_roots 1 roots1.
Proof.
  intros p [| z [| ? ?]] L _ Lp H; try discriminate.
  destruct p as [| c p]; [discriminate |]. specialize (H 0). simpl in H.
  simpl. replace z with (- c) by lra. apply Permutation_refl.
Qed.

Lemma fit1_exact : forall n, exact_fit 1 n fit1.
Proof.
  intros n [| k [| ? ?]] X F L; try discriminate. cbv zeta.
  intros ([| a [| ? ?]] & La & H); try discriminate.
  eexists; split; [reflexivity |].
  split; [reflexivity |]. intros j Lj. unfold exponentials, lsum; simpl.
  rewrite Rplus_0_r, Rmult_comm.
  apply (ratio_exact n (fun j => exp (k * X j)) F a); [| exact Lj].
  intros i Li. specialize (H i Li). unfold exponentials, lsum in H; simpl in H. lra.
Qed.
