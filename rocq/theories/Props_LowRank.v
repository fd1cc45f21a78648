(** C18: low-rank matrices and their construction. *)
From Coq Require Import Reals.
From Coquelicot Require Import Complex.
From Coq Require Import List Arith Bool Lia Lra.
From Verif Require Import Model_Base Model_Ring Spec_Ring Proofs_Ring Model_LowRank Spec_LowRank Proofs_LowRank Proofs_ACA Proofs_ACA2.
Import ListNotations.
Open Scope nat_scope.

(** C18, operations: a low-rank matrix built from two factors represents their product, of the
    expected shape; products with vectors on both sides, negation and division by a number give the
    values obtained on the full matrix. Missing: division of a real matrix by a complex number
    (refuted below), multiplication by a number and products with 2-dimensional arrays (refused by
    the code), sums (refuted below). *)
Theorem low_rank_operations_partial :
  forall (A : coeffs), ring_laws A -> forall (l r : array2 A) (m : low_rank A),
  new_low_rank l r = Ok m ->
  let F := fun i j => ksum (a_w l) (fun p => kmul (a_at l i p) (a_at r p j)) in
  let h := a_h l in let w := a_w r in
  lr_shape m = (h, w) /\ represents m h w F /\
  (forall v, exists y, lr_matvec m w v = Ok y /\ forall i, i < h -> y i = ksum w (fun j => kmul (F i j) (v j))) /\
  (forall v, exists y, lr_rmatvec m h v = Ok y /\ forall j, j < w -> y j = ksum h (fun i => kmul (v i) (F i j))) /\
  (exists m', lr_neg m = Ok m' /\ lr_rank m' = lr_rank m /\ represents m' h w (fun i j => kopp (F i j))) /\
  (forall cplx inv, (cplx = true -> a_complex l = true) ->
     exists m', lr_truediv m cplx inv = Ok m' /\ lr_rank m' = lr_rank m /\ represents m' h w (fun i j => kmul (F i j) inv)).
Proof.
  intros A HA l r m H F h w. destruct (new_low_rank_inv _ _ _ H) as [-> HV].
  pose proof (represents_valid _ HV) as HR. cbn in HR.
  split; [reflexivity|]. split; [exact HR|].
  split; [intros v; now apply (lr_matvec_ok HA)|]. split; [intros v; now apply (lr_rmatvec_ok HA)|].
  split.
  - destruct (lr_neg_ok HA _ _ _ _ HV HR) as (m' & H1 & _ & H2). eauto.
  - intros cplx inv Hc. destruct (lr_truediv_ok HA _ _ _ _ cplx inv HV HR Hc) as (m' & H1 & _ & H2). eauto.
Qed.
Print Assumptions low_rank_operations_partial.

Definition ex_left : array2 complexes := @Array2 complexes 3 1 true (fun i _ => RtoC (INR i + 1)).
Definition ex_right : array2 complexes := @Array2 complexes 1 2 true (fun _ j => RtoC (INR j + 2)).
Example low_rank_operations_ex :
  exists m y, new_low_rank ex_left ex_right = Ok m /\ lr_shape m = (3, 2) /\ lr_rank m = 1 /\
    lr_matvec m 2 (fun _ => RtoC 1) = Ok y /\ y 2 = RtoC 15.
Proof.
  eexists. eexists. split; [reflexivity|]. split; [reflexivity|]. split; [reflexivity|]. split; [reflexivity|].
  cbn. apply injective_projections; cbn; ring.
Qed.

(** Dividing a real low-rank matrix by a complex number fails, while it is possible with arrays. *)
Theorem low_rank_complex_division_refuted :
  forall (A : coeffs) (m : low_rank A) inv, lr_valid m -> a_complex (lr_left m) = false ->
    lr_truediv m true inv = Err AssertionError.
Proof.
  intros A m inv [H1 H2] H3. unfold lr_truediv, new_low_rank. cbn. rewrite H1, Nat.eqb_refl, orb_true_r, H3. reflexivity.
Qed.
Print Assumptions low_rank_complex_division_refuted.
Example low_rank_complex_division_ex :
  exists m, new_low_rank (@Array2 complexes 1 1 false (fun _ _ => RtoC 1)) (@Array2 complexes 1 1 false (fun _ _ => RtoC 1)) = Ok m
    /\ lr_valid m /\ a_complex (lr_left m) = false.
Proof. eexists; split; [reflexivity|]. split; [split; reflexivity|reflexivity]. Qed.

(** Sums: the result is recompressed to the smallest of the two ranks. Whatever the decompositions
    used, there are two matrices of rank one whose sum is not represented by the result. *)
Theorem low_rank_sum_refuted :
  exists m n : low_rank complexes,
    lr_valid m /\ lr_valid n /\
    represents m 2 2 (fun i j => if (i =? 0) && (j =? 0) then RtoC 1 else RtoC 0) /\
    represents n 2 2 (fun i j => if (i =? 1) && (j =? 1) then RtoC 1 else RtoC 0) /\
    forall svd qr,
      ~ exists x, lr_add svd qr m n = Ok x /\ represents x 2 2 (fun i j => if i =? j then RtoC 1 else RtoC 0).
Proof.
  set (e := fun k => LowRank (@Array2 complexes 2 1 true (fun i _ => if i =? k then RtoC 1 else RtoC 0))
                             (@Array2 complexes 1 2 true (fun _ j => if j =? k then RtoC 1 else RtoC 0))).
  assert (HV : forall k, lr_valid (e k)) by (intros; split; reflexivity).
  exists (e 0), (e 1). split; [apply HV|]. split; [apply HV|].
  assert (HR : forall k, represents (e k) 2 2 (fun i j => if (i =? k) && (j =? k) then RtoC 1 else RtoC 0)).
  { intros k. generalize (represents_valid _ (HV k)). apply represents_ext. intros i j _ _. cbn.
    destruct (i =? k), (j =? k); cbn; apply injective_projections; cbn; ring. }
  split; [apply HR|]. split; [apply HR|].
  intros svd qr (x & Hx & Hr).
  pose proof (lr_add_rank svd qr _ _ _ Hx) as Hrank. change (lr_rank x <= 1) in Hrank.
  apply rank_represents in Hr. apply (rank_mono complexes_ring _ 1) in Hr; [|exact Hrank].
  destruct Hr as (u & v & Huv). change (K complexes) with C in *.
  assert (H00 := Huv 0 0 ltac:(lia) ltac:(lia)). assert (H01 := Huv 0 1 ltac:(lia) ltac:(lia)).
  assert (H10 := Huv 1 0 ltac:(lia) ltac:(lia)). assert (H11 := Huv 1 1 ltac:(lia) ltac:(lia)).
  cbn in H00, H01, H10, H11.
  assert (E : Cmult (Cplus (RtoC 0) (Cmult (u 0 0) (v 0 0))) (Cplus (RtoC 0) (Cmult (u 0 1) (v 0 1)))
            = Cmult (Cplus (RtoC 0) (Cmult (u 0 0) (v 0 1))) (Cplus (RtoC 0) (Cmult (u 0 1) (v 0 0)))) by ring.
  rewrite <- H00, <- H01, <- H10, <- H11 in E. apply (f_equal Re) in E. cbn in E. lra.
Qed.
Print Assumptions low_rank_sum_refuted.

(** Before it is recompressed, the sum is exact; its rank is the sum of the ranks. *)
Theorem low_rank_joined_sum_partial :
  forall (A : coeffs), ring_laws A -> forall (m n : low_rank A) h w F G,
  lr_valid m -> lr_valid n -> a_complex (lr_left m) = a_complex (lr_left n) ->
  represents m h w F -> represents n h w G ->
  exists x, lr_join m n = Ok x /\ lr_rank x = lr_rank m + lr_rank n /\
    represents x h w (fun i j => kadd (F i j) (G i j)).
Proof. intros A HA m n h w F G H1 H2 H3 H4 H5. destruct (lr_join_ok HA _ _ _ _ _ _ H1 H2 H3 H4 H5) as (x & E & _ & Hx). eauto. Qed.
Print Assumptions low_rank_joined_sum_partial.
Example low_rank_joined_sum_ex :
  exists m x, new_low_rank ex_left ex_right = Ok m /\ lr_join m m = Ok x /\ lr_rank x = 2 /\ lr_shape x = (3, 2).
Proof. eexists. eexists. split; [reflexivity|]. split; [reflexivity|]. split; reflexivity. Qed.

(** recompress, without any truncation: with valid QR and singular value decompositions of the
    matrices it meets, it may represent another matrix (it takes the columns of the right factor
    of the decomposition instead of its lines). *)
Definition perm3 : array2 complexes :=
  @Array2 complexes 3 3 true (fun i j => if i =? (j + 1) mod 3 then RtoC 1 else RtoC 0).
Definition id3 : array2 complexes := @Array2 complexes 3 3 true (fun i j => if i =? j then RtoC 1 else RtoC 0).
Definition diag132 : array2 complexes :=
  @Array2 complexes 3 3 true (fun i j => if i =? j then RtoC (nth i [1; 3; 2]%R 0%R) else RtoC 0).
Ltac upto H := match type of H with ?i < 0 => lia | ?i < S ?n => destruct i as [|i]; [|apply Nat.succ_lt_mono in H; upto H] end.
Ltac ccompute := cbn; apply injective_projections; cbn; ring.
Theorem recompress_refuted :
  exists (svd : array2 complexes -> array2 complexes * (nat -> C) * array2 complexes)
         (qr : array2 complexes -> array2 complexes * array2 complexes)
         (m : low_rank complexes) (F : nat -> nat -> C),
    lr_valid m /\ represents m 3 3 F /\ lr_rank m = 3 /\
    (let '(qa, ra) := qr (lr_left m) in let '(qb, rb) := qr (transpose (lr_right m)) in
     qr_product (lr_left m) qa ra /\ qr_product (transpose (lr_right m)) qb rb /\
     orthonormal_cols 3 qa /\ orthonormal_cols 3 qb /\
     exists x, np_matmul ra (transpose rb) = Ok x /\
       let '(u, s, v) := svd x in
       svd_product x u s v /\ orthonormal_cols 3 u /\ orthonormal_rows 3 v /\ singular_values 3 s) /\
    exists m', recompress svd qr m 3 = Ok m' /\ ~ represents m' 3 3 F.
Proof.
  exists (fun _ => (perm3, (fun i => RtoC (nth i [3; 2; 1]%R 0%R)), transpose perm3)), (fun x => (id3, x)),
    (LowRank diag132 id3), (a_at diag132).
  assert (HV : @lr_valid complexes (LowRank diag132 id3)) by (split; reflexivity).
  split; [exact HV|].
  split. { generalize (represents_valid _ HV). apply represents_ext. intros i j Hi Hj. cbn in Hi, Hj. upto Hi; upto Hj; ccompute. }
  split; [reflexivity|]. split.
  - cbn [lr_left lr_right]. split; [|split; [|split; [|split]]].
    + intros i j Hi Hj. cbn in Hi, Hj. upto Hi; upto Hj; ccompute.
    + intros i j Hi Hj. cbn in Hi, Hj. upto Hi; upto Hj; ccompute.
    + intros i j Hi Hj. upto Hi; upto Hj; ccompute.
    + intros i j Hi Hj. upto Hi; upto Hj; ccompute.
    + eexists. split; [reflexivity|]. split; [|split; [|split; [|split]]].
      * intros i j Hi Hj. cbn in Hi, Hj. upto Hi; upto Hj; ccompute.
      * intros i j Hi Hj. upto Hi; upto Hj; ccompute.
      * intros i j Hi Hj. upto Hi; upto Hj; ccompute.
      * intros p Hp. upto Hp; cbn; split; try reflexivity; lra.
      * intros p Hp. destruct p as [|[|p]]; [cbn; lra|cbn; lra|lia].
  - eexists. split; [reflexivity|]. intros HR. destruct (represents_inv _ _ _ _ HR) as (_ & _ & _ & HF).
    specialize (HF 0 0 ltac:(lia) ltac:(lia)). apply (f_equal Re) in HF. cbn in HF. lra.
Qed.
Print Assumptions recompress_refuted.

(** It also fails, for every decomposition with the shapes of numpy, on matrices with fewer lines or
    columns than the rank asked for. *)
Theorem recompress_fails_refuted :
  forall (A : coeffs) (svd : array2 A -> array2 A * (nat -> A) * array2 A) qr,
  svd_shapes svd -> qr_shapes qr ->
  forall (m : low_rank A), lr_valid m -> a_h (lr_left m) < lr_rank m -> a_h (lr_left m) < a_w (lr_right m) ->
  exists e, recompress svd qr m (lr_rank m) = Err e.
Proof.
  intros A svd qr H1 H2 m HV H3 H4. apply recompress_fails; auto. lia.
Qed.
Print Assumptions recompress_fails_refuted.
Example recompress_fails_ex :
  exists svd qr, @svd_shapes complexes svd /\ @qr_shapes complexes qr /\
  exists m, new_low_rank (@Array2 complexes 1 2 true (fun _ _ => RtoC 1)) (@Array2 complexes 2 2 true (fun _ _ => RtoC 1)) = Ok m /\
    lr_valid m /\ a_h (lr_left m) < lr_rank m /\ a_h (lr_left m) < a_w (lr_right m).
Proof.
  exists (fun x => (@Array2 complexes (a_h x) (a_h x) (a_complex x) (a_at x), (fun _ => RtoC 0), @Array2 complexes (a_w x) (a_w x) (a_complex x) (a_at x))),
    (fun x => (@Array2 complexes (a_h x) (Nat.min (a_h x) (a_w x)) (a_complex x) (a_at x), @Array2 complexes (Nat.min (a_h x) (a_w x)) (a_w x) (a_complex x) (a_at x))).
  split; [intros x u s v [= <- <- <-]; cbn; tauto|]. split; [intros x q r [= <- <-]; cbn; tauto|].
  eexists; split; [reflexivity|]. split; [split; reflexivity|]. cbn. lia.
Qed.

(** C18, truncated singular value decomposition: the rank is at most max_rank and the error is the
    sum of the dropped terms; in particular the matrix is exact when the dropped singular values are
    zero. It fails on rectangular matrices when max_rank is larger than one dimension. *)
Theorem truncated_svd_partial :
  forall (A : coeffs), ring_laws A -> forall (svd : array2 A -> array2 A * (nat -> A) * array2 A),
  svd_shapes svd -> forall x r u s v, svd x = (u, s, v) -> svd_product x u s v ->
  let n := Nat.min (a_h x) (a_w x) in let k := Nat.min r n in
  (r <= n \/ a_h x = a_w x ->
   exists m, from_svd svd x r = Ok m /\ lr_rank m <= r /\
    represents m (a_h x) (a_w x) (fun i j => ksub (a_at x i j)
      (ksum (n - k) (fun p => kmul (kmul (a_at u i (k + p)) (s (k + p))) (a_at v (k + p) j))))) /\
  (~ (r <= n \/ a_h x = a_w x) -> exists e, from_svd svd x r = Err e).
Proof.
  intros A HA svd Hs x r u s v E HP n k. split; intros H.
  - destruct (from_svd_ok HA svd Hs x r u s v E HP H) as (m & H1 & H2 & H3). exists m. split; [exact H1|].
    split; [lia|exact H3].
  - now apply from_svd_fails.
Qed.
Print Assumptions truncated_svd_partial.
Example truncated_svd_ex :
  exists svd u s v, @svd_shapes complexes svd /\ svd diag132 = (u, s, v) /\ svd_product diag132 u s v /\
    exists m, from_svd svd diag132 2 = Ok m /\ lr_rank m = 2.
Proof.
  exists (fun x => (@Array2 complexes (a_h x) (a_h x) (a_complex x) (fun i j => if i =? (j + 1) mod 3 then RtoC 1 else RtoC 0),
                    (fun i => RtoC (nth i [3; 2; 1]%R 0%R)),
                    @Array2 complexes (a_w x) (a_w x) (a_complex x) (fun j i => if i =? (j + 1) mod 3 then RtoC 1 else RtoC 0))).
  do 3 eexists. split; [intros x u s v [= <- <- <-]; cbn; tauto|]. split; [reflexivity|].
  split; [intros i j Hi Hj; cbn in Hi, Hj; upto Hi; upto Hj; ccompute|]. eexists; split; reflexivity.
Qed.

(** C18, cross approximation: the matrices returned have the expected shape, and a common rank that
    does not exceed max_rank (half the smallest dimension by default). *)
Theorem aca_rank_bound :
  forall get_row get_col nb_rows nb_cols id_main tol (M : nat -> nat -> nat -> C),
  describes get_row get_col nb_rows nb_cols M ->
  forall cplx max_rank r ms s,
  aca get_row get_col nb_rows nb_cols id_main tol cplx max_rank = Approx r ms s ->
  r <= match max_rank with Some n => n | None => Nat.min nb_rows nb_cols / 2 end /\
  forall id, lr_valid (ms id) /\ lr_shape (ms id) = (nb_rows, nb_cols) /\ lr_rank (ms id) = r.
Proof.
  intros. destruct (aca_ok _ _ _ _ _ _ _ H _ _ _ _ _ H0) as (H1 & _ & _ & ->). split; [exact H1|].
  intros id. split; [split; reflexivity|]. split; reflexivity.
Qed.
Print Assumptions aca_rank_bound.

(** C18, cross approximation: when the pivots of a matrix were not replaced by 1e-12 (the line of
    each chosen row has coefficient 1 in the left factor), the approximation agrees with the matrix
    on the chosen rows and columns, which are distinct; and it is exact when the rank returned is that
    of the matrix. *)
Theorem aca_interpolates_partial :
  forall get_row get_col nb_rows nb_cols id_main tol (M : nat -> nat -> nat -> C),
  describes get_row get_col nb_rows nb_cols M ->
  forall cplx max_rank r ms s,
  aca get_row get_col nb_rows nb_cols id_main tol cplx max_rank = Approx r ms s ->
  let row p := fst (nth p (w_crosses s) (0, 0)) in
  let col p := snd (nth p (w_crosses s) (0, 0)) in
  NoDup (map fst (w_crosses s)) /\ NoDup (map snd (w_crosses s)) /\ r <= length (w_crosses s) /\
  forall id, (forall p, p < r -> a_at (lr_left (ms id)) (row p) p = RtoC 1) ->
  exists F, represents (ms id) nb_rows nb_cols F /\
    (forall p, p < r ->
       (forall j, j < nb_cols -> F (row p) j = M id (row p) j) /\
       (forall i, i < nb_rows -> F i (col p) = M id i (col p))) /\
    (@rank_at_most complexes r nb_rows nb_cols (M id) -> forall i j, i < nb_rows -> j < nb_cols -> F i j = M id i j).
Proof.
  intros gr gc nr nc idm tol M HM cplx mr r ms s E row col.
  destruct (aca_ok _ _ _ _ _ _ _ HM _ _ _ _ _ E) as (_ & Hr & I & ->).
  destruct (inv_nodup _ _ _ _ _ _ I) as [N1 N2]. split; [exact N1|]. split; [exact N2|]. split; [exact Hr|].
  intros id Hu. change (unclamped s id r) in Hu.
  exists (approx s id r). split; [exact (represents_valid (aca_matrix nr nc cplx r s id) (conj eq_refl eq_refl))|].
  assert (Hz : forall a b, residual M s id r a b = RtoC 0 -> approx s id r a b = M id a b).
  { intros a b H. unfold residual in H. transitivity (Cminus (M id a b) (Cminus (M id a b) (approx s id r a b))); [ceq; ring|].
    rewrite H. ceq. ring. }
  split.
  - intros p Hp. destruct (inv_cross _ _ _ _ _ _ I id r Hr Hu p Hp) as [H1 H2].
    split; intros; apply Hz; [now apply H1|now apply H2].
  - intros HR i j Hi Hj. apply Hz. destruct (inv_rank _ _ _ _ _ _ I id r r Hr Hu HR) as (u & v & HB).
    rewrite Nat.sub_diag in HB. exact (HB i j Hi Hj).
Qed.
Print Assumptions aca_interpolates_partial.

(** C18, cross approximation: each pivot is the largest remaining entry of its row, that is of the error of the approximation by the
    previous crosses, and its row is that of the largest remaining entry of the previous column of the left factor. *)
Theorem aca_pivots :
  forall get_row get_col nb_rows nb_cols id_main tol (M : nat -> nat -> nat -> C),
  describes get_row get_col nb_rows nb_cols M ->
  forall cplx max_rank r ms s,
  aca get_row get_col nb_rows nb_cols id_main tol cplx max_rank = Approx r ms s ->
  let row p := fst (nth p (w_crosses s) (0, 0)) in
  let col p := snd (nth p (w_crosses s) (0, 0)) in
  let error p i j := Cminus (M id_main i j) (@ksum complexes p (fun q => Cmult (a_at (lr_left (ms id_main)) i q) (a_at (lr_right (ms id_main)) q j))) in
  (forall p j, p < r -> j < nb_cols -> (forall q, q < p -> col q <> j) -> (Cmod (error p (row p) j) <= Cmod (error p (row p) (col p)))%R) /\
  (forall p i, S p < r -> i < nb_rows -> (forall q, q <= p -> row q <> i) ->
     (Cmod (a_at (lr_left (ms id_main)) i p) <= Cmod (a_at (lr_left (ms id_main)) (row (S p)) p))%R).
Proof.
  intros gr gc nr nc idm tol M HM cplx mr r ms s E row col error.
  destruct (aca_ok _ _ _ _ _ _ _ HM _ _ _ _ _ E) as (_ & Hr & Inv & Hms).
  destruct (aca_pivots_of _ _ _ _ _ _ _ HM _ _ _ _ _ E) as (l & Hl & P). subst ms. split.
  - intros p j Hp Hj Hq. pose proof (piv_col _ _ _ _ _ _ P p j ltac:(lia) Hj Hq) as X.
    rewrite !(piv_right _ _ _ _ _ _ P) in X; [exact X|lia|exact (proj2 (inv_range _ _ _ _ _ _ Inv p ltac:(lia)))|lia|exact Hj].
  - intros p i Hp Hi Hq. exact (piv_row _ _ _ _ _ _ P p i ltac:(lia) Hi Hq).
Qed.
Print Assumptions aca_pivots.

(** C18, cross approximation with a positive tolerance: the last cross computed, which is dropped
    (unless it is the first one), is smaller than the tolerance relatively to the approximation
    including it, in Frobenius norm, for the main matrix. *)
Theorem aca_tolerance_partial :
  forall get_row get_col nb_rows nb_cols id_main tol (M : nat -> nat -> nat -> C),
  describes get_row get_col nb_rows nb_cols M -> (0 < tol)%R ->
  forall cplx max_rank r ms s,
  aca get_row get_col nb_rows nb_cols id_main tol cplx max_rank = Approx r ms s ->
  exists k x y, r = Nat.max 1 k /\ forall F, represents (ms id_main) nb_rows nb_cols F ->
    exists G, (k = r -> forall i j, i < nb_rows -> j < nb_cols -> G i j = Cplus (F i j) (Cmult (x i) (y j))) /\
    (k < r -> forall i j, i < nb_rows -> j < nb_cols -> G i j = F i j /\ F i j = Cmult (x i) (y j)) /\
    (frobenius2 nb_rows nb_cols (fun i j => Cmult (x i) (y j)) <= tol ^ 2 * frobenius2 nb_rows nb_cols G)%R.
Proof.
  intros gr gc nr nc idm tol M HM Ht cplx mr r ms s E.
  destruct (aca_ok _ _ _ _ _ _ _ HM _ _ _ _ _ E) as (_ & _ & _ & ->).
  destruct (aca_converged _ _ _ _ _ _ _ HM _ _ _ _ _ Ht E) as (k & Hr & _ & HN).
  exists k, (fun i => w_left s idm i k), (fun j => w_right s idm k j). split; [exact Hr|]. intros F HF.
  destruct (represents_unique _ _ _ _ _ _ _ HF (represents_valid (aca_matrix nr nc cplx r s idm) (conj eq_refl eq_refl))) as (_ & _ & HE).
  exists (approx s idm (S k)). split; [|split; [|exact HN]].
  - intros <- i j Hi Hj. rewrite HE by auto. reflexivity.
  - intros Hk i j Hi Hj. assert (k = 0) as -> by lia. cbn in Hr. subst r. rewrite HE by auto. split; [reflexivity|].
    cbn. change (@k0 complexes) with (RtoC 0). ceq. ring.
Qed.
Print Assumptions aca_tolerance_partial.

(** A case meeting the hypotheses of the three theorems: a matrix of rank one. *)
Definition ex_M (i j : nat) : C := RtoC (nth i [2; 4]%R 0%R).
Lemma ex_clamp : clamp (RtoC 2) = RtoC 2.
Proof.
  unfold clamp. destruct (Rlt_dec (Cmod (RtoC 2)) (/ 10 ^ 12)) as [H|]; [|reflexivity]. exfalso.
  rewrite Cmod_R, Rabs_pos_eq in H by lra. assert (/ 10 ^ 12 <= 1)%R; [|lra].
  rewrite <- Rinv_1. apply Rinv_le_contravar; [lra|]. apply pow_R1_Rle. lra.
Qed.
Example aca_ex :
  exists ms s, aca (fun i _ j => ex_M i j) (fun j _ i => ex_M i j) 2 1 0 0 true (Some 1) = Approx 1 ms s /\
    describes (fun i _ j => ex_M i j) (fun j _ i => ex_M i j) 2 1 (fun _ => ex_M) /\
    w_crosses s = [(0, 0)] /\ a_at (lr_left (ms 0)) 0 0 = RtoC 1.
Proof.
  unfold aca. cbn [aca_loop]. unfold aca_step. cbn -[clamp ex_M Rle_dec ksum complexes].
  match goal with |- context [clamp ?x] => replace x with (RtoC 2) end.
  2:{ unfold ex_M. cbn. apply injective_projections; cbn; ring. }
  rewrite ex_clamp. destruct (Rle_dec _ _) as [H|H].
  - exfalso. unfold ex_M in H. cbn in H. unfold Rdiv in H. field_simplify in H. lra.
  - destruct (Rlt_dec 0 0) as [H0|]; [lra|]. eexists. eexists. split; [reflexivity|].
    split; [intros id i j Hi Hj; split; reflexivity|]. split; [reflexivity|].
    unfold ex_M. cbn. apply injective_projections; cbn; field.
Qed.

Example aca_tolerance_ex :
  exists ms s, aca (fun _ _ _ => RtoC 1) (fun _ _ _ => RtoC 1) 1 1 0 2 true (Some 1) = Approx 1 ms s /\
    describes (fun _ _ _ => RtoC 1) (fun _ _ _ => RtoC 1) 1 1 (fun _ _ _ => RtoC 1).
Proof.
  unfold aca. cbn [aca_loop]. unfold aca_step. cbn -[clamp Rle_dec ksum complexes].
  match goal with |- context [clamp ?x] => replace x with (RtoC 1) end.
  2:{ cbn. apply injective_projections; cbn; ring. }
  assert (Hc : clamp (RtoC 1) = RtoC 1).
  { unfold clamp. destruct (Rlt_dec (Cmod (RtoC 1)) (/ 10 ^ 12)) as [H|]; [|reflexivity]. exfalso.
    rewrite Cmod_R, Rabs_pos_eq in H by lra. assert (/ 10 ^ 12 <= 1)%R; [|lra].
    rewrite <- Rinv_1. apply Rinv_le_contravar; [lra|]. apply pow_R1_Rle. lra. }
  rewrite Hc. destruct (Rle_dec _ _) as [H|H].
  - eexists. eexists. split; [reflexivity|]. intros id i j Hi Hj; split; reflexivity.
  - exfalso. apply H. cbn. unfold Rdiv.  field_simplify; lra.
Qed.

(** With a positive tolerance, between one face and other ones, the approximation does not report
    its failure to converge (NoConvergenceOfACA, which the engine catches): it raises another
    exception. *)
Theorem aca_one_face_refuted :
  forall get_row get_col nb_rows nb_cols id_main tol cplx,
  (0 < tol)%R -> nb_rows = 1 \/ nb_cols = 1 -> 1 <= nb_rows -> 1 <= nb_cols ->
  exists e, aca get_row get_col nb_rows nb_cols id_main tol cplx None = AcaError e.
Proof.
  intros gr gc nr nc idm tol cplx Ht H H1 H2. unfold aca. assert (Nat.min nr nc = 1) as -> by lia. cbn.
  destruct (Rlt_dec 0 tol); [eauto|contradiction].
Qed.
Print Assumptions aca_one_face_refuted.
Example aca_one_face_ex : (0 < 1 / 100)%R /\ (1 = 1 \/ 5 = 1) /\ 1 <= 1 /\ 1 <= 5.
Proof. split; [lra|]. lia. Qed.
