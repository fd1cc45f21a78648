(** Properties C12, C13, C14, C15 and C19: structured matrices.
    [represents m F] (Spec_Block.v) says that F is the full matrix denoted by m. *)
From Coq Require Import Reals.
From Coquelicot Require Import Complex.
From Coq Require Import List Arith Bool Lia Lra.
From Verif Require Import Model_Base Model_Ring Spec_Ring Proofs_Ring Model_Block Spec_Block
  Proofs_Block Proofs_Block2 Proofs_Block3 Proofs_Block4 Proofs_Block5 Proofs_Block6.
Import ListNotations.
Open Scope nat_scope.

(** A nested example: a 2x2 plain matrix with unequal partitions, whose blocks are a symmetric Toeplitz
    matrix of circulant matrices, and arrays. *)
Definition leaf (h w : nat) (s : R) : mat complexes :=
  Dense h w (fun i j => (RtoC (INR (i + 2 * j) + s) : complexes)).
Definition inner (s : R) : mat complexes :=
  Blk Circulant 1 3 (fun _ => 2) (fun _ => 2) (fun _ k => leaf 2 2 (s + INR k)).
Definition outer : mat complexes :=
  Blk SymToeplitz 1 2 (fun _ => 6) (fun _ => 6) (fun _ k => inner (10 * INR k)).
Definition demo : mat complexes :=
  Blk Plain 2 2 (fun i => if i =? 0 then 12 else 1) (fun j => if j =? 0 then 12 else 3)
    (fun i j => if i =? 0 then if j =? 0 then outer else leaf 12 3 1
                else if j =? 0 then leaf 1 12 2 else leaf 1 3 3).
Ltac upto := repeat match goal with
  | H : ?k < S _ |- _ => destruct k; [clear H|apply Nat.succ_lt_mono in H]
  | H : ?k < 0 |- _ => inversion H end.
Lemma inner_wf s : wf (inner s).
Proof. split; [reflexivity|]. split; [cbn; lia|]. intros k _. split; [exact I|reflexivity]. Qed.
Lemma outer_wf : wf outer.
Proof. split; [reflexivity|]. split; [cbn; lia|]. intros k _. split; [apply inner_wf|reflexivity]. Qed.
Lemma demo_wf : wf demo.
Proof.
  split; [split; lia|]. intros i j Hi Hj. upto; cbn [Nat.eqb];
    (split; [first [exact outer_wf|exact I]|reflexivity]).
Qed.
Lemma inner_ready s : fft_ready (inner s).
Proof. split; [discriminate|]. split; [left; exists 0; split; [lia|reflexivity]|intros; exact I]. Qed.
Lemma outer_ready : fft_ready outer.
Proof.
  split; [lia|]. split; [right|intros; apply inner_ready].
  intros k _. cbn. repeat split; auto.
Qed.
Lemma demo_ready : fft_ready demo.
Proof. intros i j Hi Hj. upto; cbn [Nat.eqb]; first [exact outer_ready|exact I]. Qed.
Lemma demo_depth : depth_le 3 demo.
Proof.
  intros i j Hi Hj. upto; cbn [Nat.eqb]; try exact I.
  intros a b _ _. intros a' b' _ _. exact I.
Qed.
Lemma demo_no_low : no_low_rank demo.
Proof.
  intros i j Hi Hj. upto; cbn [Nat.eqb]; try exact I.
  intros a b _ _. intros a' b' _ _. exact I.
Qed.

(** ** C13: the placement of the blocks *)
Theorem every_position_gets_its_block :
  forall c nc I J, c <> Plain -> valid_number c nc ->
    I < fst (nb_blocks c 1 nc) -> J < fst (nb_blocks c 1 nc) ->
    block_at c (fst (nb_blocks c 1 nc)) nc I J = Some (stored_index c (fst (nb_blocks c 1 nc)) I J)
    /\ stored_index c (fst (nb_blocks c 1 nc)) I J < nc
    /\ (forall k, k < nc -> forall l, block_indices c (fst (nb_blocks c 1 nc)) k = Some l ->
         In (I, J) l -> k = stored_index c (fst (nb_blocks c 1 nc)) I J).
Proof.
  intros c nc I J Hc Hv HI HJ. split; [exact (block_at_spec c nc I J Hc Hv HI HJ)|].
  split; [exact (stored_index_lt c nc I J Hc Hv HI HJ)|].
  intros k Hk l El Hin. destruct (block_indices_spec c nc k Hc Hv Hk) as (l' & E' & H').
  unfold nblocks in E'. rewrite E' in El. injection El as <-. apply H' in Hin. apply Hin.
Qed.
Print Assumptions every_position_gets_its_block.
Example placement_example :
  valid_number EvenCirculant 4 /\ fst (nb_blocks EvenCirculant 1 4) = 6 /\
  block_at EvenCirculant 6 4 5 1 = Some 2 /\ block_at Toeplitz 3 5 2 1 = Some 4.
Proof. cbn. repeat split; lia. Qed.
(** The positions of a stored block are those where the structure puts it. *)
Theorem stored_block_positions :
  forall c nc k, c <> Plain -> valid_number c nc -> k < nc ->
    exists l, block_indices c (fst (nb_blocks c 1 nc)) k = Some l /\
      forall I J, In (I, J) l <->
        I < fst (nb_blocks c 1 nc) /\ J < fst (nb_blocks c 1 nc)
        /\ k = stored_index c (fst (nb_blocks c 1 nc)) I J.
Proof. exact block_indices_spec. Qed.
Print Assumptions stored_block_positions.
(** The numbers of blocks outside [valid_number] are refused, or denote an empty matrix. *)
Theorem toeplitz_even_number_refused :
  forall (A : coeffs) nr nc (b : nat -> nat -> mat A), Nat.even nc = true -> mk Toeplitz nr nc b = Bad AssertionError.
Proof. intros A nr nc b H. unfold mk, mk_with_shapes. now rewrite H. Qed.
Print Assumptions toeplitz_even_number_refused.
Example toeplitz_even_example : mk (A := complexes) Toeplitz 1 4 (fun _ _ => leaf 1 1 0) = Bad AssertionError.
Proof. now apply toeplitz_even_number_refused. Qed.

(** ** C12: faithful to the full matrix *)
Theorem full_matrix_faithful :
  forall (A : coeffs) (m : mat A) F, wf m -> represents m F ->
    exists a, full_matrix m = Ok a /\ forall i j, i < height m -> j < width m -> a i j = Some (F i j).
Proof. exact @full_matrix_ok. Qed.
Print Assumptions full_matrix_faithful.
Theorem represented_matrix_exists_and_is_unique :
  forall (A : coeffs) (m : mat A), wf m ->
    (exists F, represents m F) /\
    (forall F G, represents m F -> represents m G -> forall i j, i < height m -> j < width m -> F i j = G i j).
Proof. intros A m H. split; [exists (entry m); now apply represents_entry|now apply represents_unique]. Qed.
Print Assumptions represented_matrix_exists_and_is_unique.
Example demo_represents : wf demo /\ shape demo = (13, 15) /\ represents demo (entry demo).
Proof. split; [exact demo_wf|]. split; [reflexivity|]. apply represents_entry, demo_wf. Qed.

Theorem no_toeplitz_faithful :
  forall (A : coeffs) (m : mat A), wf m ->
    wf (no_toeplitz m) /\ shape (no_toeplitz m) = shape m /\ plain_tree (no_toeplitz m) /\
    forall F, represents m F -> represents (no_toeplitz m) F.
Proof. exact @no_toeplitz_ok. Qed.
Print Assumptions no_toeplitz_faithful.
Example no_toeplitz_example : wf outer /\ ~ plain_tree outer.
Proof. split; [exact outer_wf|]. intros [H _]. discriminate. Qed.

Theorem scaling_faithful_partial :
  forall (A : coeffs) s (m : mat A), wf m -> no_low_rank m ->
    wf (scale s m) /\ shape (scale s m) = shape m /\
    forall F, represents m F -> represents (scale s m) (fun i j => kmul s (F i j)).
Proof. exact @scale_ok. Qed.
Print Assumptions scaling_faithful_partial.
Example scaling_example : wf demo /\ no_low_rank demo.
Proof. exact (conj demo_wf demo_no_low). Qed.
(** Low-rank blocks cannot be multiplied by a number. *)
Theorem scaling_low_rank_refuted :
  forall (A : coeffs) (s : A) h w r l rr, scale s (Low h w r l rr) = Bad TypeError.
Proof. reflexivity. Qed.
Print Assumptions scaling_low_rank_refuted.

Theorem negation_faithful :
  forall (A : coeffs), ring_laws A -> forall (m : mat A), wf m ->
    wf (neg m) /\ shape (neg m) = shape m /\
    forall F, represents m F -> represents (neg m) (fun i j => kopp (F i j)).
Proof. exact @neg_ok. Qed.
Print Assumptions negation_faithful.
Example negation_example : ring_laws complexes /\ wf demo.
Proof. exact (conj complexes_ring demo_wf). Qed.

(** Sums, differences and entrywise products of matrices with the same nesting. *)
Theorem entrywise_operation_faithful_partial :
  forall (A : coeffs) op (m m' : mat A), wf m -> wf m' -> no_low_rank m -> no_low_rank m' ->
    alike m m' -> shape m = shape m' ->
    wf (binary_op op m m') /\ shape (binary_op op m m') = shape m /\
    forall F F', represents m F -> represents m' F' ->
      represents (binary_op op m m') (fun i j => op (F i j) (F' i j)).
Proof. exact @binary_op_ok. Qed.
Print Assumptions entrywise_operation_faithful_partial.
Example entrywise_example : wf demo /\ no_low_rank demo /\ alike demo demo.
Proof. split; [exact demo_wf|]. split; [exact demo_no_low|apply alike_refl]. Qed.
(** A plain matrix plus a symmetric Toeplitz matrix with the same number of blocks is accepted, and
    the full matrix of the result has entries that were never set. *)
Definition two_by_two (c : cls) : mat complexes :=
  Blk c (if cls_eqb c Plain then 2 else 1) 2 (fun _ => 1) (fun _ => 1) (fun _ _ => leaf 1 1 1).
Theorem sum_of_different_structures_refuted :
  wf (two_by_two Plain) /\ wf (two_by_two SymToeplitz) /\
  shape (two_by_two Plain) = shape (two_by_two SymToeplitz) /\
  exists m a, binary_op kadd (two_by_two Plain) (two_by_two SymToeplitz) = m /\ full_matrix m = Ok a /\
    a 0 0 <> None /\ a 1 0 = None.
Proof.
  split; [split; [split; cbn; lia|intros; split; [exact I|reflexivity]]|].
  split; [split; [reflexivity|]; split; [cbn; lia|intros; split; [exact I|reflexivity]]|].
  split; [reflexivity|]. eexists. eexists. split; [reflexivity|]. split; [reflexivity|].
  split; [cbn; discriminate|reflexivity].
Qed.
Print Assumptions sum_of_different_structures_refuted.

Theorem product_with_array_faithful_partial :
  forall (A : coeffs), ring_laws A -> forall (m : mat A) wv, wf m -> no_low_rank m -> forall V F, represents m F ->
    exists R, matmat_dense m wv V = Ok R /\
      forall i q, i < height m -> q < wv -> R i q = ksum (width m) (fun p => kmul (F i p) (V p q)).
Proof. exact @matmat_dense_ok. Qed.
Print Assumptions product_with_array_faithful_partial.
Example product_with_array_example : ring_laws complexes /\ wf demo /\ no_low_rank demo.
Proof. exact (conj complexes_ring (conj demo_wf demo_no_low)). Qed.

Theorem product_of_block_matrices_partial :
  forall (A : coeffs), ring_laws A -> forall (x y : mat A) F G, wf x -> wf y ->
    array_blocks x -> array_blocks y -> compatible x y -> represents x F -> represents y G ->
    exists R, matmat_block x y = Some R /\ wf R /\ shape R = (height x, width y) /\
      represents R (fun i j => ksum (width x) (fun p => kmul (F i p) (G p j))).
Proof. exact @matmat_block_ok. Qed.
Print Assumptions product_of_block_matrices_partial.
Example product_of_block_matrices_example : forall s,
  wf (inner s) /\ array_blocks (inner s) /\ compatible (inner s) (inner s).
Proof.
  intros s. split; [apply inner_wf|]. split; [intros i j _ _; exact I|]. split; [reflexivity|auto].
Qed.
(** Block matrices of block matrices cannot be multiplied. *)
Theorem product_of_nested_matrices_refuted :
  exists b, matmat_block outer outer = Some b /\
    match b with Blk Plain 2 2 _ _ b => b 0 0 = Bad TypeError | _ => False end.
Proof. eexists. split; [reflexivity|]. reflexivity. Qed.
Print Assumptions product_of_nested_matrices_refuted.
(** The product of a plain block matrix with complex blocks and a real vector is refused. *)
Theorem real_vector_refuted :
  plain_matvec_typed true false 9 demo (fun _ => RtoC 1 : complexes) = Err TypeError.
Proof. reflexivity. Qed.
Print Assumptions real_vector_refuted.

Theorem full_like_faithful :
  forall (A : coeffs), ring_laws A -> forall (m : mat A) x, wf m ->
    wf (full_like m x) /\ shape (full_like m x) = shape m /\ represents (full_like m x) (fun _ _ => x).
Proof. exact @full_like_ok. Qed.
Print Assumptions full_like_faithful.
Theorem identity_like_faithful_partial :
  forall (A : coeffs), ring_laws A -> forall (m : mat A), wf m -> no_low_rank m -> square_diagonal m ->
    wf (identity_like m) /\ shape (identity_like m) = shape m /\
    represents (identity_like m) (fun i j => if i =? j then k1 else k0).
Proof. exact @identity_like_ok. Qed.
Print Assumptions identity_like_faithful_partial.
Example identity_like_example : wf outer /\ no_low_rank outer /\ square_diagonal outer.
Proof.
  split; [exact outer_wf|]. split; [intros i j _ _ i' j' _ _; exact I|].
  cbn. repeat split; auto; lia.
Qed.

(** ** C14: fast products *)
Theorem fast_product_exact_partial :
  forall (A : coeffs), ring_laws A -> fourier_laws A ->
    forall fuel d (m : mat A) F v, d < fuel -> wf m -> fft_ready m -> depth_le d m -> represents m F ->
      exists r, matvec fuel m v = Ok r /\ forall i, i < height m -> r i = times_vec (width m) F v i.
Proof. exact @matvec_ok. Qed.
Print Assumptions fast_product_exact_partial.
Example fast_product_example :
  ring_laws complexes /\ fourier_laws complexes /\ wf demo /\ fft_ready demo /\ depth_le 3 demo.
Proof.
  exact (conj complexes_ring (conj complexes_fourier (conj demo_wf (conj demo_ready demo_depth)))).
Qed.
(** A symmetric Toeplitz matrix of one block cannot be multiplied. *)
Theorem fast_product_single_block_refuted :
  forall fuel v, matvec (S fuel) (Blk SymToeplitz 1 1 (fun _ => 1) (fun _ => 1) (fun _ _ => leaf 1 1 1)) v
    = Err ValueError.
Proof. reflexivity. Qed.
Print Assumptions fast_product_single_block_refuted.
(** Blocks of different structures: the product is silently wrong. *)
Theorem fast_product_mixed_blocks_refuted :
  exists F r, wf (@mixed_circulant complexes) /\ represents (@mixed_circulant complexes) F /\
    matvec 6 (@mixed_circulant complexes) (fun i => if i =? 2 then k1 else k0) = Ok r /\
    r 1 <> times_vec 4 F (fun i => if i =? 2 then k1 else k0) 1.
Proof.
  assert (W : wf (@mixed_circulant complexes)).
  { split; [reflexivity|]. split; [cbn; lia|]. intros k Hk. upto; cbn [Nat.eqb].
    - split; [|reflexivity]. split; [reflexivity|]. split; [cbn; lia|]. intros; split; [exact I|reflexivity].
    - split; [|reflexivity]. split; [lia|]. intros; split; [exact I|reflexivity]. }
  destruct (mixed_value complexes_ring) as (r & Er & H).
  exists (entry mixed_circulant), r. split; [exact W|]. split; [now apply represents_entry|].
  split; [exact Er|]. rewrite H. unfold times_vec.
  cbn. intros E. apply (f_equal fst) in E. cbn in E. lra.
Qed.
Print Assumptions fast_product_mixed_blocks_refuted.

(** ** C15: products from the left *)
Theorem left_product_plain_partial :
  forall (A : coeffs), ring_laws A ->
    forall fuel d (m : mat A) F v, d < fuel -> wf m -> fft_ready m -> depth_le d m -> plain_tree m -> represents m F ->
      exists r, rmatvec fuel m v = Ok r /\ forall j, j < width m -> r j = vec_times (height m) v F j.
Proof.
  intros A HA fuel d m F v Hd Hw Hr Hdep Hp HF. exact (rmatvec_plain_tree HA fuel d m F v Hd Hw Hr Hdep Hp I HF).
Qed.
Print Assumptions left_product_plain_partial.
Theorem left_product_real_vector_partial :
  forall (A : coeffs), ring_laws A -> fourier_laws A -> kconj (@k0 A) = k0 ->
    forall fuel d (m : mat A) F v, d < fuel -> wf m -> fft_ready m -> depth_le d m -> one_level m ->
      (forall i, kconj (v i) = v i) -> represents m F ->
      exists r, rmatvec fuel m v = Ok r /\ forall j, j < width m -> r j = vec_times (height m) v F j.
Proof.
  intros A HA HF H0 fuel d m F v Hd Hw Hr Hdep Hp Hv HR. exact (rmatvec_real HA HF fuel H0 d m F v Hd Hw Hr Hdep Hp Hv HR).
Qed.
Print Assumptions left_product_real_vector_partial.
Example left_product_example : forall s,
  kconj (@k0 complexes) = k0 /\ wf (inner s) /\ fft_ready (inner s) /\ depth_le 1 (inner s) /\ one_level (inner s)
  /\ (forall i, kconj (RtoC (INR i) : complexes) = RtoC (INR i)).
Proof.
  intros s. split; [apply injective_projections; cbn; ring|]. split; [apply inner_wf|]. split; [apply inner_ready|].
  split; [intros i j _ _; exact I|]. split; [intros k _; exact I|]. intros i. apply injective_projections; cbn; ring.
Qed.
(** Structured matrices multiply the conjugate of the vector. *)
Theorem left_product_conjugates_refuted :
  forall (A : coeffs), ring_laws A -> fourier_laws A -> kconj (@k0 A) = k0 ->
    forall fuel d c nr nc hs ws (b : nat -> nat -> mat A) F v, c <> Plain -> d < fuel ->
      let m := Blk c nr nc hs ws b in
      wf m -> fft_ready m -> depth_le (S d) m -> (forall k, k < nc -> plain_tree (b 0 k)) -> represents m F ->
      exists r, rmatvec (S fuel) m v = Ok r /\
        forall j, j < width m -> r j = vec_times (height m) (fun i => kconj (v i)) F j.
Proof.
  intros A HA HF H0 fuel d c nr nc hs ws b F v Hc Hd m. exact (structured_rmatvec HA HF fuel d c nr nc hs ws b F v H0 Hc Hd).
Qed.
Print Assumptions left_product_conjugates_refuted.
Example left_product_conjugates_witness :
  exists r, rmatvec 3 (Blk Circulant 1 1 (fun _ => 1) (fun _ => 1) (fun _ _ => scalar (RtoC 1 : complexes)))
              (fun _ => (Ci : complexes)) = Ok r
    /\ r 0 <> vec_times 1 (fun _ => (Ci : complexes)) (fun _ _ => RtoC 1) 0.
Proof.
  destruct (left_product_conjugates_refuted complexes complexes_ring complexes_fourier
    ltac:(apply injective_projections; cbn; ring) 2 1 Circulant 1 1 (fun _ => 1) (fun _ => 1)
    (fun _ _ => scalar (RtoC 1 : complexes)) (fun _ _ => RtoC 1) (fun _ => (Ci : complexes))
    ltac:(discriminate) ltac:(lia)) as (r & Er & Hr).
  - split; [reflexivity|]. split; [cbn; lia|]. intros; split; [exact I|reflexivity].
  - split; [discriminate|]. split; [left; exists 0; split; [lia|reflexivity]|intros; exact I].
  - intros i j _ _. exact I.
  - intros k _. exact I.
  - intros I J _ _ i j _ _. reflexivity.
  - exists r. split; [exact Er|]. rewrite Hr by (cbn; lia). unfold vec_times. cbn.
    intros E. apply (f_equal snd) in E. cbn in E. lra.
Qed.
(** Circulant matrices of circulant matrices: wrong even for real vectors. *)
Theorem left_product_nested_refuted :
  exists F r, wf (@nested_identity complexes) /\ represents (@nested_identity complexes) F /\
    rmatvec 5 (@nested_identity complexes) (fun i => if i =? 1 then k1 else k0) = Ok r /\
    r 1 <> vec_times 3 (fun i => if i =? 1 then k1 else k0) F 1.
Proof.
  assert (W : wf (@nested_identity complexes)).
  { split; [reflexivity|]. split; [cbn; lia|]. intros k Hk. split; [|reflexivity].
    split; [reflexivity|]. split; [cbn; lia|]. intros; split; [exact I|reflexivity]. }
  destruct (nested_left_value complexes_ring complexes_fourier) as (r & Er & H).
  - apply injective_projections; cbn; ring.
  - apply injective_projections; cbn; ring.
  - exact complexes_conj.
  - intros n. apply injective_projections; reflexivity.
  - intros n. apply injective_projections; cbn; ring.
  - exists (entry nested_identity), r. split; [exact W|]. split; [now apply represents_entry|].
    split; [exact Er|]. rewrite H. unfold vec_times. cbn.
    intros E. apply (f_equal fst) in E. cbn in E. lra.
Qed.
Print Assumptions left_product_nested_refuted.

(** ** C19: cutting a matrix *)
Theorem cut_matrix_faithful_partial :
  forall (A : coeffs) H W (f : nat -> nat -> A) nx ny xs ys,
    0 < nx -> 0 < ny -> ny <= nx -> nsum nx xs = H -> nsum ny ys = W ->
    (forall j, j < ny -> nsum j xs = nsum j ys) ->
    wf (cut_matrix H W f nx ny xs ys) /\ shape (cut_matrix H W f nx ny xs ys) = (H, W) /\
    represents (cut_matrix H W f nx ny xs ys) f.
Proof. exact @cut_matrix_ok. Qed.
Print Assumptions cut_matrix_faithful_partial.
Example cut_matrix_example :
  nsum 3 (fun i => i + 1) = 6 /\ nsum 2 (fun j => if j =? 0 then 1 else 4) = 5
  /\ forall j, j < 2 -> nsum j (fun i => i + 1) = nsum j (fun j => if j =? 0 then 1 else 4).
Proof. split; [reflexivity|]. split; [reflexivity|]. intros j Hj. upto; reflexivity. Qed.
(** With other partitions, columns are lost or repeated. *)
Theorem cut_matrix_refuted :
  forall (A : coeffs) (f : nat -> nat -> A),
    shape (cut_matrix 3 3 f 2 2 (fun i => 2 - i) (fun j => 1 + j)) = (3, 2)
    /\ shape (cut_matrix 2 3 f 1 2 (fun _ => 2) (fun j => 1 + j)) = (2, 1)
    /\ nsum 2 (fun i => 2 - i) = 3 /\ nsum 2 (fun j => 1 + j) = 3 /\ nsum 1 (fun _ => 2) = 2.
Proof. intros A f. repeat split; reflexivity. Qed.
Print Assumptions cut_matrix_refuted.
Theorem cut_matrix_wrong_column_refuted :
  forall (A : coeffs) (f : nat -> nat -> A),
    match cut_matrix 3 3 f 2 2 (fun i => 2 - i) (fun j => 1 + j) with
    | Blk Plain 2 2 _ _ b => match b 0 1 with Dense 2 1 g => g 0 0 = f 0 2 | _ => False end
    | _ => False
    end.
Proof. reflexivity. Qed.
Print Assumptions cut_matrix_wrong_column_refuted.
