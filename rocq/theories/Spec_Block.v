(** What a structured matrix stands for, independently of the code that handles it. *)
From Coq Require Import List Arith Bool.
From Verif Require Import Model_Base Model_Ring Model_Block.
Import ListNotations.
Open Scope nat_scope.

(** The mathematical definition of the structures: which stored block is at position (I, J) of an
    n x n block matrix.
    - Toeplitz: A_0 ... A_(n-1) on the upper diagonals, A_(2n-2) ... A_n going down;
    - symmetric Toeplitz: |I - J|; circulant: (J - I) mod n;
    - symmetric circulant: the distance of J - I to the multiples of n. *)
Definition stored_index (c : cls) (n I J : nat) : nat :=
  match c with
  | Plain => 0
  | Toeplitz => if I <=? J then J - I else 2 * n - 1 - (I - J)
  | SymToeplitz => (I - J) + (J - I)
  | Circulant => (J + n - I) mod n
  | EvenCirculant | OddCirculant => let d := (J + n - I) mod n in Nat.min d (n - d)
  end.

(** Number of stored blocks a structure accepts. *)
Definition valid_number (c : cls) (nc : nat) : Prop :=
  match c with
  | Plain => True
  | Toeplitz => Nat.even nc = false
  | EvenCirculant => 2 <= nc
  | _ => 1 <= nc
  end.

Section Spec.
Context {A : coeffs}.
Notation entries := (nat -> nat -> K A).

(** [represents m F]: F (restricted to the shape of m) is the full matrix denoted by m. *)
Fixpoint represents (m : mat A) (F : entries) : Prop :=
  match m with
  | Bad _ => False
  | Dense h w f => forall i j, i < h -> j < w -> F i j = f i j
  | Low h w r l rr =>
      forall i j, i < h -> j < w -> F i j = ksum r (fun p => kmul (l i p) (rr p j))
  | Blk Plain nr nc hs ws b =>
      forall I J, I < nr -> J < nc ->
        represents (b I J) (fun i j => F (nsum I hs + i) (nsum J ws + j))
  | Blk c nr nc hs ws b =>
      let n := fst (nb_blocks c nr nc) in
      forall I J, I < n -> J < n ->
        represents (b 0 (stored_index c n I J)) (fun i j => F (I * hs 0 + i) (J * ws 0 + j))
  end.

(** Well-formed matrices: the blocks have the announced shapes, at every level. *)
Fixpoint wf (m : mat A) : Prop :=
  match m with
  | Bad _ => False
  | Dense _ _ _ => True
  | Low _ _ _ _ _ => True
  | Blk Plain nr nc hs ws b =>
      (0 < nr /\ 0 < nc) /\
      forall i j, i < nr -> j < nc -> wf (b i j) /\ shape (b i j) = (hs i, ws j)
  | Blk c nr nc hs ws b =>
      nr = 1 /\ valid_number c nc /\
      forall k, k < nc -> wf (b 0 k) /\ shape (b 0 k) = (hs 0, ws 0)
  end.

(** Same nesting of structures, down to the leaves. *)
Fixpoint alike (m m' : mat A) : Prop :=
  match m, m' with
  | Blk c nr nc hs ws b, Blk c' nr' nc' hs' ws' b' =>
      c = c' /\ nr = nr' /\ nc = nc' /\
      (forall i, hs i = hs' i) /\ (forall j, ws j = ws' j) /\
      (forall i j, i < nr -> j < nc -> alike (b i j) (b' i j))
  | Blk _ _ _ _ _ _, _ => False
  | _, Blk _ _ _ _ _ _ => False
  | _, _ => True
  end.

(** The stored blocks of a structured matrix have the same nesting, or one of them is not a block
    matrix. *)
Definition uniform (nc : nat) (bs : nat -> mat A) : Prop :=
  (exists k, k < nc /\ is_block (bs k) = false) \/ (forall k, k < nc -> alike (bs 0) (bs k)).

(** Nesting depth. *)
Fixpoint depth_le (d : nat) (m : mat A) : Prop :=
  match m with
  | Blk _ nr nc _ _ b =>
      match d with
      | O => False
      | S d => forall i j, i < nr -> j < nc -> depth_le d (b i j)
      end
  | _ => True
  end.

(** Matrices whose fast products are expected to work: at every level the stored blocks are
    uniform, and a symmetric Toeplitz matrix has at least two blocks. *)
Fixpoint fft_ready (m : mat A) : Prop :=
  match m with
  | Blk Plain nr nc _ _ b => forall i j, i < nr -> j < nc -> fft_ready (b i j)
  | Blk c nr nc _ _ b =>
      (c = SymToeplitz -> 2 <= nc) /\ uniform nc (b 0) /\ (forall k, k < nc -> fft_ready (b 0 k))
  | _ => True
  end.

(** No block Toeplitz or circulant structure at any level. *)
Fixpoint plain_tree (m : mat A) : Prop :=
  match m with
  | Blk c nr nc _ _ b => c = Plain /\ forall i j, i < nr -> j < nc -> plain_tree (b i j)
  | _ => True
  end.
(** Structured matrices have only plain blocks below them. *)
Fixpoint one_level (m : mat A) : Prop :=
  match m with
  | Blk Plain nr nc _ _ b => forall i j, i < nr -> j < nc -> one_level (b i j)
  | Blk _ _ nc _ _ b => forall k, k < nc -> plain_tree (b 0 k)
  | _ => True
  end.
(** No LowRankMatrix at any level. *)
Fixpoint no_low_rank (m : mat A) : Prop :=
  match m with
  | Low _ _ _ _ _ => False
  | Blk _ nr nc _ _ b => forall i j, i < nr -> j < nc -> no_low_rank (b i j)
  | _ => True
  end.

(** Products with the full matrix, as in any textbook. *)
Definition times_vec (w : nat) (F : entries) (v : nat -> A) (i : nat) : A :=
  ksum w (fun j => kmul (F i j) (v j)).
Definition vec_times (h : nat) (v : nat -> A) (F : entries) (j : nat) : A :=
  ksum h (fun i => kmul (v i) (F i j)).
End Spec.

(** The blocks of a block matrix are all arrays. *)
Definition is_dense {A : coeffs} (m : mat A) : Prop := match m with Dense _ _ _ => True | _ => False end.
Definition array_blocks {A : coeffs} (m : mat A) : Prop :=
  match m with
  | Blk _ nr nc _ _ b => forall i j, i < nr -> j < nc -> is_dense (b i j)
  | _ => False
  end.
(** The columns of m are cut as the lines of m'. *)
Definition compatible {A : coeffs} (m m' : mat A) : Prop :=
  match m, m' with
  | Blk c nr nc _ ws _, Blk c' nr' nc' hs' _ _ =>
      snd (nb_blocks c nr nc) = fst (nb_blocks c' nr' nc') /\
      forall j, j < snd (nb_blocks c nr nc) -> block_widths c ws j = block_heights c' hs' j
  | _, _ => False
  end.
