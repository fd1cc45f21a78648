(** Model of /repo/capytaine/matrices/block.py, block_toeplitz.py and builders.py.

    Simplifications, for the whole file:
    - coefficients are exact ([coeffs], Model_Ring.v); dtypes are not modelled (a real matrix is a
      matrix whose coefficients happen to be real, so the final numpy.real of a product of real
      matrices, block_toeplitz.py 223-226 and 243-246, is not represented);
    - a numpy array is a shape and a function giving its entries, a vector is a function; the length
      of a vector is that required by the matrix (numpy raises otherwise);
    - the exceptions raised while building a matrix are carried by the matrix value [Bad], because
      Python evaluates blocks eagerly: any use of [Bad] is an error;
    - the attempt to run products on object arrays (block_toeplitz.py 217-221) is taken to raise
      the exception the code expects, so that the list comprehension of line 221 is run;
    - caching of circulant_super_matrix and block_diagonalization on the (immutable) matrix is not
      modelled. *)
From Coq Require Import List Arith Bool.
From Verif Require Import Model_Base Model_Ring.
Import ListNotations.
Open Scope nat_scope.

(** The classes of block.py and block_toeplitz.py 23, 141, 176, 253, 290. *)
Inductive cls := Plain | Toeplitz | SymToeplitz | Circulant | EvenCirculant | OddCirculant.

Definition cls_eqb (a b : cls) : bool :=
  match a, b with
  | Plain, Plain | Toeplitz, Toeplitz | SymToeplitz, SymToeplitz
  | Circulant, Circulant | EvenCirculant, EvenCirculant | OddCirculant, OddCirculant => true
  | _, _ => false
  end.

(** isinstance(x, D) for x of class c (declarations of block_toeplitz.py). *)
Definition is_subclass (c d : cls) : bool :=
  cls_eqb c d ||
  match c, d with
  | _, Plain => true
  | SymToeplitz, Toeplitz | Circulant, Toeplitz
  | EvenCirculant, Toeplitz | OddCirculant, Toeplitz => true
  | EvenCirculant, SymToeplitz | OddCirculant, SymToeplitz => true
  | EvenCirculant, Circulant | OddCirculant, Circulant => true
  | _, _ => false
  end.

Section Block.
Context {A : coeffs}.
Notation vec := (nat -> K A).
Notation entries := (nat -> nat -> K A).

(** A matrix: a numpy array, a LowRankMatrix (low_rank.py 23-56: left h x r, right r x w), or a
    block matrix (block.py 51-77) with its class, _stored_nb_blocks (nr, nc), _stored_block_shapes
    (hs, ws) and _stored_blocks b. *)
Inductive mat :=
| Bad (e : pyexn)
| Dense (h w : nat) (f : entries)
| Low (h w r : nat) (left right : entries)
| Blk (c : cls) (nr nc : nat) (hs ws : nat -> nat) (b : nat -> nat -> mat).

(** _compute_nb_blocks: block.py 83-84, block_toeplitz.py 36-40, 147-149, 182-184, 272-275, 311-313. *)
Definition nb_blocks (c : cls) (nr nc : nat) : nat * nat :=
  match c with
  | Plain => (nr, nc)
  | Toeplitz => ((nc + 1) / 2, (nc + 1) / 2)
  | SymToeplitz | Circulant => (nc, nc)
  | EvenCirculant => ((nc - 1) * 2, (nc - 1) * 2)
  | OddCirculant => (nc * 2 - 1, nc * 2 - 1)
  end.

(** _compute_shape: block.py 79-81, block_toeplitz.py 31-34. *)
Definition shape (m : mat) : nat * nat :=
  match m with
  | Bad _ => (0, 0)
  | Dense h w _ => (h, w)
  | Low h w _ _ _ => (h, w)
  | Blk Plain nr nc hs ws _ => (nsum nr hs, nsum nc ws)
  | Blk c nr nc hs ws _ => (fst (nb_blocks c nr nc) * hs 0, snd (nb_blocks c nr nc) * ws 0)
  end.
Definition height (m : mat) := fst (shape m).
Definition width (m : mat) := snd (shape m).

Definition is_block (m : mat) : bool := match m with Blk _ _ _ _ _ _ => true | _ => false end.

(** The constructor without checks (block.py 51-71): the shapes are read on the first column and on
    the first line; a block Toeplitz matrix requires an odd number of blocks (block_toeplitz.py 38). *)
Definition mk_with_shapes (c : cls) (nr nc : nat) (hs ws : nat -> nat) (b : nat -> nat -> mat) : mat :=
  match c with
  | Toeplitz => if Nat.even nc then Bad AssertionError else Blk c nr nc hs ws b
  | _ => Blk c nr nc hs ws b
  end.
Definition mk (c : cls) (nr nc : nat) (b : nat -> nat -> mat) : mat :=
  mk_with_shapes c nr nc (fun i => height (b i 0)) (fun j => width (b 0 j)) b.

(** ** Positions of the blocks *)

(** The while loop of block_toeplitz.py 74-79 (unfolded: it runs n - max(i, j) times). *)
Definition diagonal (n i j : nat) : list (nat * nat) :=
  map (fun t => (i + t, j + t)) (seq 0 (n - Nat.max i j)).

(** BlockToeplitzMatrix._block_indices_of: block_toeplitz.py 62-79. None: AttributeError. *)
Definition toeplitz_indices (n k : nat) : option (list (nat * nat)) :=
  if k <? n then Some (diagonal n 0 k)
  else if (n <=? k) && (k <? 2 * n) then Some (diagonal n (2 * n - 1 - k) 0)
  else None.

Definition union (a b : option (list (nat * nat))) : option (list (nat * nat)) :=
  match a, b with Some x, Some y => Some (x ++ y) | _, _ => None end.

(** _block_indices_of of the five classes: block_toeplitz.py 62-79, 151-160, 186-195, 277-287,
    315-325. The sets are lists here. None: AttributeError or AssertionError. *)
Definition block_indices (c : cls) (n k : nat) : option (list (nat * nat)) :=
  match c with
  | Plain => None
  | Toeplitz => toeplitz_indices n k
  | SymToeplitz =>
      if k <? n then
        if k =? 0 then toeplitz_indices n 0
        else union (toeplitz_indices n k) (toeplitz_indices n (2 * n - k - 1))
      else None
  | Circulant =>
      if k <? n then
        if k =? 0 then toeplitz_indices n 0
        else union (toeplitz_indices n k) (toeplitz_indices n (n + k - 1))
      else None
  | EvenCirculant =>
      if 2 * k <? n + 2 then
        if k =? 0 then toeplitz_indices n 0
        else union (union (union (toeplitz_indices n k) (toeplitz_indices n (n + k - 1)))
                          (toeplitz_indices n (n - k))) (toeplitz_indices n (2 * n - k - 1))
      else None
  | OddCirculant =>
      if 2 * k <? n + 1 then
        if k =? 0 then toeplitz_indices n 0
        else union (union (union (toeplitz_indices n k) (toeplitz_indices n (n + k - 1)))
                          (toeplitz_indices n (n - k))) (toeplitz_indices n (2 * n - k - 1))
      else None
  end.

Definition pair_eqb (p q : nat * nat) : bool := (fst p =? fst q) && (snd p =? snd q).
Definition mem_pair (p : nat * nat) (l : list (nat * nat)) : bool := existsb (pair_eqb p) l.

(** all_blocks: block_toeplitz.py 81-87: which stored block ends up at position (i, j)
    (the last one written; numpy.empty of objects leaves None elsewhere). *)
Definition block_at (c : cls) (n nc i j : nat) : option nat :=
  fold_left (fun acc k =>
               match block_indices c n k with
               | Some l => if mem_pair (i, j) l then Some k else acc
               | None => acc
               end) (seq 0 nc) None.
Definition indices_defined (c : cls) (n nc : nat) : bool :=
  forallb (fun k => match block_indices c n k with Some _ => true | None => false end) (seq 0 nc).
(** all_blocks: block.py 122-125 for plain matrices. *)
Definition all_blocks (c : cls) (nr nc : nat) (b : nat -> nat -> mat) (i j : nat) : mat :=
  match c with
  | Plain => b i j
  | _ => let n := fst (nb_blocks c nr nc) in
         if indices_defined c n nc then
           match block_at c n nc i j with Some k => b 0 k | None => Bad TypeError end
         else Bad AttributeError
  end.
(** block_shapes: block.py 127-137, block_toeplitz.py 50-55. *)
Definition block_heights (c : cls) (hs : nat -> nat) : nat -> nat :=
  match c with Plain => hs | _ => fun _ => hs 0 end.
Definition block_widths (c : cls) (ws : nat -> nat) : nat -> nat :=
  match c with Plain => ws | _ => fun _ => ws 0 end.

(** Insertion sort of the positions: sorted(...) of block_toeplitz.py 92. *)
Definition pos_leb (p q : nat * nat) : bool :=
  (fst p <? fst q) || ((fst p =? fst q) && (snd p <=? snd q)).
Fixpoint insert_pos (p : nat * nat) (l : list (nat * nat)) : list (nat * nat) :=
  match l with
  | [] => [p]
  | q :: l' => if pos_leb p q then p :: l else q :: insert_pos p l'
  end.
Definition sort_pos (l : list (nat * nat)) : list (nat * nat) := fold_right insert_pos [] l.

(** _stored_block_positions: block.py 139-156 and block_toeplitz.py 89-105:
    the positions of the stored block (i, j), in the frame of top left corner (x, y). *)
Definition stored_positions (c : cls) (nr nc : nat) (hs ws : nat -> nat) (x y i j : nat)
  : option (list (nat * nat)) :=
  match c with
  | Plain => Some [(x + nsum i hs, y + nsum j ws)]
  | _ => match block_indices c (fst (nb_blocks c nr nc)) j with
         | Some l => Some (sort_pos (map (fun p => (x + fst p * hs 0, y + snd p * ws 0)) l))
         | None => None
         end
  end.

(** Iteration over a rectangle of indices, line by line (itertools.product). *)
Definition rect (nr nc : nat) : list (nat * nat) :=
  flat_map (fun i => map (fun j => (i, j)) (seq 0 nc)) (seq 0 nr).

(** ** The full matrix *)

(** The content of a numpy array of objects being filled; None: still uninitialised. *)
Definition arr := nat -> nat -> option (K A).

(** full_matrix[x:x+h, y:y+w] = values *)
Definition blit (a : arr) (x y h w : nat) (f : nat -> nat -> option (K A)) : arr :=
  fun i j => if (x <=? i) && (i <? x + h) && (y <=? j) && (j <? y + w) then f (i - x) (j - y) else a i j.

Definition low_full (r : nat) (left right : entries) : entries :=
  fun i j => ksum r (fun p => kmul (left i p) (right p j)).

(** BlockMatrix._put_in_full_matrix: block.py 158-179. The exceptions are None. *)
Fixpoint put (m : mat) (a : arr) (x y : nat) {struct m} : option arr :=
  match m with
  | Bad _ => None
  | Dense h w f => Some (blit a x y h w (fun i j => Some (f i j)))
  | Low h w r l rr => Some (blit a x y h w (fun i j => Some (low_full r l rr i j)))
  | Blk c nr nc hs ws b =>
      fold_left (fun (oa : option arr) (ij : nat * nat) =>
        match oa with
        | None => None
        | Some a =>
          match stored_positions c nr nc hs ws x y (fst ij) (snd ij) with
          | None => None
          | Some ps =>
            if is_block (b (fst ij) (snd ij)) then
              match ps with
              | [] => None
              | p :: rest =>
                match put (b (fst ij) (snd ij)) a (fst p) (snd p) with
                | None => None
                | Some a1 =>
                  let h := height (b (fst ij) (snd ij)) in
                  let w := width (b (fst ij) (snd ij)) in
                  Some (fold_left (fun a q => blit a (fst q) (snd q) h w
                                       (fun i j => a (fst p + i) (snd p + j))) rest a1)
                end
              end
            else
              fold_left (fun oa q => match oa with
                                     | None => None
                                     | Some a => put (b (fst ij) (snd ij)) a (fst q) (snd q)
                                     end) ps (Some a)
          end
        end) (rect (match c with Plain => nr | _ => 1 end) nc) (Some a)
  end.

(** BlockMatrix.full_matrix: block.py 181-186 (and __array__). The entries of the result; None
    where the array is left uninitialised. *)
Definition full_matrix (m : mat) : result arr :=
  match put m (fun _ _ => None) 0 0 with Some a => Ok a | None => Err OtherException end.

(** The entries of a matrix, once assembled. *)
Definition full_entries (m : mat) : entries :=
  fun i j => match full_matrix m with
             | Ok a => match a i j with Some x => x | None => junk end
             | Err _ => junk
             end.

(** no_toeplitz: block.py 193-197. *)
Fixpoint no_toeplitz (m : mat) : mat :=
  match m with
  | Blk c nr nc hs ws b =>
      let nb := nb_blocks c nr nc in
      mk Plain (fst nb) (snd nb)
         (fun i j => match c with
                     | Plain => no_toeplitz (b i j)
                     | _ => if indices_defined c (fst nb) nc then
                              match block_at c (fst nb) nc i j with
                              | Some k => no_toeplitz (b 0 k)
                              | None => Bad TypeError
                              end
                            else Bad AttributeError
                     end)
  | _ => m
  end.

(** ** Entrywise operations *)

(** _apply_unary_op (block.py 232-236) with a multiplication by a number (269-271) or a negation
    (257-259; LowRankMatrix.__neg__, low_rank.py 310-311). A LowRankMatrix cannot be multiplied by
    a number: TypeError. *)
Fixpoint scale (s : A) (m : mat) : mat :=
  match m with
  | Bad e => Bad e
  | Dense h w f => Dense h w (fun i j => kmul s (f i j))
  | Low h w r l rr => Bad TypeError
  | Blk c nr nc hs ws b => Blk c nr nc hs ws (fun i j => scale s (b i j))
  end.
Fixpoint neg (m : mat) : mat :=
  match m with
  | Bad e => Bad e
  | Dense h w f => Dense h w (fun i j => kopp (f i j))
  | Low h w r l rr => Low h w r (fun i p => kopp (l i p)) rr
  | Blk c nr nc hs ws b => Blk c nr nc hs ws (fun i j => neg (b i j))
  end.

(** _apply_binary_op (block.py 238-248), for an operator acting entrywise on arrays (add, sub, mul).
    Operations mixing an array with a block matrix or a LowRankMatrix, and arrays of different
    shapes (numpy broadcasting), are not modelled: [Bad]. *)
Fixpoint binary_op (op : A -> A -> A) (m m' : mat) {struct m} : mat :=
  match m, m' with
  | Dense h w f, Dense h' w' f' =>
      if (h =? h') && (w =? w') then Dense h w (fun i j => op (f i j) (f' i j)) else Bad ValueError
  | Blk c nr nc hs ws b, Blk c' nr' nc' hs' ws' b' =>
      if is_subclass c' c && pair_eqb (nb_blocks c nr nc) (nb_blocks c' nr' nc') then
        mk_with_shapes c (Nat.min nr nr') (Nat.min nc nc') hs ws
          (fun i j => binary_op op (b i j) (b' i j))
      else Bad TypeError
  | _, _ => Bad TypeError
  end.

(** ** Fourier transform of a list of matrices *)

(** numpy.fft.fft(list of arrays, axis=0): the k-th array. The arrays should have the same shape. *)
Definition fft_dense (n : nat) (ms : nat -> mat) (k : nat) : mat :=
  if forallb (fun t => pair_eqb (shape (ms t)) (shape (ms 0))) (seq 0 n)
  then Dense (height (ms 0)) (width (ms 0)) (fun i j => fft n (fun t => full_entries (ms t) i j) k)
  else Bad ValueError.

(** matrix._stored_blocks[i, j] *)
Definition stored_block (m : mat) (i j : nat) : mat :=
  match m with
  | Blk c nr nc hs ws b => if (i <? nr) && (j <? nc) then b i j else Bad IndexError
  | Bad e => Bad e
  | _ => Bad AttributeError
  end.
(** any(isinstance(block, np.ndarray) or isinstance(block, LowRankMatrix)) for the n matrices. *)
Definition some_leaf (n : nat) (ms : nat -> mat) : bool :=
  existsb (fun t => negb (is_block (ms t))) (seq 0 n).

(** BlockMatrix.fft_of_list: block.py 379-417. The validity checks (390-395) assert non-empty
    lists, which are always true. The result has the class and the shapes of the first matrix.
    The recursion is on the depth (fuel) of the first matrix. *)
Fixpoint fft_of_list (fuel n : nat) (ms : nat -> mat) (k : nat) : mat :=
  match fuel with
  | O => Bad RuntimeError
  | S fuel =>
    match ms 0 with
    | Blk c nr nc hs ws _ =>
        Blk c nr nc hs ws
          (fun i j => let bl := fun t => stored_block (ms t) i j in
                      if some_leaf n bl then fft_dense n bl k else fft_of_list fuel n bl k)
    | _ => Bad AttributeError
    end
  end.

(** block_diagonalize: block_toeplitz.py 199-209, for a matrix with n x n blocks of shape (h, w),
    nc stored blocks and first column [col]. *)
Definition block_diagonalize (fuel n nc : nat) (stored col : nat -> mat) (k : nat) : mat :=
  if forallb (fun t => is_block (stored t)) (seq 0 nc)
  then fft_of_list fuel n col k
  else fft_dense n col k.

(** ** Products *)

(** [f 0; ...; f (n-1)], stopping at the first error. *)
Fixpoint collect {B} (n : nat) (f : nat -> result B) : result (list B) :=
  match n with
  | O => Ok []
  | S n => bind (collect n f) (fun l => bind (f n) (fun x => Ok (l ++ [x])))
  end.

Definition slice (v : vec) (from : nat) : vec := fun i => v (from + i).
Definition zeros : vec := fun _ => k0.

(** result[from:from+len] += x *)
Definition add_slice (res : vec) (from len : nat) (x : vec) : vec :=
  fun i => if (from <=? i) && (i <? from + len) then kadd (res i) (x (i - from)) else res i.

(** matvec of the classes: block.py 294-308, block_toeplitz.py 118-124 and 211-226;
    LowRankMatrix._mul_with_vector, low_rank.py 329-330.
    The product of an EvenCirculant or OddCirculant matrix is that of BlockCirculantMatrix (MRO). *)
Fixpoint matvec (fuel : nat) (m : mat) (v : vec) {struct fuel} : result vec :=
  match fuel with
  | O => Err RuntimeError
  | S fuel =>
    let circulant c nc hs ws b v :=
      (* block_toeplitz.py 211-226 *)
      let n := fst (nb_blocks c 1 nc) in
      let h := hs 0 in let w := ws 0 in
      let D := block_diagonalize fuel n nc (b 0) (fun i => all_blocks c 1 nc b i 0) in
      bind (collect n (fun k => matvec fuel (D k) (fun j => fft n (fun i => v (i * w + j)) k)))
           (fun rs => Ok (fun i => ifft n (fun k => nth k rs zeros (i mod h)) (i / h)))
    in
    match m with
    | Bad e => Err e
    | Dense h w f => Ok (fun i => ksum w (fun j => kmul (f i j) (v j)))
    | Low h w r l rr =>
        Ok (fun i => ksum r (fun p => kmul (l i p) (ksum w (fun j => kmul (rr p j) (v j)))))
    | Blk Plain nr nc hs ws b =>
        fold_left (fun acc ij =>
          bind acc (fun res =>
          bind (matvec fuel (b (fst ij) (snd ij)) (slice v (nsum (snd ij) ws))) (fun x =>
          Ok (add_slice res (nsum (fst ij) hs) (hs (fst ij)) x)))) (rect nr nc) (Ok zeros)
    | Blk Toeplitz nr nc hs ws b =>
        (* circulant_super_matrix, block_toeplitz.py 109-124 *)
        let w := width m in
        circulant Circulant nc hs ws b (fun j => if j <? w then v j else k0)
    | Blk SymToeplitz nr nc hs ws b =>
        (* circulant_super_matrix, block_toeplitz.py 162-169; numpy.zeros of a negative size raises *)
        let w := width m in
        if snd (nb_blocks EvenCirculant 1 nc) * ws 0 <? w then Err ValueError
        else circulant EvenCirculant nc hs ws b (fun j => if j <? w then v j else k0)
    | Blk c nr nc hs ws b => circulant c nc hs ws b v
    end
  end.

(** rmatvec of the classes: block.py 310-327, block_toeplitz.py 126-134 and 228-246; the product
    [vector @ array] and LowRankMatrix._rmul_with_vector, low_rank.py 338-339. *)
Fixpoint rmatvec (fuel : nat) (m : mat) (v : vec) {struct fuel} : result vec :=
  match fuel with
  | O => Err RuntimeError
  | S fuel =>
    let circulant c nc hs ws b v :=
      (* block_toeplitz.py 228-246: line 231 conjugates the vector *)
      let v := fun i => kconj (v i) in
      let n := fst (nb_blocks c 1 nc) in
      let h := hs 0 in let w := ws 0 in
      let D := block_diagonalize fuel n nc (b 0) (fun i => all_blocks c 1 nc b i 0) in
      bind (collect n (fun k => rmatvec fuel (D k) (fun i => ifft n (fun p => v (p * h + i)) k)))
           (fun rs => Ok (fun j => fft n (fun k => nth k rs zeros (j mod w)) (j / w)))
    in
    match m with
    | Bad e => Err e
    | Dense h w f => Ok (fun j => ksum h (fun i => kmul (v i) (f i j)))
    | Low h w r l rr =>
        Ok (fun j => ksum r (fun p => kmul (ksum h (fun i => kmul (v i) (l i p))) (rr p j)))
    | Blk Plain nr nc hs ws b =>
        fold_left (fun acc ji =>
          bind acc (fun res =>
          bind (rmatvec fuel (b (snd ji) (fst ji)) (slice v (nsum (snd ji) hs))) (fun x =>
          Ok (add_slice res (nsum (fst ji) ws) (ws (fst ji)) x)))) (rect nc nr) (Ok zeros)
    | Blk Toeplitz nr nc hs ws b =>
        let h := height m in
        circulant Circulant nc hs ws b (fun i => if i <? h then v i else k0)
    | Blk SymToeplitz nr nc hs ws b =>
        let h := height m in
        if fst (nb_blocks EvenCirculant 1 nc) * hs 0 <? h then Err ValueError
        else circulant EvenCirculant nc hs ws b (fun i => if i <? h then v i else k0)
    | Blk c nr nc hs ws b => circulant c nc hs ws b v
    end
  end.

(** cut_matrix: builders.py 16-41: blocks of heights xs (nx of them) and widths ys (ny).
    Both offsets are accumulated from x_shapes (lines 36 and 38), and zip stops at the end of the
    shortest list: there are min(nx, ny) columns.
    Slices past the end of the array are shortened as numpy does. *)
Definition cut_matrix (H W : nat) (f : entries) (nx ny : nat) (xs ys : nat -> nat) : mat :=
  mk Plain nx (Nat.min nx ny)
    (fun i j => Dense (Nat.min (xs i) (H - nsum i xs)) (Nat.min (ys j) (W - nsum j xs))
                      (fun p q => f (nsum i xs + p) (nsum j xs + q))).

(** matmat (block.py 329-348) of a block matrix with an array of more than one column: the array is
    cut along the column widths of the matrix; each product of a block and a slice is summed with
    sum(...), and the result assembled. (block.py 354-355: with a single column, matvec is used.)
    Products of LowRankMatrix with 2-dimensional arrays are refused (low_rank.py 325-328). *)
Fixpoint matmat_dense (m : mat) (wv : nat) (V : entries) {struct m} : result entries :=
  match m with
  | Bad e => Err e
  | Dense h w f => Ok (fun i j => ksum w (fun p => kmul (f i p) (V p j)))
  | Low h w r l rr => Err TypeError
  | Blk c nr nc hs ws b =>
      let nb := nb_blocks c nr nc in
      let H := block_heights c hs in let W := block_widths c ws in
      bind (collect (fst nb) (fun i =>
        fold_left (fun acc j =>
          bind acc (fun res : entries =>
          bind (match c with
                | Plain => matmat_dense (b i j) wv (fun p q => V (nsum j W + p) q)
                | _ => if indices_defined c (fst nb) nc then
                         match block_at c (fst nb) nc i j with
                         | Some k => matmat_dense (b 0 k) wv (fun p q => V (nsum j W + p) q)
                         | None => Err TypeError
                         end
                       else Err AttributeError
                end) (fun x =>
          Ok (fun p q => kadd (res p q) (x p q))))) (seq 0 (snd nb)) (Ok (fun _ _ => k0))))
        (fun lines =>
          Ok (full_entries (Blk Plain (fst nb) 1 H (fun _ => wv)
                              (fun i _ => Dense (H i) wv (nth i lines (fun _ _ => k0))))))
  end.

(** matmat (block.py 329-340) of two block matrices whose blocks are arrays: None when the partitions
    differ (the function falls through). Other kinds of blocks are not represented, except that two
    block matrices of block matrices fail: sum() starts from the integer 0, which cannot be added to
    a block matrix (block.py 336, 250-255). *)
Definition block_product (x y : mat) : mat :=
  match x, y with
  | Dense h w f, Dense _ w' g => Dense h w' (fun i j => ksum w (fun p => kmul (f i p) (g p j)))
  | Bad e, _ => Bad e
  | _, Bad e => Bad e
  | _, _ => Bad TypeError
  end.
Fixpoint block_sum (n : nat) (f : nat -> mat) : mat :=
  match n with
  | O => Bad TypeError
  | S O => match f 0 with Blk _ _ _ _ _ _ => Bad TypeError | x => x end
  | S n => binary_op kadd (block_sum n f) (f n)
  end.
Definition same_partition (n n' : nat) (ws hs : nat -> nat) : bool :=
  (n =? n') && forallb (fun j => ws j =? hs j) (seq 0 n).
Definition matmat_block (m m' : mat) : option mat :=
  match m, m' with
  | Blk c nr nc hs ws b, Blk c' nr' nc' hs' ws' b' =>
      let g := nb_blocks c nr nc in let g' := nb_blocks c' nr' nc' in
      if same_partition (snd g) (fst g') (block_widths c ws) (block_heights c' hs')
      then Some (mk Plain (fst g) (snd g')
                   (fun I J => block_sum (snd g) (fun P => block_product (all_blocks c nr nc b I P)
                                                                   (all_blocks c' nr' nc' b' P J))))
      else None
  | _, _ => None
  end.

(** BlockMatrix.matvec (block.py 294-308) with the dtypes of the arrays: the result is allocated with
    the dtype of the vector (line 298), so that adding the product of a complex matrix to the result
    of a real vector is refused by numpy (TypeError). *)
Definition plain_matvec_typed (complex_matrix complex_vector : bool) (fuel : nat) (m : mat) (v : vec) : result vec :=
  if complex_matrix && negb complex_vector && (0 <? height m) then Err TypeError else matvec fuel m v.

(** full_like: builders.py 49-62; identity_like: builders.py 75-89 (no case for LowRankMatrix:
    None is returned, hence an exception when the block matrix is built). *)
Fixpoint full_like (m : mat) (value : A) : mat :=
  match m with
  | Bad e => Bad e
  | Dense h w _ => Dense h w (fun _ _ => value)
  | Low h w _ _ _ => Low h w 1 (fun _ _ => k1) (fun _ _ => value)
  | Blk c nr nc _ _ b => mk c nr nc (fun i j => full_like (b i j) value)
  end.
Fixpoint identity_like (m : mat) : mat :=
  match m with
  | Bad e => Bad e
  | Dense h w _ => Dense h w (fun i j => if i =? j then k1 else k0)
  | Low _ _ _ _ _ => Bad AttributeError
  | Blk c nr nc _ _ b =>
      mk c nr nc (fun i j => if i =? j then identity_like (b i j) else full_like (b i j) k0)
  end.

End Block.
Arguments mat : clear implicits.
