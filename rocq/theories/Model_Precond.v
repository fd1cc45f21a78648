(** Model of the engine with a preconditioner: [HierarchicalPrecondMatrixEngine.build_matrices] (bem/engines.py:353-441),
    [_block_Jacobi_coarse_corr] and [solve_precond_gmres] (matrices/linear_solvers.py:158-250), [path_to_leaf]
    (meshes/meshes.py:160-162 and collections.py:104-113) and [access_block_by_path] (matrices/block.py:584-592).

    Simplifications:
    - coefficients are exact, vectors are functions whose length is known;
    - LU decompositions are oracles, as in Model_LinSolve.v; so is GMRES;
    - the sparse matrix of zeros that replaces a diagonal block is an array of zeros. Below a structured matrix, whose products
      take the Fourier transform of the blocks, such a sparse matrix makes the products fail: the block is [Bad AttributeError];
    - a product [vector @ block matrix] is that of numpy, with the assembled matrix: block.py does not define a priority over
      numpy arrays. *)
From Coq Require Import List Arith Bool.
From Verif Require Import Model_Base Model_Ring Model_Block Model_Mesh Model_Engine Model_Tree.
Import ListNotations.
Open Scope nat_scope.

(** [path_to_leaf] *)
Fixpoint path_to_leaf (t : tree) : list (list nat) :=
  match t with
  | Leaf _ => [[]]
  | Node _ l => concat (mapi (fun i paths => map (cons i) paths) (map path_to_leaf l))
  end.

Section Precond.
Context {A : coeffs}.
Notation vec := (nat -> K A).
Notation entries := (nat -> nat -> K A).
Notation mat := (mat A).

(** [matrix.all_blocks[i, j]] *)
Definition sub_block (m : mat) (i j : nat) : result mat :=
  match m with
  | Blk c nr nc hs ws b =>
    let nb := nb_blocks c nr nc in
    if (i <? fst nb) && (j <? snd nb) then match all_blocks c nr nc b i j with Bad e => Err e | x => Ok x end else Err IndexError
  | Bad e => Err e
  | _ => Err AttributeError
  end.
(** [access_block_by_path], a method of block matrices. *)
Fixpoint walk (m : mat) (path : list nat) : result mat :=
  match path with
  | [] => Ok m
  | i :: path' => bind (sub_block m i i) (fun x => walk x path')
  end.
Definition access_block_by_path (m : mat) (path : list nat) : result mat :=
  if is_block m then walk m path else Err AttributeError.
(** [path[-1]] *)
Definition last_of (path : list nat) : result nat :=
  match rev path with [] => Err IndexError | i :: _ => Ok i end.
(** engines.py:374-383 and 428-429: the block of a leaf. *)
Definition leaf_block (K : mat) (path : list nat) : result mat :=
  bind (access_block_by_path K (removelast path)) (fun upper => bind (last_of path) (fun i => sub_block upper i i)).
(** The matrix as an array, [numpy.asarray]. *)
Definition as_array (m : mat) : result entries :=
  match m with
  | Bad e => Err e
  | Dense _ _ f => Ok f
  | Low _ _ r l rr => Ok (low_full r l rr)
  | Blk _ _ _ _ _ _ => match full_matrix m with Ok _ => Ok (full_entries m) | Err e => Err e end
  end.

Variable lu : Type.
Variable lu_factor : nat -> nat -> entries -> option lu.
Variable lu_solve : lu -> vec -> vec.
Definition factor (m : mat) : result lu :=
  bind (as_array m) (fun f => match lu_factor (height m) (width m) f with Some l => Ok l | None => Err ValueError end).

(** ** The restriction and its product with the matrix *)

(** [sum(diag_shapes[:k])] *)
Definition offset (shapes : list nat) (k : nat) : nat := list_sum (firstn k shapes).
(** engines.py:386-390. *)
Definition restriction (shapes : list nat) (k j : nat) : A :=
  if (offset shapes k <=? j) && (j <? offset shapes (S k)) then k1 else k0.

(** An array of one dimension, with its length. *)
Definition sized := (nat * vec)%type.
(** [v @ matrix] *)
Definition vec_mat (v : sized) (m : mat) : result sized :=
  bind (as_array m) (fun f =>
  if fst v =? height m then Ok (width m, fun j => ksum (fst v) (fun i => kmul (snd v i) (f i j))) else Err ValueError).
(** [v[:n]] and [v[-n:]]; the latter is all of v when n is zero. *)
Definition first_part (n : nat) (v : sized) : sized := (Nat.min n (fst v), snd v).
Definition last_part (n : nat) (v : sized) : sized :=
  if n =? 0 then v else (Nat.min n (fst v), fun i => snd v (fst v - Nat.min n (fst v) + i)).
(** [va[a:b] = w], for an array va of length n: the lengths are the same, or w has one element. *)
Definition set_part (n : nat) (va : vec) (a b : nat) (w : sized) : result vec :=
  let a' := Nat.min a n in let b' := Nat.min b n in
  if fst w =? b' - a' then Ok (fun j => if (a' <=? j) && (j <? b') then snd w (j - a') else va j)
  else if fst w =? 1 then Ok (fun j => if (a' <=? j) && (j <? b') then snd w 0 else va j)
  else Err ValueError.

(** engines.py:394-419: the loop on the levels. [free] is the pair (lo, hi). Slices with a negative beginning, that no matrix made
    of blocks of the announced sizes gives, are an error here. *)
Fixpoint descend (n : nat) (path : list nat) (loc : mat) (v : sized) (va : vec) (lo hi : nat) : result vec :=
  match path with
  | [] => Ok va
  | jj :: path' =>
    bind (sub_block loc jj jj) (fun d =>
    bind (if jj =? 0 then
            let v := first_part (height d) v in
            bind (sub_block loc 0 1) (fun o => bind (vec_mat v o) (fun w =>
            if hi <? fst w then Err OtherException else
            bind (set_part n va (hi - fst w) hi w) (fun va => Ok (v, va, lo, hi - fst w))))
          else
            let v := last_part (height d) v in
            bind (sub_block loc 1 0) (fun o => bind (vec_mat v o) (fun w =>
            bind (set_part n va lo (lo + fst w) w) (fun va => Ok (v, va, lo + fst w, hi)))))
         (fun s => let '(v, va, lo, hi) := s in
    match path' with
    | [] => bind (vec_mat v d) (fun w => set_part n va lo hi w)
    | _ :: _ => descend n path' d v va lo hi
    end))
  end.
Definition coarse_row (K : mat) (shapes : list nat) (k : nat) (path : list nat) : result vec :=
  descend (height K) path K (height K, restriction shapes k) zeros 0 (height K).

(** ** Setting the diagonal blocks to zero: engines.py:427-431 *)
Definition zero_matrix (m : mat) : mat := Dense (height m) (width m) (fun _ _ => k0).
Definition replace_block (b : nat -> nat -> mat) (i j : nat) (x : mat) : nat -> nat -> mat :=
  fun p q => if (p =? i) && (q =? j) then x else b p q.
(** The blocks of a plain matrix are changed in place. [all_blocks] of a structured matrix is a new array: changing it has no
    effect on the matrix; its blocks are those that are stored. *)
Fixpoint zero_leaf (m : mat) (path : list nat) : mat :=
  match m, path with
  | Blk Model_Block.Plain nr nc hs ws b, [i] => Blk Model_Block.Plain nr nc hs ws (replace_block b i i (zero_matrix (b i i)))
  | Blk Model_Block.Plain nr nc hs ws b, i :: path' => Blk Model_Block.Plain nr nc hs ws (replace_block b i i (zero_leaf (b i i) path'))
  | Blk _ _ _ _ _ _, [i] => m
  | Blk c nr nc hs ws b, i :: path' =>
      if match b 0 0 with Blk Model_Block.Plain _ _ _ _ _ => true | _ => false end
      then Blk c nr nc hs ws (replace_block b 0 0 (Bad AttributeError))
      else Blk c nr nc hs ws (replace_block b 0 0 (zero_leaf (b 0 0) path'))
  | _, _ => m
  end.

(** ** The data of the preconditioner *)
Record precond := Precond {
  pc_matrix : mat; pc_coarse : list vec; pc_coarse_lu : lu; pc_lus : list lu; pc_shapes : list nat }.
(** engines.py:366-441, after the construction of the matrix K. *)
Definition prepare (paths : list (list nat)) (K : mat) : result precond :=
  bind (mapM (fun path => bind (leaf_block K path) (fun d => bind (factor d) (fun l => Ok (l, height d)))) paths) (fun ds =>
  let shapes := map snd ds in
  bind (sequence (mapi (coarse_row K shapes) paths)) (fun RA =>
  let n := length paths in
  let Ac k l := ksum (height K) (fun j => kmul (nth k RA zeros j) (restriction shapes l j)) in
  match lu_factor n n Ac with
  | None => Err ValueError
  | Some ac => Ok (Precond (fold_left zero_leaf paths K) RA ac (map fst ds) shapes)
  end)).

(** [_block_Jacobi_coarse_corr], linear_solvers.py:158-208. *)
Variable fuel : nat.
Definition smoothed (p : precond) (q : vec) : vec :=
  fold_left (fun x kl j =>
      let lo := offset (pc_shapes p) (fst kl) in
      if (lo <=? j) && (j <? offset (pc_shapes p) (S (fst kl))) then lu_solve (snd kl) (slice q lo) (j - lo) else x j)
    (combine (seq 0 (length (pc_lus p))) (pc_lus p)) zeros.
Definition jacobi_coarse (p : precond) (b x0 : vec) : result vec :=
  let N := height (pc_matrix p) in let n := length (pc_lus p) in
  bind (matvec fuel (pc_matrix p) x0) (fun ax =>
  let x_ps := smoothed p (fun i => ksub (b i) (ax i)) in
  let r_c k := ksub (ksum N (fun j => kmul (restriction (pc_shapes p) k j) (b j)))
                    (ksum N (fun j => kmul (nth k (pc_coarse p) zeros j) (x_ps j))) in
  let e_c := lu_solve (pc_coarse_lu p) r_c in
  Ok (fun j => kadd (x_ps j) (ksum n (fun k => kmul (restriction (pc_shapes p) k j) (e_c k))))).
(** engines.py:433-439. *)
Definition PinvA (p : precond) (v : vec) : result vec :=
  bind (jacobi_coarse p zeros v) (fun y => Ok (fun j => ksub (v j) (y j))).
Definition Pinvb (p : precond) (b : vec) : result vec := jacobi_coarse p b zeros.

(** [solve_precond_gmres], linear_solvers.py:210-250: [gmres n op b] is None when it does not converge. *)
Variable gmres : nat -> (vec -> result vec) -> vec -> option vec.
Definition solve_precond_gmres (p : precond) (b : vec) : result vec :=
  bind (Pinvb p b) (fun c =>
  match gmres (height (pc_matrix p)) (PinvA p) c with Some x => Ok x | None => Err RuntimeError end).

(** [HierarchicalPrecondMatrixEngine.build_matrices], engines.py:353-441, given the construction of its parent class. *)
Definition precond_matrices (build : tree -> tree -> result (mat * mat)) (mesh1 mesh2 : tree) : result (mat * precond) :=
  bind (build mesh1 mesh2) (fun sk => bind (prepare (path_to_leaf mesh1) (snd sk)) (fun p => Ok (fst sk, p))).
End Precond.
Arguments precond : clear implicits.
