(** Mincing of bodies: slices by planes at regular positions, bodies.py:918-972. The slices themselves are in [Model_Body]
    ([t_sliced] and [fb_sliced]). *)
From Coq Require Import Reals List Bool Arith.
From Verif Require Import Model_Base Model_Geometry Model_Mesh Model_Tree Model_Body.
Import ListNotations.
Open Scope R_scope.

(** [_slice_positions_at_depth], bodies.py:939-949: [range(1, 2**i, 2)] divided by [2**i]. *)
Definition slice_positions (i : nat) : list R := map (fun k => INR (2 * k + 1) / 2 ^ i) (seq 0 (2 ^ (i - 1))).
(** [int(np.log2(n))], bodies.py:956, for an integer that is not negative and without the rounding of very large ones; the
    logarithm of zero is minus infinity, that [int] refuses with an OverflowError. *)
Definition slice_depth (n : nat) : result nat := match n with O => Err OtherException | S _ => Ok (Nat.log2 n) end.
(** bodies.py:954-964: the planes normal to one direction, one list for each depth. The constructor of planes divides the normal
    by its norm, which is one. *)
Definition planes_at_depth (direction : vec) (lo hi : R) (i : nat) : list plane :=
  map (fun r => Plane direction (vscale (lo + r * (hi - lo)) direction)) (slice_positions i).
Definition planes_in_direction (x : vec * nat * (R * R)) : result (list (list plane)) :=
  let '(direction, n, (lo, hi)) := x in
  bind (slice_depth n) (fun depth => Ok (map (planes_at_depth direction lo hi) (seq 1 depth))).
(** [chain.from_iterable(zip_longest( *planes ))] without the [None]s, bodies.py:967-969. *)
Definition intermingled {A} (ls : list (list A)) : list A :=
  flat_map (fun k => flat_map (fun l => match nth_error l k with Some x => [x] | None => [] end) ls)
           (seq 0 (fold_right Nat.max 0%nat (map (@length A) ls))).
(** bodies.py:934: the bounding box of a mesh or of a collection (meshes.py:398-412 and collections.py:296-310). *)
Definition t_bbox (t : tree) : result (list (R * R)) :=
  bind (t_vertices t) (fun vs => let '(x, y, z) := bbox (Mesh vs []) in Ok [x; y; z]).
Definition directions : list vec := [V 1 0 0; V 0 1 0; V 0 0 1].

Section Mince.
  Variable argsort : list R -> list nat.
  Variable heal_normals : mesh -> result mesh.
  Variable set_order : list nat -> list nat.
  (** [minced], bodies.py:918-972; [zip] stops at the end of the shortest list. *)
  Definition minced (b : fbody) (nb_slices : list nat) : result fbody :=
    bind (fb_copy b None) (fun c =>
    bind (t_bbox (fb_mesh b)) (fun sizes =>
    bind (mapM planes_in_direction (combine (combine directions nb_slices) sizes)) (fun planes =>
    fold_left (fun acc p => bind acc (fun c => fb_sliced argsort heal_normals set_order c p)) (concat (intermingled planes)) (Ok c)))).
End Mince.
