(** Vocabulary of the properties of quadrature schemes. *)
From Coq Require Import Reals List.
From Verif Require Import Model_Base Model_Mesh Spec_Mesh Model_Quadrature.
Import ListNotations.
Open Scope R_scope.

(** [p] is a weighted mean of the four points. *)
Definition convex_combination (a b c d p : vec) : Prop :=
  exists la lb lc ld, 0 <= la /\ 0 <= lb /\ 0 <= lc /\ 0 <= ld /\ la + lb + lc + ld = 1
    /\ p = vadd (vadd (vscale la a) (vscale lb b)) (vadd (vscale lc c) (vscale ld d)).
(** The points of the scheme are in the square [-1,1]x[-1,1]. *)
Definition inside_square (s : scheme) : Prop :=
  forall x y w, In ((x, y), w) s -> -1 <= x <= 1 /\ -1 <= y <= 1.
(** The total of [f] over the scheme. *)
Definition total (s : scheme) (f : R -> R -> R) : R := Rsum (map (fun '((x, y), w) => w * f x y) s).
(** The scheme integrates exactly the polynomials of degree one (the mean over
    the square is normalised to one). *)
Definition exact_linear (s : scheme) : Prop :=
  total s (fun _ _ => 1) = 1 /\ total s (fun x _ => x) = 0 /\ total s (fun _ y => y) = 0.
(** And those of degree two. *)
Definition exact_quadratic (s : scheme) : Prop :=
  exact_linear s /\ total s (fun x _ => x * x) = 1 / 3 /\ total s (fun x y => x * y) = 0
  /\ total s (fun _ y => y * y) = 1 / 3.
(** And the products [x x y] and [x y y]. *)
Definition exact_mixed (s : scheme) : Prop :=
  exact_quadratic s /\ total s (fun x y => x * x * y) = 0 /\ total s (fun x y => x * y * y) = 0.
Definition sum_weights (l : list (vec * R)) : R := Rsum (map snd l).
(** The sum of the points times their weights: the integral of the position. *)
Definition first_moment (l : list (vec * R)) : vec := vsum (map (fun pw => vscale (snd pw) (fst pw)) l).
