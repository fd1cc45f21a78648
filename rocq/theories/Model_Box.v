(** Model of the meshes of rectangular boxes (meshes/predefined/rectangles.py). Exact real numbers instead of floats. *)
From Coq Require Import Reals List Bool Arith ZArith.
From Verif Require Import Model_Base Model_Geometry Model_Mesh Model_Tree Model_Body Model_Normals Model_Grid.
Import ListNotations.
Open Scope R_scope.

(** The names of the sides, rectangles.py:127-130; a set of names is given by its characteristic function. *)
Inductive box_side := LeftSide | RightSide | FrontSide | BackSide | TopSide | BottomSide.

Section Boxes.
  Variable argsort : list R -> list nat.
  Variable set_order : list nat -> list nat.

  (** rectangles.py:140-149: the assertions on the values. *)
  Definition box_checks (width thickness height : R) (nw nth nh : Z) : bool :=
    Rltb 0 width && Rltb 0 thickness && Rltb 0 height && (0 <? nw)%Z && (0 <? nth)%Z && (0 <? nh)%Z.
  Definition hypot (a b : R) : R := sqrt (a * a + b * b).
  (** rectangles.py:154-164. [r = 0]: the infinite ratio cannot be converted to an integer. *)
  Definition refined_box (width thickness height : R) (nw nth nh : Z) (max_radius : option R) : result (Z * Z * Z) :=
    match max_radius with
    | None => Ok (nw, nth, nh)
    | Some r =>
      let dw := width / IZR nw in let dh := height / IZR nh in let dth := thickness / IZR nth in
      if Rltb r (Rmax (Rmax (hypot dw dh / 2) (hypot dw dth / 2)) (hypot dth dh / 2)) then
        if Reqb r 0 then Err OtherException
        else Ok (ceil (width / (sqrt 2 * r)), ceil (thickness / (sqrt 2 * r)), ceil (height / (sqrt 2 * r)))
      else Ok (nw, nth, nh)
    end.
  (** rectangles.py:226-255: the rectangle of a side. *)
  Definition side_mesh (width thickness height : R) (nw nth nh : Z) (s : box_side) : result tree :=
    match s with
    | LeftSide => simple_rectangle argsort set_order thickness height nth nh (V (- width / 2) 0 0) (V (-1) 0 0)
    | RightSide => simple_rectangle argsort set_order thickness height nth nh (V (width / 2) 0 0) (V 1 0 0)
    | FrontSide => simple_rectangle argsort set_order width height nw nh (V 0 (- thickness / 2) 0) (V 0 (-1) 0)
    | BackSide => simple_rectangle argsort set_order width height nw nh (V 0 (thickness / 2) 0) (V 0 1 0)
    | TopSide => simple_rectangle argsort set_order thickness width nth nw (V 0 0 (height / 2)) (V 0 0 1)
    | BottomSide => simple_rectangle argsort set_order thickness width nth nw (V 0 0 (- height / 2)) (V 0 0 (-1))
    end.
  (** rectangles.py:224-256. *)
  Definition merged_sides (width thickness height : R) (nw nth nh : Z) (missing : box_side -> bool) : result mesh :=
    bind (mapM (side_mesh width thickness height nw nth nh)
               (filter (fun s => negb (missing s)) [LeftSide; RightSide; FrontSide; BackSide; TopSide; BottomSide]))
         (fun sides => t_merged argsort (Node Plain sides)).
  (** rectangles.py:258-261. *)
  Definition healed_at (t : tree) (center : vec) : result tree :=
    bind (t_heal argsort (heal_normals set_order) t) (fun t' => Ok (t_translate t' center)).
  (** [mesh_parallelepiped] without the options about symmetries and radius, as called at lines 179-184 and 192-197. *)
  Definition simple_box (width thickness height : R) (nw nth nh : Z) (center : vec) (missing : box_side -> bool) : result tree :=
    if negb (box_checks width thickness height nw nth nh) then Err AssertionError else
    bind (merged_sides width thickness height nw nth nh missing) (fun m => healed_at (Leaf m) center).
  Definition yOz_Plane : plane := Plane (V 1 0 0) (V 0 0 0).
  (** [missing_sides | {...}]. *)
  Definition without (l : list box_side) (missing : box_side -> bool) (s : box_side) : bool :=
    missing s || existsb (fun s' => match s, s' with
                                    | LeftSide, LeftSide | RightSide, RightSide | FrontSide, FrontSide
                                    | BackSide, BackSide | TopSide, TopSide | BottomSide, BottomSide => true
                                    | _, _ => false end) l.
  (** [mesh_parallelepiped], rectangles.py:109-261. *)
  Definition mesh_parallelepiped (width thickness height : R) (center : vec) (nw0 nth0 nh0 : Z) (max_radius : option R)
    (missing : box_side -> bool) (reflection_symmetry translation_symmetry : bool) : result tree :=
    if negb (box_checks width thickness height nw0 nth0 nh0) then Err AssertionError else
    bind (refined_box width thickness height nw0 nth0 nh0 max_radius) (fun n => let '(nw, nth, nh) := n in
    if translation_symmetry && reflection_symmetry then Err NotImplementedError else
    if reflection_symmetry then
      if (nw mod 2 =? 1)%Z || (nth mod 2 =? 1)%Z then Err ValueError else
      bind (simple_box (width / 2) (thickness / 2) height (nw / 2) (nth / 2) nh (V (- width / 4) (- thickness / 4) 0)
              (without [RightSide; BackSide] missing)) (fun quarter =>
      bind (ReflectionSymmetricMesh quarter yOz_Plane) (fun half =>
      bind (ReflectionSymmetricMesh half xOz_Plane) (fun t => healed_at t center)))
    else if translation_symmetry then
      if (nw =? 0)%Z then Err ZeroDivisionError else
      bind (simple_box (width / IZR nw) thickness height 1 nth nh (V (- width / 2 + width / (2 * IZR nw)) 0 0)
              (without [LeftSide; RightSide] missing)) (fun strip =>
      bind (TranslationalSymmetricMesh strip (V (width / IZR nw) 0 0) false (Z.to_nat (nw - 1))) (fun open =>
      bind (if missing RightSide then Ok [] else
            bind (side_mesh width thickness height nw nth nh RightSide) (fun x => Ok [x])) (fun right =>
      bind (if missing LeftSide then Ok [] else
            bind (side_mesh width thickness height nw nth nh LeftSide) (fun x => Ok [x])) (fun left =>
      healed_at (Node Plain (open :: right ++ left)) center))))
    else bind (merged_sides width thickness height nw nth nh missing) (fun m => healed_at (Leaf m) center)).
End Boxes.
