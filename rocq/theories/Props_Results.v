(** Property C34. *)
From Coq Require Import Reals.
From Coquelicot Require Import Complex.
From Coq Require Import List String Bool Lra.
From Verif Require Import Model_Base Model_Symbolic Model_Problem Model_Results Proofs_Results.
Import ListNotations.
Open Scope R_scope.

Theorem coefficients_recombine :
  forall w U c, w <> 0 ->
    exists A B, added_mass (FVal (Fin w)) (CFl c) = Ok (Fin A)
      /\ radiation_damping (FVal (Fin w)) U (CFl c) = Ok (Fin B)
      /\ c = (RtoC (w * w) * RtoC A + Ci * RtoC w * RtoC B)%C.
Proof. exact recombine. Qed.
Print Assumptions coefficients_recombine.
(** Limit frequencies: the force is [omega * omega * c]. *)
Theorem coefficients_limits :
  forall om c, om = FZero \/ om = FInf ->
    let s := match om with FZero => SZero | _ => SInf end in
    added_mass om (CSym s (CSym s (CFl c))) = Ok (Fin (Re c))
    /\ radiation_damping om 0 (CSym s (CSym s (CFl c))) = Ok (Fin 0).
Proof. exact limit_added_mass. Qed.
Print Assumptions coefficients_limits.
(** The force is minus the sum over the faces of pressure * (dof . normal) * area. *)
Theorem integrate_pressure_formula :
  forall b d p,
    List.length p = List.length (b_areas b) -> List.length p = List.length d ->
    List.length p = List.length (b_normals b) ->
    integrate_dof b d p =
    Csum (map (fun n => Cmult (Cmult (nth n p (RtoC 0))
                                     (Copp (cdot (row3 (nth n d [])) (nth n (b_normals b) v0))))
                              (RtoC (nth n (b_areas b) 0))) (seq 0 (List.length p))).
Proof. exact integrate_dof_eq. Qed.
Print Assumptions integrate_pressure_formula.
Theorem force_linear_in_pressure :
  forall b d p q x y, List.length p = List.length q ->
    integrate_dof b d (map2 (fun u v => (x * u + y * v)%C) p q)
    = (x * integrate_dof b d p + y * integrate_dof b d q)%C.
Proof. exact integrate_pressure_linear. Qed.
Print Assumptions force_linear_in_pressure.
Theorem force_linear_in_dof :
  forall b d e p x y,
    dof_shape_ok (List.length p) d = true -> dof_shape_ok (List.length p) e = true ->
    List.length (b_normals b) = List.length p ->
    integrate_dof b (map2 (fun r s => map2 (fun u v => (x * u + y * v)%C) r s) d e) p
    = (x * integrate_dof b d p + y * integrate_dof b e p)%C.
Proof. exact integrate_dof_linear. Qed.
Print Assumptions force_linear_in_dof.
(** A panel of area 2 and normal (0,0,1), heave, pressure 3i: force -6i, and with
    [omega = 2] no added mass and damping -3. *)
Example recombine_ex :
  let b := {| b_id := 0; b_name := "b"; b_centers := [V 0 0 (-1)]; b_normals := [V 0 0 1]; b_areas := [2];
              b_dofs := []; b_lid := None |} in
  let f := integrate_dof b [[RtoC 0; RtoC 0; RtoC 1]] [(0, 3)] in
  f = (0, -6) /\ radiation_damping (FVal (Fin 2)) 0 (CFl f) = Ok (Fin (-3)).
Proof.
  intros b f. assert (E : f = (0, -6)).
  { unfold f, integrate_dof. cbn. unfold Cmult, Cplus, Copp, RtoC. cbn. f_equal; ring. }
  split; [exact E|]. rewrite E, damping_finite by lra. cbn. do 2 f_equal. field.
Qed.
