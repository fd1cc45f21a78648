From Coq Require Import Reals.
From Coquelicot Require Import Coquelicot.
From Coq Require Import List String Bool Lra Lia Arith ZArith.
From Verif Require Import Model_Base Model_Symbolic Model_Problem Model_Results Proofs_Problem.
Import ListNotations.
Open Scope R_scope.

Lemma added_mass_finite w c : w <> 0 -> added_mass (FVal (Fin w)) (CFl c) = Ok (Fin (Re c / (w * w))).
Proof.
  intros H. unfold added_mass. cbn. destruct (Req_EM_T (w * w) 0) as [E|E].
  - apply Rmult_integral in E. tauto.
  - reflexivity.
Qed.
Lemma damping_finite w U c : w <> 0 -> radiation_damping (FVal (Fin w)) U (CFl c) = Ok (Fin (Im c / w)).
Proof.
  intros H. unfold radiation_damping, is_limit. cbn. rewrite Reqb_false by auto. cbn.
  destruct (Req_EM_T w 0); [tauto|reflexivity].
Qed.
Lemma recombine w U c : w <> 0 ->
  exists A B, added_mass (FVal (Fin w)) (CFl c) = Ok (Fin A)
    /\ radiation_damping (FVal (Fin w)) U (CFl c) = Ok (Fin B)
    /\ c = (RtoC (w * w) * RtoC A + Ci * RtoC w * RtoC B)%C.
Proof.
  intros H. exists (Re c / (w * w)), (Im c / w). split; [apply added_mass_finite; auto|].
  split; [apply damping_finite; auto|]. destruct c as [x y]. cbn.
  unfold RtoC, Cmult, Cplus, Ci. cbn. f_equal; field; auto.
Qed.

(** At zero and infinite frequency the force carries the symbol twice. *)
Lemma limit_added_mass om c : om = FZero \/ om = FInf ->
  let s := match om with FZero => SZero | _ => SInf end in
  added_mass om (CSym s (CSym s (CFl c))) = Ok (Fin (Re c))
  /\ radiation_damping om 0 (CSym s (CSym s (CFl c))) = Ok (Fin 0).
Proof.
  intros [-> | ->]; cbn; unfold added_mass, radiation_damping, is_limit; cbn; rewrite ?Reqb_refl; cbn.
  - destruct (Req_EM_T (1 * 1) 0); [lra|]. cbn. split; [|reflexivity]. do 2 f_equal. field.
  - destruct (Req_EM_T (1 * 1) 0); [lra|]. cbn. split; [|reflexivity]. do 2 f_equal. field.
Qed.

(** ** Linearity of the integration of the pressure *)
Lemma integrate_dof_eq b d p :
  List.length p = List.length (b_areas b) -> List.length p = List.length d ->
  List.length p = List.length (b_normals b) ->
  integrate_dof b d p =
  Csum (map (fun n => Cmult (Cmult (nth n p (RtoC 0)) (Copp (cdot (row3 (nth n d [])) (nth n (b_normals b) v0))))
                            (RtoC (nth n (b_areas b) 0))) (seq 0 (List.length p))).
Proof.
  unfold integrate_dof. generalize (b_areas b) (b_normals b). intros areas ns. revert areas d ns.
  induction p as [|x p IH]; intros areas d ns H1 H2 H3.
  - reflexivity.
  - destruct areas as [|a areas], d as [|r d], ns as [|n ns]; try discriminate. cbn in H1, H2, H3.
    specialize (IH areas d ns ltac:(lia) ltac:(lia) ltac:(lia)).
    cbn [List.length seq map]. cbn [combine map map2 fst snd nth]. unfold Csum in *. cbn [fold_right]. f_equal.
    rewrite IH. rewrite <- seq_shift, map_map. reflexivity.
Qed.

Definition clin (a b : C) (p q : list C) : list C := map2 (fun x y => (a * x + b * y)%C) p q.

Lemma integrate_pressure_linear b d p q x y :
  List.length p = List.length q ->
  integrate_dof b d (clin x y p q) = (x * integrate_dof b d p + y * integrate_dof b d q)%C.
Proof.
  unfold integrate_dof, clin. generalize (map (fun rn => Copp (cdot (row3 (fst rn)) (snd rn))) (combine d (b_normals b))).
  generalize (b_areas b). intros areas ns. revert q areas ns.
  induction p as [|u p IH]; intros [|v q] areas ns H; try discriminate; cbn [map2 combine].
  - cbn. ring.
  - destruct areas as [|a areas]; cbn [combine map2].
    + cbn. ring.
    + destruct ns as [|n ns]; cbn [map2 Csum fold_right fst snd]; [ring|].
      fold (Csum (map2 (fun pa n => Cmult (Cmult (fst pa) n) (RtoC (snd pa)))
        (combine (map2 (fun x0 y0 : C => (x * x0 + y * y0)%C) p q) areas) ns)).
      rewrite IH by (cbn in H; lia). unfold Csum. ring.
Qed.

Definition clin_dof (a b : C) (d e : list (list C)) : list (list C) :=
  map2 (fun r s => map2 (fun x y => (a * x + b * y)%C) r s) d e.

Lemma cdot_lin a b r s n : List.length r = 3%nat -> List.length s = 3%nat ->
  cdot (row3 (map2 (fun x y => (a * x + b * y)%C) r s)) n = (a * cdot (row3 r) n + b * cdot (row3 s) n)%C.
Proof.
  destruct r as [|r0 [|r1 [|r2 [|]]]]; try discriminate. destruct s as [|s0 [|s1 [|s2 [|]]]]; try discriminate.
  intros _ _. cbn. ring.
Qed.

Lemma integrate_dof_linear b d e p x y :
  dof_shape_ok (List.length p) d = true -> dof_shape_ok (List.length p) e = true ->
  List.length (b_normals b) = List.length p ->
  integrate_dof b (clin_dof x y d e) p = (x * integrate_dof b d p + y * integrate_dof b e p)%C.
Proof.
  intros Hd He Hn. unfold dof_shape_ok in *. apply andb_prop in Hd, He. destruct Hd as [Ld Sd], He as [Le Se].
  apply Nat.eqb_eq in Ld, Le. unfold integrate_dof, clin_dof.
  revert Hn Sd Se Ld Le. generalize (b_normals b). generalize (b_areas b). revert d e.
  induction p as [|u p IH]; intros d e areas ns Hn Sd Se Ld Le.
  - cbn. ring.
  - destruct d as [|r d], e as [|s e], ns as [|n ns]; try discriminate.
    cbn [forallb] in Sd, Se. apply andb_prop in Sd, Se. destruct Sd as [S1 Sd], Se as [S2 Se].
    apply Nat.eqb_eq in S1, S2.
    destruct areas as [|a areas]; cbn [combine map2 map Csum fold_right]; [ring|].
    cbn [map2 combine map fst snd Csum fold_right]. rewrite cdot_lin by auto.
    specialize (IH d e areas ns ltac:(cbn in Hn; lia) Sd Se ltac:(cbn in Ld; lia) ltac:(cbn in Le; lia)).
    unfold Csum in IH. rewrite IH. ring.
Qed.
