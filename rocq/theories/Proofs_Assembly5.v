(** Executions that finish, permuted faces, and [Delhommeau.evaluate]. *)
From Coq Require Import Reals.
From Coquelicot Require Import Complex.
From Coq Require Import List Bool Lra Lia Arith Permutation Machin Ratan.
From Verif Require Import Model_Base Model_Mesh Model_Assembly Spec_Assembly Proofs_Problem Proofs_Geometry.
From Verif Require Import Proofs_Assembly Proofs_Assembly2 Proofs_Assembly3 Proofs_Assembly4.
Import ListNotations.
Open Scope nat_scope.

Lemma pi_bounds : (31415926535897 / 10000000000000 < PI < 31415926535898 / 10000000000000)%R.
Proof.
  pose proof (PI_2_3_7_ineq 8) as (A & B).
  cbn [sum_f_R0 Nat.mul Nat.add] in A, B.
  unfold tg_alt, PI_2_3_7_tg, Ratan_seq in A, B.
  rewrite ?INR_IZR_INZ in A. rewrite ?INR_IZR_INZ in B. cbn [Z.of_nat Pos.of_succ_nat Pos.succ Nat.add Nat.mul] in A, B.
  cbn [pow] in A, B. split; lra.
Qed.
Lemma fortran_pi_error : (7 / 10000000000000 < PI - fortran_pi < 9 / 10000000000000)%R.
Proof. pose proof pi_bounds. unfold fortran_pi. lra. Qed.

Section Evaluate.
  Variable rankine : bool -> vec -> source_panel -> R * vec.
  Variable reflected : bool -> (R * R) -> vec -> source_panel -> R * vec.
  Variable one_point : bool -> (R * R) -> vec -> source_panel -> R * vec.
  Variable wave_part : singularities -> depth_method -> ext -> ext -> bool -> vec -> source_panel -> C * (C * C * C).
  Variable prony : ext -> result unit.
  Notation S_entry := (S_entry rankine reflected one_point wave_part).
  Notation K_entry := (K_entry rankine reflected one_point wave_part).
  Notation gradient_entry := (gradient_entry rankine reflected one_point wave_part).
  Notation execute := (execute rankine reflected one_point wave_part).
  Notation evaluate_with := (evaluate_with rankine reflected one_point wave_part prony).

  Lemma assembled a regs s0 k0 schedule : regs <> [] -> let st := execute a schedule (launch a regs s0 k0) in all_finished st ->
    Permutation (log_S st) (all_entries (nb_1 a) (nb_2 a)) /\ Permutation (log_K st) (all_entries (nb_1 a) (nb_2 a))
    /\ (forall i j, i < nb_1 a -> j < nb_2 a -> matrix_S st i j = S_entry a i j /\ (usable_wavenumber a -> matrix_K st i j = map Some (K_entry a i j)))
    /\ (forall i j, ~ (i < nb_1 a /\ j < nb_2 a) -> matrix_S st i j = s0 i j /\ matrix_K st i j = k0 i j).
  Proof.
    intros Ne st Fi. destruct (finished_matrices rankine reflected one_point wave_part a regs s0 k0 schedule Ne Fi) as (A & B & M & O).
    split; [exact A|]. split; [exact B|]. split; [|exact O]. intros i j Hi Hj. destruct (M i j Hi Hj) as (E & r0 & F). split; [exact E|]. intros U. fold st in F. rewrite F. now apply K_computed.
  Qed.

  (** ** Permuted points and panels *)
  Lemma permuted a a' s t i j :
    (forall i, points_1 a' i = points_1 a (s i)) -> (forall j, panels_2 a' j = panels_2 a (t j)) ->
    (forall i, dot_normals a' i = dot_normals a ((if adjoint a then s else t) i)) ->
    wavenumber a' = wavenumber a -> depth a' = depth a -> coeffs3 a' = coeffs3 a -> finite_depth a' = finite_depth a -> singular a' = singular a ->
    same_body a' = same_body a -> adjoint a' = adjoint a -> early_dot a' = early_dot a ->
    (same_body a = true -> (s i = t j <-> i = j)) ->
    S_entry a' i j = S_entry a (s i) (t j) /\ K_entry a' i j = K_entry a (s i) (t j).
  Proof.
    intros P1 P2 Pn Ek Eh Ec Ef Es Eb Ea Ee Sb.
    assert (G : gradient_entry a' i j = gradient_entry a (s i) (t j)).
    { unfold Spec_Assembly.gradient_entry, jump_entry, extra_entry, images, first_image, waves, c_source, c_images, c_wave.
      rewrite P1, P2, Ek, Eh, Ec, Ef, Es, Eb, Ea. f_equal.
      destruct (same_body a) eqn:B; [|now rewrite !andb_false_r]. rewrite !andb_true_r.
      specialize (Sb eq_refl). rewrite Pn.
      destruct (Nat.eqb_spec i j) as [E|E].
      - rewrite (proj2 (Nat.eqb_eq (s i) (t j)) (proj2 Sb E)). f_equal. f_equal. destruct (adjoint a); reflexivity.
      - destruct (Nat.eqb_spec (s i) (t j)) as [X|X]; [contradiction E; now apply Sb|reflexivity]. }
    split.
    - unfold Spec_Assembly.S_entry, images, first_image, waves, c_source, c_images, c_wave. now rewrite P1, P2, Ek, Eh, Ec, Ef, Es, Ea.
    - unfold Spec_Assembly.K_entry. rewrite G, Ee, Pn, Ea. destruct (adjoint a); reflexivity.
  Qed.

  (** ** [Delhommeau.evaluate] *)
  Lemma finished_test (st : machine) : forallb (fun t => match snd t with Finished => true | _ => false end) (threads st) = true <-> all_finished st.
  Proof.
    unfold all_finished. rewrite forallb_forall, Forall_forall. split; intros H [r c] Hx; specialize (H _ Hx); cbn in *; destruct c; congruence || reflexivity.
  Qed.
  Lemma surface_test (ps2 : list source_panel) : existsb (fun q => Rltb (Rabs (vz (p_center (sp_props q)))) (/ 1000000)) ps2 = true
    <-> exists q, In q ps2 /\ (Rabs (vz (p_center (sp_props q))) < / 1000000)%R.
  Proof. rewrite existsb_exists. split; intros (q & Hq & L); exists q; (split; [exact Hq|]); now apply Rltb_true. Qed.

  Section Call.
    Variables (regs : list registers) (schedule : list (nat * nat)) (s0 : nat -> nat -> C) (k0 : nat -> nat -> list num).
    Variables (s : settings) (no_surface : bool) (h k : ext) (adj early : bool) (m1 : receiver) (ps2 : list source_panel).
    Notation call := (evaluate_with regs schedule s0 k0 s no_surface h k adj early m1 ps2).

    (** What the call does when no error is raised before the Fortran subroutine. *)
    Lemma call_reaches cs pr xs ns : choose_coeffs s no_surface h k = Ok (cs, pr) ->
      (pr = true -> prony (match h, k with Fin x, Fin y => Fin (y * x) | _, _ => NaN end) = Ok tt) ->
      colocation_and_normals m1 ps2 adj = Ok (xs, ns) ->
      (gf_singularities s = LowFreq \/ forall q, In q ps2 -> (/ 1000000 <= Rabs (vz (p_center (sp_props q))))%R) -> known_precision s = true ->
      let a := arguments s m1 ps2 cs xs ns h k adj early in let st := execute a schedule (launch a regs s0 k0) in
      call = if forallb (fun t => match snd t with Finished => true | _ => false end) (threads st) then
               if existsb (fun ij => existsb is_nan (matrix_K st (fst ij) (snd ij))) (list_prod (seq 0 (nb_1 a)) (seq 0 (nb_2 a))) then Err RuntimeError
               else Ok (Some (matrix_S st, matrix_K st))
             else Ok None.
    Proof.
      intros Cs Pr Cn Fs Kp a st. unfold Model_Assembly.evaluate_with. rewrite Cs. cbn [bind snd fst].
      replace (if pr then prony _ else Ok tt) with (@Ok unit tt) by (destruct pr; [now rewrite Pr|reflexivity]).
      cbn [bind]. rewrite Cn. cbn [bind fst snd].
      replace (existsb _ ps2 && negb _) with false.
      2: { symmetry. apply andb_false_iff. destruct Fs as [->|Fs]; [right; reflexivity|left]. apply not_true_iff_false. rewrite surface_test. intros (q & Hq & L). specialize (Fs q Hq). lra. }
      rewrite Kp. cbn [negb]. reflexivity.
    Qed.
    Lemma call_succeeds cs pr xs ns : choose_coeffs s no_surface h k = Ok (cs, pr) ->
      (pr = true -> prony (match h, k with Fin x, Fin y => Fin (y * x) | _, _ => NaN end) = Ok tt) ->
      colocation_and_normals m1 ps2 adj = Ok (xs, ns) ->
      (gf_singularities s = LowFreq \/ forall q, In q ps2 -> (/ 1000000 <= Rabs (vz (p_center (sp_props q))))%R) -> known_precision s = true ->
      let a := arguments s m1 ps2 cs xs ns h k adj early in let st := execute a schedule (launch a regs s0 k0) in
      usable_wavenumber a -> regs <> [] -> all_finished st ->
      exists Sm Km, call = Ok (Some (Sm, Km)) /\ forall i j, i < length xs -> j < length ps2 -> Sm i j = S_entry a i j /\ Km i j = map Some (K_entry a i j).
    Proof.
      intros Cs Pr Cn Fs Kp a st U Ne Fi. rewrite (call_reaches cs pr xs ns Cs Pr Cn Fs Kp). fold a. fold st.
      destruct (assembled a regs s0 k0 schedule Ne Fi) as (_ & _ & M & _). fold st in M.
      rewrite (proj2 (finished_test st) Fi).
      replace (existsb _ _) with false.
      2: { symmetry. apply not_true_iff_false. rewrite existsb_exists. intros ([i j] & Hin & Hn). apply in_prod_iff in Hin. rewrite !in_seq in Hin. cbn [fst snd] in Hn.
        destruct (M i j) as (_ & E); [lia|lia|]. rewrite (E U) in Hn. apply existsb_exists in Hn. destruct Hn as (x & Hx & Nx). apply in_map_iff in Hx. destruct Hx as (y & <- & _). discriminate. }
      exists (matrix_S st), (matrix_K st). split; [reflexivity|]. intros i j Hi Hj. destruct (M i j) as (A & B); [exact Hi|exact Hj|]. split; [exact A|apply B; exact U].
    Qed.
    Lemma call_nan cs pr xs ns : choose_coeffs s no_surface h k = Ok (cs, pr) ->
      (pr = true -> prony (match h, k with Fin x, Fin y => Fin (y * x) | _, _ => NaN end) = Ok tt) ->
      colocation_and_normals m1 ps2 adj = Ok (xs, ns) ->
      (gf_singularities s = LowFreq \/ forall q, In q ps2 -> (/ 1000000 <= Rabs (vz (p_center (sp_props q))))%R) -> known_precision s = true ->
      let a := arguments s m1 ps2 cs xs ns h k adj early in let st := execute a schedule (launch a regs s0 k0) in
      gf_singularities s = LowFreqWithRankine -> k = PInf -> snd (fst cs) <> 0%R -> xs <> [] -> ps2 <> [] -> regs <> [] -> all_finished st -> call = Err RuntimeError.
    Proof.
      intros Cs Pr Cn Fs Kp a st Sg Ek Ci Nx Np Ne Fi. rewrite (call_reaches cs pr xs ns Cs Pr Cn Fs Kp). fold a. fold st.
      destruct (finished_matrices rankine reflected one_point wave_part a regs s0 k0 schedule Ne Fi) as (_ & _ & M & _). fold st in M.
      rewrite (proj2 (finished_test st) Fi).
      assert (L1 : 0 < nb_1 a) by (cbn; destruct xs; [contradiction|cbn; lia]). assert (L2 : 0 < nb_2 a) by (cbn; destruct ps2; [contradiction|cbn; lia]).
      destruct (M 0 0 L1 L2) as (_ & r0 & E).
      destruct (nan_computed rankine reflected one_point wave_part a 0 0 r0) as (x & Hx & Hn); [exact Sg|exact Ek|exact Ci|].
      replace (existsb _ _) with true; [reflexivity|]. symmetry. apply existsb_exists. exists (0, 0). split; [apply in_prod_iff; rewrite !in_seq; lia|].
      cbn [fst snd]. rewrite E. apply existsb_exists. exists x. split; [exact Hx|]. now subst x.
    Qed.
    (** The calls that raise an error before the Fortran subroutine. *)
    Lemma call_zero_depth x : no_surface = false -> h = Fin x -> k = Fin 0 \/ k = PInf -> call = Err NotImplementedError.
    Proof.
      intros -> -> [->| ->]; unfold Model_Assembly.evaluate_with, choose_coeffs; cbn [ext_eqb orb bind]; [|reflexivity]. now rewrite Reqb_refl.
    Qed.
  End Call.
End Evaluate.

Section Limits.
  Variable rankine : bool -> vec -> source_panel -> R * vec.
  Variable reflected : bool -> (R * R) -> vec -> source_panel -> R * vec.
  Variable one_point : bool -> (R * R) -> vec -> source_panel -> R * vec.
  Variable wave_part : singularities -> depth_method -> ext -> ext -> bool -> vec -> source_panel -> C * (C * C * C).
  Variable prony : ext -> result unit.
  Notation S_entry := (S_entry rankine reflected one_point wave_part).
  Notation K_entry := (K_entry rankine reflected one_point wave_part).
  Notation gradient_entry := (gradient_entry rankine reflected one_point wave_part).
  Notation execute := (execute rankine reflected one_point wave_part).
  Notation evaluate_with := (evaluate_with rankine reflected one_point wave_part prony).

  Lemma limit_coeffs s no_surface h k e : limit_sign no_surface h k e -> choose_coeffs s no_surface h k = Ok ((1, e, 0)%R, false).
  Proof. intros [h' k'| |]; cbn; try reflexivity. now rewrite Reqb_refl. Qed.
  Lemma colocation_of m1 ps2 adj : m1 <> Unrecognized -> colocation_and_normals m1 ps2 adj = Ok (points_of m1, normals_of m1 ps2 adj).
  Proof. intros H. destruct m1; [| |contradiction]; unfold normals_of; destruct adj; reflexivity. Qed.
  Lemma limit_images s m1 ps2 xs ns h k adj early no_surface e p q : limit_sign no_surface h k e ->
    let a := arguments s m1 ps2 (1, e, 0)%R xs ns h k adj early in
    (e * Rsum (map fst (images reflected one_point a p q)) = e * fst (reflected adj (-1, 0) p q))%R
    /\ vscale e (vsum (map snd (images reflected one_point a p q))) = vscale e (snd (reflected adj (-1, 0)%R p q)).
  Proof.
    intros L a. destruct L as [h' k'| |].
    - split; [ring|]. apply vec_ext; cbn; ring.
    - split; [cbn; ring|]. apply vec_ext; cbn; ring.
    - split; [cbn; ring|]. apply vec_ext; cbn; ring.
  Qed.
  Lemma limit_entries s m1 ps2 xs ns h k adj early no_surface e i j : limit_sign no_surface h k e ->
    let a := arguments s m1 ps2 (1, e, 0)%R xs ns h k adj early in let p := points_1 a i in let q := panels_2 a j in
    S_entry a i j = RtoC (scale4pi * (fst (rankine adj p q) + e * fst (reflected adj (-1, 0) p q)))%R
    /\ gradient_entry a i j = plus3 (jump_entry a i j) (times3 scale4pi (real3 (vadd (snd (rankine adj p q)) (vscale e (snd (reflected adj (-1, 0)%R p q)))))).
  Proof.
    intros L a p q. destruct (limit_images s m1 ps2 xs ns h k adj early no_surface e p q L) as (A & B). fold a in A, B.
    unfold Spec_Assembly.S_entry, Spec_Assembly.gradient_entry. fold p. fold q.
    change (c_source a) with 1%R. change (c_images a) with e. change (c_wave a) with 0%R. change (adjoint a) with adj. rewrite A, B. split.
    - rewrite Cmult_0_l, Cplus_0_r, <- RtoC_mult, Rmult_1_l. reflexivity.
    - f_equal. f_equal. unfold plus3, times3, real3. cbn [fst snd]. rewrite !Cmult_0_l, !Cplus_0_r.
      f_equal; [f_equal|]; f_equal; cbn; ring.
  Qed.

  (** A call that does not stop before the Fortran subroutine. *)
  Lemma call_not_none regs schedule s0 k0 s no_surface h k adj early m1 ps2 cs pr xs ns : choose_coeffs s no_surface h k = Ok (cs, pr) ->
    (pr = true -> prony (match h, k with Fin x, Fin y => Fin (y * x) | _, _ => NaN end) = Ok tt) ->
    colocation_and_normals m1 ps2 adj = Ok (xs, ns) -> allowed_panels s ps2 -> known_precision s = true ->
    evaluate_with regs schedule s0 k0 s no_surface h k adj early m1 ps2 <> Ok None ->
    let a := arguments s m1 ps2 cs xs ns h k adj early in all_finished (execute a schedule (launch a regs s0 k0)).
  Proof.
    intros Cs Pr Cn Fs Kp Nn a. rewrite (call_reaches rankine reflected one_point wave_part prony regs schedule s0 k0 s no_surface h k adj early m1 ps2 cs pr xs ns Cs Pr Cn Fs Kp) in Nn. fold a in Nn.
    apply finished_test. destruct (forallb _ _) eqn:E; [reflexivity|]. now contradiction Nn.
  Qed.
  Lemma nth_nth {X} (l : list X) i x d : nth_error l i = Some x -> nth i l d = x.
  Proof. intros H. now apply nth_error_nth. Qed.

  Lemma limits regs schedule s0 k0 s no_surface h k adj early m1 ps2 e :
    let call := evaluate_with regs schedule s0 k0 s no_surface h k adj early m1 ps2 in
    limit_sign no_surface h k e -> m1 <> Unrecognized -> allowed_panels s ps2 -> known_precision s = true ->
    (gf_singularities s <> LowFreqWithRankine \/ exists x, k = Fin x) -> regs <> [] -> call <> Ok None ->
    exists Sm Km, call = Ok (Some (Sm, Km))
    /\ forall i j p q, nth_error (points_of m1) i = Some p -> nth_error ps2 j = Some q ->
       Sm i j = RtoC (scale4pi * (fst (rankine adj p q) + e * fst (reflected adj (-1, 0) p q)))%R
       /\ forall n, nth_error (normals_of m1 ps2 adj) (if adj then i else j) = Some n ->
          let jump := if Nat.eqb i j && is_own m1 then times3 (if Rltb (Rabs (vz (p_center (sp_props q)))) (/ 100000000) then 1 else 1 / 2) (real3 n) else zero3 in
          let g := plus3 jump (times3 scale4pi (real3 (vadd (snd (rankine adj p q)) (vscale e (snd (reflected adj (-1, 0)%R p q)))))) in
          Km i j = if early then [Some (along n g)] else [Some (fst (fst g)); Some (snd (fst g)); Some (snd g)].
  Proof.
    intros call L Nu Al Kp U Ne Nn.
    pose proof (limit_coeffs s no_surface h k e L) as Cs. pose proof (colocation_of m1 ps2 adj Nu) as Cn.
    assert (Pr : false = true -> prony (match h, k with Fin x, Fin y => Fin (y * x) | _, _ => NaN end) = Ok tt) by discriminate.
    pose proof (call_not_none regs schedule s0 k0 s no_surface h k adj early m1 ps2 _ _ _ _ Cs Pr Cn Al Kp Nn) as Fi. cbn zeta in Fi.
    set (a := arguments s m1 ps2 (1%R, e, 0%R) (points_of m1) (normals_of m1 ps2 adj) h k adj early) in *.
    destruct (call_succeeds rankine reflected one_point wave_part prony regs schedule s0 k0 s no_surface h k adj early m1 ps2 _ _ _ _ Cs Pr Cn Al Kp U Ne Fi) as (Sm & Km & E & M).
    exists Sm, Km. split; [exact E|]. intros i j p q Hp Hq.
    assert (Li : i < length (points_of m1)) by (apply nth_error_Some; congruence). assert (Lj : j < length ps2) by (apply nth_error_Some; congruence).
    destruct (M i j Li Lj) as (M1 & M2). destruct (limit_entries s m1 ps2 (points_of m1) (normals_of m1 ps2 adj) h k adj early no_surface e i j L) as (E1 & E2).
    fold a in M1, M2, E1, E2. assert (Ep : points_1 a i = p) by (cbn; now apply nth_nth). assert (Eq : panels_2 a j = q) by (cbn; now apply nth_nth).
    rewrite Ep, Eq in E1, E2. split; [now rewrite M1|].
    intros n Hn. cbn zeta. rewrite M2. unfold Spec_Assembly.K_entry. rewrite E2.
    assert (En : dot_normals a (if adjoint a then i else j) = n) by (cbn; now apply nth_nth).
    unfold jump_entry. rewrite En, Eq. change (same_body a) with (is_own m1). change (early_dot a) with early. destruct early; reflexivity.
  Qed.
  Lemma infinite_fails regs schedule s0 k0 s adj early m1 ps2 :
    let call := evaluate_with regs schedule s0 k0 s false PInf PInf adj early m1 ps2 in
    gf_singularities s = LowFreqWithRankine -> m1 <> Unrecognized -> allowed_panels s ps2 -> known_precision s = true ->
    points_of m1 <> [] -> ps2 <> [] -> regs <> [] -> call <> Ok None -> call = Err RuntimeError.
  Proof.
    intros call Sg Nu Al Kp Nx Np Ne Nn.
    pose proof (limit_coeffs s false PInf PInf _ infinite_frequency) as Cs. pose proof (colocation_of m1 ps2 adj Nu) as Cn.
    assert (Pr : false = true -> prony (match PInf, PInf with Fin x, Fin y => Fin (y * x) | _, _ => NaN end) = Ok tt) by discriminate.
    pose proof (call_not_none regs schedule s0 k0 s false PInf PInf adj early m1 ps2 _ _ _ _ Cs Pr Cn Al Kp Nn) as Fi. cbn zeta in Fi.
    apply (call_nan rankine reflected one_point wave_part prony regs schedule s0 k0 s false PInf PInf adj early m1 ps2 _ _ _ _ Cs Pr Cn Al Kp Sg eq_refl); auto. cbn. lra.
  Qed.
  Lemma outcomes regs schedule s0 k0 s h k adj early m1 ps2 x cs :
    let call := evaluate_with regs schedule s0 k0 s false h k adj early m1 ps2 in
    k = Fin x -> (0 < x)%R -> regs <> [] -> call <> Ok None ->
    (h = PInf \/ exists y, h = Fin y /\ prony (Fin (x * y)) = Ok tt) ->
    cs = (if match h, gf_singularities s with PInf, HighFreq => true | _, _ => false end then (1, -1, 1) else (1, 1, 1))%R ->
    (m1 = Unrecognized /\ call = Err ValueError)
    \/ (m1 <> Unrecognized /\ (~ allowed_panels s ps2 \/ known_precision s = false) /\ call = Err NotImplementedError)
    \/ (m1 <> Unrecognized /\ allowed_panels s ps2 /\ known_precision s = true /\ exists Sm Km, call = Ok (Some (Sm, Km))
        /\ let a := arguments s m1 ps2 cs (points_of m1) (normals_of m1 ps2 adj) h k adj early in
           forall i j, i < length (points_of m1) -> j < length ps2 -> Sm i j = S_entry a i j /\ Km i j = map Some (K_entry a i j)).
  Proof.
    intros call Ek Px Ne Nn Dh Ecs.
    assert (N0 : Reqb x 0 = false) by (apply Reqb_false; lra).
    assert (Cs : exists pr, choose_coeffs s false h k = Ok (cs, pr) /\ (pr = true -> prony (match h, k with Fin x, Fin y => Fin (y * x) | _, _ => NaN end) = Ok tt)).
    { subst k. destruct Dh as [->|(y & -> & Py)]; unfold choose_coeffs; cbn [ext_eqb]; rewrite N0; cbn [orb].
      - exists false. split; [|discriminate]. subst cs. destruct (gf_singularities s); reflexivity.
      - exists true. split; [subst cs; reflexivity|]. intros _. exact Py. }
    destruct Cs as (pr & Cs & Pr).
    destruct (match m1 with Unrecognized => true | _ => false end) eqn:Eu.
    { left. destruct m1; try discriminate. split; [reflexivity|]. unfold call, Model_Assembly.evaluate_with. rewrite Cs. cbn [bind snd].
      replace (if pr then prony _ else Ok tt) with (@Ok unit tt) by (destruct pr; [now rewrite Pr|reflexivity]). reflexivity. }
    assert (Nu : m1 <> Unrecognized) by (intros ->; discriminate). right. pose proof (colocation_of m1 ps2 adj Nu) as Cn.
    destruct (existsb (fun q => Rltb (Rabs (vz (p_center (sp_props q)))) (/ 1000000)) ps2 && negb (match gf_singularities s with LowFreq => true | _ => false end)) eqn:Es.
    { left. split; [exact Nu|]. split.
      - left. intros [Lf|Al]; [rewrite Lf, andb_false_r in Es; discriminate|]. apply andb_true_iff in Es. destruct Es as (Es & _). apply surface_test in Es. destruct Es as (q & Hq & Lt). specialize (Al q Hq). lra.
      - unfold call, Model_Assembly.evaluate_with. rewrite Cs. cbn [bind snd fst].
        replace (if pr then prony _ else Ok tt) with (@Ok unit tt) by (destruct pr; [now rewrite Pr|reflexivity]). cbn [bind]. rewrite Cn. cbn [bind fst snd]. now rewrite Es. }
    destruct (known_precision s) eqn:Kp.
    2: { left. split; [exact Nu|]. split; [right; reflexivity|].
      unfold call, Model_Assembly.evaluate_with. rewrite Cs. cbn [bind snd fst].
      replace (if pr then prony _ else Ok tt) with (@Ok unit tt) by (destruct pr; [now rewrite Pr|reflexivity]). cbn [bind]. rewrite Cn. cbn [bind fst snd]. now rewrite Es, Kp. }
    assert (Al : allowed_panels s ps2).
    { apply andb_false_iff in Es. destruct Es as [Es|Es]; [right|left; destruct (gf_singularities s); [discriminate|reflexivity|discriminate]].
      intros q Hq. apply Rnot_lt_le. intros Lt. apply not_true_iff_false in Es. apply Es, surface_test. eauto. }
    right. split; [exact Nu|]. split; [exact Al|]. split; [reflexivity|].
    pose proof (call_not_none regs schedule s0 k0 s false h k adj early m1 ps2 _ _ _ _ Cs Pr Cn Al Kp Nn) as Fi. cbn zeta in Fi.
    assert (U : usable_wavenumber (arguments s m1 ps2 cs (points_of m1) (normals_of m1 ps2 adj) h k adj early)) by (right; exists x; exact Ek).
    exact (call_succeeds rankine reflected one_point wave_part prony regs schedule s0 k0 s false h k adj early m1 ps2 _ _ _ _ Cs Pr Cn Al Kp U Ne Fi).
  Qed.
  Lemma call_finishes regs s0 k0 s no_surface h k adj early m1 ps2 : exists n, forall schedule,
    (forall t, t < length regs -> n < turns_of t schedule) -> evaluate_with regs schedule s0 k0 s no_surface h k adj early m1 ps2 <> Ok None.
  Proof.
    destruct (choose_coeffs s no_surface h k) as [[cs pr]|e] eqn:Cs.
    2: { exists 0. intros schedule _. unfold Model_Assembly.evaluate_with. rewrite Cs. discriminate. }
    destruct (colocation_and_normals m1 ps2 adj) as [[xs ns]|e] eqn:Cn.
    2: { exists 0. intros schedule _. unfold Model_Assembly.evaluate_with. rewrite Cs. cbn [bind]. destruct (if snd (cs, pr) then _ else _); cbn [bind]; [|discriminate]. rewrite Cn. discriminate. }
    destruct (enough_turns rankine reflected one_point wave_part (arguments s m1 ps2 cs xs ns h k adj early) regs s0 k0) as (n & Hn).
    exists n. intros schedule H. specialize (Hn schedule H). unfold Model_Assembly.evaluate_with. rewrite Cs. cbn [bind].
    destruct (if snd (cs, pr) then _ else _); cbn [bind]; [|discriminate]. rewrite Cn. cbn [bind fst snd].
    destruct (_ && _); [discriminate|]. destruct (negb _); [discriminate|]. cbn zeta. rewrite (proj2 (finished_test _) Hn). destruct (existsb _ _); discriminate.
  Qed.
  Lemma points_zero regs schedule s0 k0 s no_surface h k xs ps2 Sm Km :
    evaluate_with regs schedule s0 k0 s no_surface h k true true (OnPoints xs) ps2 = Ok (Some (Sm, Km)) -> regs <> [] ->
    (gf_singularities s <> LowFreqWithRankine \/ exists x, k = Fin x) ->
    forall i j, i < length xs -> j < length ps2 -> Km i j = [Some (RtoC 0)].
  Proof.
    intros E Ne U i j Hi Hj. unfold Model_Assembly.evaluate_with in E.
    destruct (choose_coeffs s no_surface h k) as [[cs pr]|e] eqn:Cs; [|discriminate]. cbn [bind] in E.
    match type of E with bind ?x _ = _ => destruct x as [u|e] eqn:Pr end; [|discriminate]. cbn [bind fst snd colocation_and_normals] in E.
    destruct (_ && _); [discriminate|]. destruct (negb _); [discriminate|].
    set (a := arguments s (OnPoints xs) ps2 cs xs (map (fun _ => v0) xs) h k true true) in E. cbn zeta in E.
    destruct (forallb _ _) eqn:F in E; [|discriminate]. apply finished_test in F. destruct (existsb _ _) in E; [discriminate|].
    assert (EK : Km = matrix_K (execute a schedule (launch a regs s0 k0))) by congruence. subst Km.
    destruct (assembled rankine reflected one_point wave_part a regs s0 k0 schedule Ne F) as (_ & _ & M & _). destruct (M i j Hi Hj) as (_ & K). rewrite (K U).
    unfold Spec_Assembly.K_entry. change (early_dot a) with true. change (adjoint a) with true. cbn match.
    replace (dot_normals a i) with v0.
    - cbn [map]. f_equal. f_equal. unfold along. cbn [v0 vx vy vz]. rewrite !Cmult_0_l, !Cplus_0_r. reflexivity.
    - cbn. clear. revert i. induction xs as [|y l IH]; intros [|i]; cbn; auto.
  Qed.
End Limits.
Lemma scale_error : (2 / 10000000000000 < scale4pi / (- / (4 * PI)) - 1 < 3 / 10000000000000)%R.
Proof.
  pose proof fortran_pi_error as E. pose proof pi_bounds as B. unfold scale4pi.
  assert (P : (fortran_pi > 0)%R) by (unfold fortran_pi; lra).
  replace (/ (-4 * fortran_pi) / - / (4 * PI) - 1)%R with ((PI - fortran_pi) / fortran_pi)%R by (field; lra).
  split; [apply Rmult_lt_reg_r with fortran_pi; [exact P|]|apply Rmult_lt_reg_r with fortran_pi; [exact P|]];
    unfold Rdiv; rewrite (Rmult_assoc (PI - fortran_pi)), Rinv_l, Rmult_1_r by lra; unfold fortran_pi in *; lra.
Qed.
