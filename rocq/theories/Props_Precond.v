(** C75: the preconditioned engine solves the same linear systems as the others, when it applies.
    C76: the meshes that the preconditioned engine refuses, and those for which its system is another one. *)
From Coq Require Import Reals.
From Coquelicot Require Import Complex.
From Coq Require Import List Bool ZArith Arith Lia Lra.
From Verif Require Import Model_Base Model_Ring Spec_Ring Proofs_Ring Model_Block Spec_Block Proofs_Block Proofs_Block2 Model_LinSolve Spec_LinSolve
  Proofs_Gauss Model_Geometry Proofs_Geometry Model_Mesh Spec_Mesh Proofs_Mesh Model_Quality Spec_Quality Model_Tree Spec_Tree Proofs_Tree
  Proofs_Symmetry Proofs_Tree2 Model_Engine Spec_Engine Proofs_Engine Proofs_Engine2 Proofs_Engine4 Proofs_Engine5 Proofs_Engine6 Proofs_Engine7
  Props_Quality Props_Tree Props_Engine Model_Precond Spec_Precond Proofs_Precond2 Proofs_Precond3 Proofs_Precond4 Proofs_Precond5 Proofs_Precond6
  Proofs_Precond7 Proofs_Precond8.
Import ListNotations.
Open Scope nat_scope.

(** ** The preconditioned system *)

Lemma satisfies_preconditioned {A : coeffs} lu (lu_solve : lu -> (nat -> A) -> nat -> A) l p fuel b x :
  preconditioned lu lu_solve l p fuel b x <-> satisfies (list_sum l) (PinvA lu lu_solve fuel p) (Pinvb lu lu_solve fuel p b) x.
Proof.
  split.
  - intros (c & y & E1 & E2 & H). now exists y, c.
  - intros (y & c & E1 & E2 & H). now exists c, y.
Qed.

(** A matrix cut in two at each level down to the parts of the mesh. The data of the preconditioner is prepared, every
    solution of K x = b satisfies the equation that is given to GMRES, and nothing else does when no part has a
    diagonal block whose coefficients add up to zero. *)
Theorem preconditioned_system_is_equivalent :
  forall (A : coeffs) lu lu_factor (lu_solve : lu -> (nat -> A) -> nat -> A), ring_laws A -> fourier_laws A -> exact_lu lu_factor lu_solve ->
  forall t (K : mat A) F d fuel, several t -> paired K t -> wf K -> fft_ready K -> depth_le d K -> d < fuel -> represents K F ->
  (forall s, In s (sizes t) -> 0 < s) -> invertible_parts F (sizes t) ->
  exists p, prepare lu lu_factor (path_to_leaf t) K = Ok p
    /\ (forall b x, solution (t_nb_faces t) F x b -> satisfies (t_nb_faces t) (PinvA lu lu_solve fuel p) (Pinvb lu lu_solve fuel p b) x)
    /\ (no_zero_divisor (A := A) -> (forall k, k < length (sizes t) -> interaction F (sizes t) k k <> k0) ->
        forall b x, satisfies (t_nb_faces t) (PinvA lu lu_solve fuel p) (Pinvb lu lu_solve fuel p b) x -> solution (t_nb_faces t) F x b).
Proof.
  intros A lu lu_factor lu_solve HA HF Hlu t K F d fuel Ht HP W Fr Dp Hfuel R Hs Hi.
  destruct (prepare_ok HA lu lu_factor lu_solve Hlu t K d F Ht HP (conj W (conj Fr Dp)) R Hs Hi) as (p & Ep & U).
  assert (EN : t_nb_faces t = list_sum (sizes t)) by (symmetry; apply sizes_sum; exact (paired_clustered _ _ HP)).
  rewrite EN. exists p. split; [exact Ep|]. split.
  - intros b x H. apply satisfies_preconditioned. exact (solution_preconditioned HA HF lu lu_solve d _ F p U fuel Hfuel Hi b x H).
  - intros H0 Hk b x H. apply satisfies_preconditioned in H. exact (preconditioned_solution HA HF lu lu_solve d _ F p U fuel Hfuel Hi b x H0 Hk H).
Qed.
Print Assumptions preconditioned_system_is_equivalent.

(** With a GMRES that returns exact solutions, what is returned is a solution of K x = b. *)
Theorem preconditioned_gmres_solves :
  forall (A : coeffs) lu lu_factor (lu_solve : lu -> (nat -> A) -> nat -> A) gmres,
  ring_laws A -> fourier_laws A -> no_zero_divisor (A := A) -> exact_lu lu_factor lu_solve -> exact_gmres gmres ->
  forall t (K : mat A) F d fuel, several t -> paired K t -> wf K -> fft_ready K -> depth_le d K -> d < fuel -> represents K F ->
  (forall s, In s (sizes t) -> 0 < s) -> invertible_parts F (sizes t) -> (forall k, k < length (sizes t) -> interaction F (sizes t) k k <> k0) ->
  exists p, prepare lu lu_factor (path_to_leaf t) K = Ok p
    /\ forall b x, solve_precond_gmres lu lu_solve fuel gmres p b = Ok x -> solution (t_nb_faces t) F x b.
Proof.
  intros A lu lu_factor lu_solve gmres HA HF H0 Hlu Hg t K F d fuel Ht HP W Fr Dp Hfuel R Hs Hi Hk.
  destruct (prepare_ok HA lu lu_factor lu_solve Hlu t K d F Ht HP (conj W (conj Fr Dp)) R Hs Hi) as (p & Ep & U).
  assert (EN : t_nb_faces t = list_sum (sizes t)) by (symmetry; apply sizes_sum; exact (paired_clustered _ _ HP)).
  rewrite EN. exists p. split; [exact Ep|]. intros b x H. unfold solve_precond_gmres in H.
  destruct (Pinvb lu lu_solve fuel p b) as [c|] eqn:Ec; [|discriminate]. cbn [bind] in H.
  destruct (gmres _ _ c) as [x'|] eqn:Eg; [|discriminate]. injection H as <-. destruct (Hg _ _ _ _ Eg) as (y & Ey & Hy).
  apply (preconditioned_solution HA HF lu lu_solve d _ F p U fuel Hfuel Hi b x' H0 Hk). exists c, y. split; [exact Ec|]. split; [exact Ey|].
  intros j Hj. apply Hy. unfold height. now rewrite (u_shape _ _ _ _ _ _ U).
Qed.
Print Assumptions preconditioned_gmres_solves.

(** Without the condition on the sums, the equation given to GMRES is not equivalent to K x = b although K is nonsingular:
    as soon as the coefficients of a diagonal block add up to zero, a vector that is not zero satisfies the equation of b = 0. *)
Theorem preconditioned_system_is_equivalent_refuted :
  forall (A : coeffs) lu lu_factor (lu_solve : lu -> (nat -> A) -> nat -> A), ring_laws A -> fourier_laws A -> exact_lu lu_factor lu_solve ->
  forall t (K : mat A) F d fuel, several t -> paired K t -> wf K -> fft_ready K -> depth_le d K -> d < fuel -> represents K F ->
  (forall s, In s (sizes t) -> 0 < s) -> invertible_parts F (sizes t) -> nonsingular (t_nb_faces t) F -> @k1 A <> k0 ->
  forall k, k < length (sizes t) -> interaction F (sizes t) k k = k0 ->
  exists p x, prepare lu lu_factor (path_to_leaf t) K = Ok p
    /\ satisfies (t_nb_faces t) (PinvA lu lu_solve fuel p) (Pinvb lu lu_solve fuel p zeros) x /\ ~ solution (t_nb_faces t) F x zeros.
Proof.
  intros A lu lu_factor lu_solve HA HF Hlu t K F d fuel Ht HP W Fr Dp Hfuel R Hs Hi NF H1 k Hk Hz.
  destruct (prepare_ok HA lu lu_factor lu_solve Hlu t K d F Ht HP (conj W (conj Fr Dp)) R Hs Hi) as (p & Ep & U).
  assert (EN : t_nb_faces t = list_sum (sizes t)) by (symmetry; apply sizes_sum; exact (paired_clustered _ _ HP)).
  rewrite EN in *. destruct (proj1 Hlu _ F NF) as (w & Ew).
  set (rhs := fun i => if leaf_of (sizes t) i =? k then ksum (nth k (sizes t) 0) (fun j => F i (before (sizes t) k + j)) else k0).
  pose proof (proj2 Hlu _ F w rhs NF Ew) as Hx.
  assert (Hpos : 0 < nth k (sizes t) 0) by (apply Hs, nth_In; exact Hk).
  destruct (preconditioned_singular HA HF lu lu_solve d _ F p U fuel Hfuel Hi k Hk Hpos H1 Hz _ Hx) as [Hp Hn].
  exists p, (lu_solve w rhs). split; [exact Ep|]. split; [now apply satisfies_preconditioned|]. intros Hsol. apply Hn. now apply NF.
Qed.
Print Assumptions preconditioned_system_is_equivalent_refuted.

(** *** Examples: a part with two faces and a part with one. *)
Definition two_panels : mesh := Mesh [V 1 0 0; V 2 0 0; V 1 1 0; V 2 1 0] [F 0 1 2 0; F 1 3 2 1].
Definition pc_tree : tree := Node Plain [Leaf two_panels; Leaf ex_tri].
Definition cut (F : nat -> nat -> complexes) : mat complexes :=
  let s i := if i =? 0 then 2 else 1 in
  Blk Model_Block.Plain 2 2 s s (fun I J => Dense (s I) (s J) (fun i j => F (2 * I + i) (2 * J + j))).
Definition of_rows (l : list (list R)) (i j : nat) : complexes := RtoC (nth j (nth i l []) 0%R).
Definition well_cut : nat -> nat -> complexes := of_rows [[2; 0; 1]; [0; 2; 1]; [1; 1; 2]]%R.
Definition zero_sum : nat -> nat -> complexes := of_rows [[1; 0; 1]; [0; -1; 1]; [1; 1; 1]]%R.

Lemma cut_ok F : several pc_tree /\ paired (cut F) pc_tree /\ wf (cut F) /\ fft_ready (cut F) /\ depth_le 1 (cut F) /\ represents (cut F) F
  /\ (forall s, In s (sizes pc_tree) -> 0 < s).
Proof.
  split; [exact I|]. split; [|split; [|split; [|split; [|split]]]].
  - apply paired_pair; [exact (paired_leaf two_panels _)|exact (paired_leaf ex_tri _)].
  - split; [lia|]. intros i j Hi Hj. split; [exact I|reflexivity].
  - intros i j Hi Hj. exact I.
  - intros i j Hi Hj. exact I.
  - intros i j Hi Hj. cbn in Hi, Hj. destruct i as [|[|i]], j as [|[|j]]; try lia; cbn; intros i j _ _; reflexivity.
  - cbn. lia.
Qed.
Ltac two := refine (upto2 _ _ _).
Ltac system H := let E0 := fresh in let E1 := fresh in
  apply (f_equal fst) in H as E0; apply (f_equal snd) in H as E1; cbn in E0, E1; clear H.
Ltac solved Hx := intros x Hx;
  repeat match goal with
  | |- forall i, i < 1 -> _ => pose proof (Hx 0 ltac:(lia)) as E0; unfold times_vec in E0; cbn [ksum] in E0; system E0;
      intros [|i] Hi; [|lia]; apply injective_projections; cbn; lra
  | |- forall i, i < 2 -> _ => pose proof (Hx 0 ltac:(lia)) as E0; pose proof (Hx 1 ltac:(lia)) as E1; unfold times_vec in E0, E1;
      cbn [ksum] in E0, E1; system E0; system E1; two; apply injective_projections; cbn; lra
  end.
Lemma well_cut_parts : invertible_parts well_cut (sizes pc_tree) /\ forall k, k < length (sizes pc_tree) -> interaction well_cut (sizes pc_tree) k k <> k0.
Proof.
  change (sizes pc_tree) with [2; 1]. split; [split|].
  - cbn [length]. two; cbn [nth]; solved Hx.
  - cbn [length]. solved Hx.
  - cbn [length]. two; intros E; apply (f_equal fst) in E; cbn in E; lra.
Qed.
Lemma zero_sum_parts : invertible_parts zero_sum (sizes pc_tree) /\ interaction zero_sum (sizes pc_tree) 0 0 = k0 /\ nonsingular (t_nb_faces pc_tree) zero_sum.
Proof.
  change (sizes pc_tree) with [2; 1]. change (t_nb_faces pc_tree) with 3. split; [split|split].
  - cbn [length]. two; cbn [nth]; solved Hx.
  - cbn [length]. solved Hx.
  - apply injective_projections; cbn; ring.
  - intros x Hx. pose proof (Hx 0 ltac:(lia)) as E0; pose proof (Hx 1 ltac:(lia)) as E1; pose proof (Hx 2 ltac:(lia)) as E2.
    unfold times_vec in E0, E1, E2. cbn [ksum] in E0, E1, E2. system E0. system E1. system E2.
    intros [|[|[|i]]] Hi; try lia; apply injective_projections; cbn; lra.
Qed.
Lemma complexes_no_zero_divisor : no_zero_divisor (A := complexes).
Proof.
  intros x y H. destruct (Req_EM_T (fst x) 0) as [E1|E1]; [destruct (Req_EM_T (snd x) 0) as [E2|E2]|].
  - left. now apply injective_projections.
  - right. apply (Cmult_zero x y H). intros ->. now apply E2.
  - right. apply (Cmult_zero x y H). intros ->. now apply E1.
Qed.
Example preconditioned_ex : exists p, prepare _ complex_lu_factor (path_to_leaf pc_tree) (cut well_cut) = Ok p
  /\ forall b x, satisfies 3 (PinvA _ complex_lu_solve 2 p) (Pinvb _ complex_lu_solve 2 p b) x <-> solution 3 well_cut x b.
Proof.
  destruct (cut_ok well_cut) as (H1 & H2 & H3 & H4 & H5 & H6 & H7). destruct well_cut_parts as [H8 H9].
  destruct (preconditioned_system_is_equivalent complexes _ _ _ complexes_ring complexes_fourier complex_lu_exact pc_tree _ _ 1 2
    H1 H2 H3 H4 H5 ltac:(lia) H6 H7 H8) as (p & Ep & P1 & P2).
  exists p. split; [exact Ep|]. intros b x. split; [apply P2; [exact complexes_no_zero_divisor|exact H9]|apply P1].
Qed.
Example zero_sum_ex : exists p x, prepare _ complex_lu_factor (path_to_leaf pc_tree) (cut zero_sum) = Ok p
  /\ satisfies 3 (PinvA _ complex_lu_solve 2 p) (Pinvb _ complex_lu_solve 2 p zeros) x /\ ~ solution 3 zero_sum x zeros.
Proof.
  destruct (cut_ok zero_sum) as (H1 & H2 & H3 & H4 & H5 & H6 & H7). destruct zero_sum_parts as (H8 & H9 & H10).
  refine (preconditioned_system_is_equivalent_refuted complexes _ _ _ complexes_ring complexes_fourier complex_lu_exact pc_tree _ _ 1 2
    H1 H2 H3 H4 H5 ltac:(lia) H6 H7 H8 H10 _ 0 ltac:(cbn; lia) H9).
  intros E. apply (f_equal fst) in E. cbn in E. lra.
Qed.
(** A solver in place of GMRES: it assembles the operator, solves directly, and checks what it returns. *)
Definition same_number (x y : complexes) : bool := (if Req_EM_T (fst x) (fst y) then true else false) && (if Req_EM_T (snd x) (snd y) then true else false).
Definition column (op : (nat -> complexes) -> result (nat -> complexes)) (j : nat) : nat -> complexes :=
  match op (fun i => if i =? j then RtoC 1 else RtoC 0) with Ok y => y | Err _ => zeros end.
Definition checked_gmres (n : nat) (op : (nat -> complexes) -> result (nat -> complexes)) (b : nat -> complexes) : option (nat -> complexes) :=
  match complex_lu_factor n n (fun i j => column op j i) with
  | None => None
  | Some l =>
    let x := complex_lu_solve l b in
    match op x with Ok y => if forallb (fun j => same_number (y j) (b j)) (seq 0 n) then Some x else None | Err _ => None end
  end.
Example exact_gmres_ex : exact_gmres checked_gmres.
Proof.
  intros n op b x H. unfold checked_gmres in H. destruct (complex_lu_factor _ _ _) as [l|]; [|discriminate]. cbv zeta in H.
  destruct (op (complex_lu_solve l b)) as [y|] eqn:E; [|discriminate].
  destruct (forallb _ _) eqn:Ef; [|discriminate]. injection H as <-. exists y. split; [exact E|]. intros j Hj.
  rewrite forallb_forall in Ef. specialize (Ef j ltac:(apply in_seq; lia)). unfold same_number in Ef.
  destruct (Req_EM_T _ _) as [E1|]; [|discriminate]. destruct (Req_EM_T _ _) as [E2|]; [|discriminate]. now apply injective_projections.
Qed.

(** ** The whole engine *)

(** A cluster of meshes without symmetries, as [cluster_bodies] builds them from bodies whose meshes are not collections: the
    matrices are those of the Green function (up to the low rank approximations), and the solver returns solutions of the
    system of the matrix K. *)
Theorem preconditioned_engine_solves :
  forall (A : coeffs) lu lu_factor (lu_solve : lu -> (nat -> A) -> nat -> A) gmres,
  ring_laws A -> fourier_laws A -> no_zero_divisor (A := A) -> exact_lu lu_factor lu_solve -> exact_gmres gmres ->
  forall (G : bool -> panel -> panel -> A * A) (rel : A -> A -> Prop) argsort ACA_distance aca t fuel,
  (forall x, rel x x) -> (0 <= ACA_distance)%R -> sorts argsort -> accurate rel aca -> responsive aca -> low_rank aca ->
  clustered t -> several t -> unstructured t -> all_valid t -> faced t -> levels t < fuel ->
  exists ps FS F, t_panels t = Ok ps /\ length ps = t_nb_faces t
    /\ (forall i j p q, nth_error ps i = Some p -> nth_error ps j = Some q ->
          rel (FS i j) (fst (G (i =? j) p q)) /\ rel (F i j) (snd (G (i =? j) p q)))
    /\ (invertible_parts F (sizes t) -> (forall k, k < length (sizes t) -> interaction F (sizes t) k k <> k0) ->
        exists S p, precond_matrices lu lu_factor (hierarchical_matrices G argsort ACA_distance aca true) t t = Ok (S, p)
          /\ represents S FS
          /\ forall b x, solve_precond_gmres lu lu_solve fuel gmres p b = Ok x -> solution (t_nb_faces t) F x b).
Proof.
  intros A lu lu_factor lu_solve gmres HA HF H0 Hlu Hg G rel argsort ACA_distance aca t fuel Hr Hd Hs Ha Hresp Hl Cl Sv U V Fc Hf.
  assert (Fi : filled t).
  { clear - Cl. induction Cl as [m|k a b _ IHa _ IHb]; constructor; [discriminate|]. intros x [<-|[<-|[]]]; assumption. }
  destruct (hier_entries G rel argsort ACA_distance aca Hr Hd Hs Ha Hresp t U Fi V Fc) as (S & K & ps & E & Ep & L & W & Sh & WS & EK & ES).
  exists ps, (entry S), (entry K). split; [exact Ep|]. split; [exact L|].
  pose proof (represents_entry K W) as RK. pose proof (represents_entry S WS) as RS. split.
  { intros i j p q Hp Hq. split; [now apply ES|now apply EK]. }
  intros Hi Hk. destruct (hier_plain G argsort ACA_distance aca Hl t U t true _ _ U E) as [Pl Dp].
  pose proof (hier_paired G argsort ACA_distance aca Hd t Cl U _ _ E) as HP.
  assert (Hpos : forall s, In s (sizes t) -> 0 < s).
  { intros s Hin. unfold sizes in Hin. apply in_map_iff in Hin. destruct Hin as (m & <- & Hm). now apply Fc. }
  destruct (preconditioned_gmres_solves A lu lu_factor lu_solve gmres HA HF H0 Hlu Hg t K (entry K) (levels t) fuel Sv HP W (plain_ready K Pl) Dp Hf RK Hpos Hi Hk)
    as (p & Epp & Hsol).
  exists S, p. unfold precond_matrices. rewrite E. cbn [bind snd fst]. rewrite Epp. cbn [bind]. split; [reflexivity|]. split; [exact RS|exact Hsol].
Qed.
Print Assumptions preconditioned_engine_solves.

(** A mesh that is not a collection is refused. *)
Theorem single_mesh_is_refused :
  forall (A : coeffs) lu (lu_factor : nat -> nat -> (nat -> nat -> A) -> option lu) (G : bool -> panel -> panel -> A * A) (rel : A -> A -> Prop)
    argsort ACA_distance aca m,
  (forall x, rel x x) -> (0 <= ACA_distance)%R -> sorts argsort -> accurate rel aca -> responsive aca -> valid m -> 0 < nb_faces m ->
  precond_matrices lu lu_factor (hierarchical_matrices G argsort ACA_distance aca true) (Leaf m) (Leaf m) = Err AttributeError.
Proof.
  intros A lu lu_factor G rel argsort ACA_distance aca m Hr Hd Hs Ha Hresp V Fc.
  destruct (hier_entries G rel argsort ACA_distance aca Hr Hd Hs Ha Hresp (Leaf m)) as (S & K & ps & E & _).
  - intros k [].
  - constructor.
  - intros m' [<-|[]]. exact V.
  - intros m' [<-|[]]. exact Fc.
  - exact (single_refused_engine G argsort ACA_distance aca Hd lu lu_factor m S K E).
Qed.
Print Assumptions single_mesh_is_refused.

(** So is a collection of three or more meshes, such as the one that joining three bodies gives. *)
Theorem three_parts_are_refused :
  forall (A : coeffs) lu (lu_factor : nat -> nat -> (nat -> nat -> A) -> option lu) (G : bool -> panel -> panel -> A * A) (rel : A -> A -> Prop)
    argsort ACA_distance aca m0 m1 m2 ms,
  (forall x, rel x x) -> (0 <= ACA_distance)%R -> sorts argsort -> accurate rel aca -> responsive aca ->
  (forall m, In m (m0 :: m1 :: m2 :: ms) -> valid m /\ 0 < nb_faces m) -> 2 <= nb_faces m0 ->
  let t := Node Plain (map Leaf (m0 :: m1 :: m2 :: ms)) in
  precond_matrices lu lu_factor (hierarchical_matrices G argsort ACA_distance aca true) t t = Err ValueError.
Proof.
  intros A lu lu_factor G rel argsort ACA_distance aca m0 m1 m2 ms Hr Hd Hs Ha Hresp V H0 t.
  assert (EL : leaves t = m0 :: m1 :: m2 :: ms).
  { unfold t. cbn [leaves]. generalize (m0 :: m1 :: m2 :: ms). intros l. induction l as [|x l IH]; [reflexivity|]. cbn [map flat_map concat leaves app] in *. now rewrite IH. }
  apply (three_refused_engine G rel argsort ACA_distance aca Hr Hd Hs Ha Hresp lu lu_factor m0 m1 m2 ms); try exact H0; intros m Hm; fold t in Hm; rewrite EL in Hm; now apply V.
Qed.
Print Assumptions three_parts_are_refused.

(** For a mesh with a plane of symmetry the data is prepared without an error, but the diagonal blocks remain in the matrix:
    the equation that is given to GMRES has not the solutions of K x = b. Two parts with two faces each. *)
Theorem symmetric_mesh_is_solved_refuted :
  exists (K : mat complexes) F b x x', wf K /\ fft_ready K /\ depth_le 1 K /\ represents K F /\ shape K = (4, 4) /\ invertible_parts F [2; 2]
    /\ (forall k, k < 2 -> interaction F [2; 2] k k <> k0)
    /\ forall lu lu_factor (lu_solve : lu -> (nat -> complexes) -> nat -> complexes) k m1 m2 fuel, exact_lu lu_factor lu_solve -> 1 < fuel ->
       exists p, prepare lu lu_factor (path_to_leaf (Node k [Leaf m1; Leaf m2])) K = Ok p
         /\ solution 4 F x b /\ ~ satisfies 4 (PinvA lu lu_solve fuel p) (Pinvb lu lu_solve fuel p b) x
         /\ satisfies 4 (PinvA lu lu_solve fuel p) (Pinvb lu lu_solve fuel p b) x' /\ ~ solution 4 F x' b.
Proof.
  exists sym_matrix, sym_entries, (opposite 1), (opposite 1), (opposite (1 / 2)).
  split; [exact sym_wf|]. split; [exact sym_ready|]. split; [exact sym_depth|]. split; [exact sym_represents|]. split; [reflexivity|]. split; [split|split].
  - cbn [length]. two; cbn [nth]; solved Hx.
  - cbn [length]. solved Hx.
  - two; intros E; apply (f_equal fst) in E; cbn in E; lra.
  - intros lu lu_factor lu_solve k m1 m2 fuel Hlu Hf. destruct (sym_wrong lu lu_factor lu_solve Hlu k m1 m2 fuel Hf) as (p & E1 & E2 & E3 & E4).
    exists p. repeat (split; [assumption|]). intros H. specialize (H 0 ltac:(lia)). apply (f_equal fst) in H. cbn in H. lra.
Qed.
Print Assumptions symmetric_mesh_is_solved_refuted.

(** *** Examples *)
Definition pc_deep : tree := Node Plain [Leaf two_panels; Node Plain [Leaf ex_tri; Leaf two_panels]].
(** A Green function whose matrix K is the identity. *)
Definition itself (b : bool) (_ _ : panel) : complexes * complexes := (RtoC 3, if b then RtoC 1 else RtoC 0).
Lemma two_panels_valid : valid two_panels.
Proof. intros f i Hf Hi. cbn in Hf, Hi |- *. destruct Hf as [<-|[<-|[]]]; cbn in Hi; intuition lia. Qed.
Lemma deep_ok : clustered pc_deep /\ several pc_deep /\ unstructured pc_deep /\ all_valid pc_deep /\ faced pc_deep /\ levels pc_deep = 2.
Proof.
  split; [repeat constructor|]. split; [exact I|]. split; [intros k [<-|[<-|[]]]; reflexivity|]. split; [|split; [|reflexivity]].
  - intros m [<-|[<-|[<-|[]]]]; [exact two_panels_valid|exact ex_tri_valid|exact two_panels_valid].
  - intros m [<-|[<-|[<-|[]]]]; cbn; lia.
Qed.
Lemma no_aca_low_rank {A : coeffs} : low_rank (A := A) no_aca.
Proof. intros rows cols n1 n2 S K H. discriminate. Qed.
Definition id_entries (i j : nat) : complexes := if i =? j then RtoC 1 else RtoC 0.
Ltac rows n Hx := match n with O => idtac | S ?m => let E := fresh in pose proof (Hx m ltac:(lia)) as E; unfold times_vec in E; cbn [ksum] in E; system E; rows m Hx end.
Lemma identity_parts F : (forall i j, i < 5 -> j < 5 -> F i j = id_entries i j) ->
  invertible_parts F (sizes pc_deep) /\ forall k, k < length (sizes pc_deep) -> interaction F (sizes pc_deep) k k <> k0.
Proof.
  intros HF. change (sizes pc_deep) with [2; 1; 2].
  assert (E : forall k k', k < 3 -> k' < 3 -> interaction F [2; 1; 2] k k' = interaction id_entries [2; 1; 2] k k').
  { intros k k' Hk Hk'. unfold interaction. apply ksum_ext. intros i Hi. apply ksum_ext. intros j Hj. apply HF.
    - destruct k as [|[|[|k]]]; cbn in Hi |- *; lia.
    - destruct k' as [|[|[|k']]]; cbn in Hj |- *; lia. }
  split; [split|].
  - cbn [length]. intros k Hk. apply (Proofs_LinSolve2.nonsingular_ext (nth k [2; 1; 2] 0) (diagonal_block id_entries [2; 1; 2] k)).
    + intros i j Hi Hj. symmetry. apply HF; destruct k as [|[|[|k]]]; cbn in Hi, Hj |- *; lia.
    + destruct k as [|[|[|k]]]; try lia; cbn [nth]; solved Hx.
  - cbn [length]. apply (Proofs_LinSolve2.nonsingular_ext 3 (interaction id_entries [2; 1; 2])).
    + intros i j Hi Hj. symmetry. now apply E.
    + intros x Hx. rows 3 Hx. intros [|[|[|i]]] Hi; try lia; apply injective_projections; cbn; lra.
  - cbn [length]. intros k Hk. rewrite E by assumption. destruct k as [|[|[|k]]]; try lia; intros X; apply (f_equal fst) in X; cbn in X; lra.
Qed.
Example preconditioned_engine_ex : exists S p (F : nat -> nat -> complexes),
  precond_matrices _ complex_lu_factor (hierarchical_matrices itself insertion_argsort 8 no_aca true) pc_deep pc_deep = Ok (S, p)
  /\ F 0 0 = RtoC 1 /\ forall b x, solve_precond_gmres _ complex_lu_solve 3 checked_gmres p b = Ok x -> solution 5 F x b.
Proof.
  destruct deep_ok as (H1 & H2 & H3 & H4 & H5 & H6).
  destruct (preconditioned_engine_solves complexes _ _ _ _ complexes_ring complexes_fourier complexes_no_zero_divisor complex_lu_exact exact_gmres_ex
    itself eq insertion_argsort 8 no_aca pc_deep 3 ltac:(reflexivity) ltac:(lra) insertion_sorts (proj1 accurate_ex) (proj2 accurate_ex) no_aca_low_rank
    H1 H2 H3 H4 H5 ltac:(lia)) as (ps & FS & F & _ & L & HE & HP).
  assert (EF : forall i j, i < 5 -> j < 5 -> F i j = id_entries i j).
  { intros i j Hi Hj. change (t_nb_faces pc_deep) with 5 in L. destruct (nth_error ps i) as [p|] eqn:Ei; [|apply nth_error_None in Ei; lia].
    destruct (nth_error ps j) as [q|] eqn:Ej; [|apply nth_error_None in Ej; lia]. exact (proj2 (HE i j p q Ei Ej)). }
  destruct (identity_parts F EF) as [Hi Hk]. destruct (HP Hi Hk) as (S & p & E & _ & Hs). exists S, p, F. split; [exact E|]. split; [now rewrite EF by lia|exact Hs].
Qed.
Example refused_ex : valid two_panels /\ nb_faces two_panels = 2 /\ valid ex_tri /\ nb_faces ex_tri = 1.
Proof. split; [exact two_panels_valid|]. split; [reflexivity|]. split; [exact ex_tri_valid|reflexivity]. Qed.
