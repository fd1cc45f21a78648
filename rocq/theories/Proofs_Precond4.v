(** The data of the preconditioner, and one step of the iteration. *)
From Coq Require Import List Arith Bool Lia Ring_theory Ring.
From Verif Require Import Model_Base Model_Ring Spec_Ring Proofs_Ring Model_Block Spec_Block Proofs_Block2 Proofs_Block4
  Model_LinSolve Spec_LinSolve Proofs_LinSolve2 Model_Mesh Proofs_Mesh Model_Engine Proofs_Engine4 Proofs_Engine7 Model_Tree Spec_Tree
  Model_Precond Spec_Precond Proofs_Precond Proofs_Precond2 Proofs_Precond3.
Import ListNotations.
Open Scope nat_scope.

(** The part that contains a face. *)
Fixpoint leaf_of (l : list nat) (j : nat) : nat :=
  match l with [] => 0 | s :: l' => if j <? s then 0 else S (leaf_of l' (j - s)) end.
Lemma before_cons s l k : before (s :: l) (S k) = s + before l k.
Proof. reflexivity. Qed.
Lemma before_0 l : before l 0 = 0.
Proof. now destruct l. Qed.
Lemma before_S l : forall k, k < length l -> before l (S k) = before l k + nth k l 0.
Proof.
  induction l as [|s l IH]; intros k Hk; [cbn in Hk; lia|]. destruct k as [|k]; [rewrite before_cons, !before_0; cbn; lia|].
  rewrite before_cons, IH by (cbn in Hk; lia). rewrite before_cons. cbn [nth]. lia.
Qed.
Lemma leaf_of_spec l : forall j, j < list_sum l -> leaf_of l j < length l /\ before l (leaf_of l j) <= j < before l (S (leaf_of l j)).
Proof.
  induction l as [|s l IH]; intros j Hj; [cbn in Hj; lia|]. cbn [leaf_of]. destruct (Nat.ltb_spec j s) as [H|H].
  - rewrite before_cons, !before_0. cbn. lia.
  - change (list_sum (s :: l)) with (s + list_sum l) in Hj. destruct (IH (j - s)) as (H1 & H2); [lia|]. rewrite !before_cons. cbn [length]. lia.
Qed.
Lemma leaf_of_unique l : forall k j, before l k <= j < before l (S k) -> k < length l -> leaf_of l j = k.
Proof.
  induction l as [|s l IH]; intros k j Hj Hk; [cbn in Hk; lia|]. cbn [leaf_of]. rewrite before_cons in Hj. destruct k as [|k].
  - rewrite !before_0 in Hj. destruct (Nat.ltb_spec j s); [reflexivity|lia].
  - rewrite before_cons in Hj. destruct (Nat.ltb_spec j s); [lia|]. f_equal. apply IH; [lia|cbn in Hk; lia].
Qed.
Lemma before_bound l k : before l k <= list_sum l.
Proof. unfold before. rewrite <- (firstn_skipn k l) at 2. rewrite list_sum_app'. lia. Qed.

Section Data.
Context {A : coeffs}.
Hypothesis HA : ring_laws A.
Let HA' : ring_theory (@k0 A) k1 kadd kmul ksub kopp eq := HA.
Add Ring Aring : HA'.
Notation vec := (nat -> K A).
Notation entries := (nat -> nat -> K A).
Variable lu : Type.
Variable lu_factor : nat -> nat -> entries -> option lu.
Variable lu_solve : lu -> vec -> vec.
Hypothesis Hlu : exact_lu lu_factor lu_solve.

Section Tree.
Variables (l : list nat) (F : entries).
Notation N := (list_sum l).
Notation n := (length l).
Notation lf := (leaf_of l).

Lemma lf_bound j : j < N -> lf j < n.
Proof. intros H. now apply leaf_of_spec. Qed.
Lemma restriction_ind k j : k < n -> j < N -> restriction (A := A) l k j = ind lf k j.
Proof.
  intros Hk Hj. unfold restriction, ind. change (offset l) with (before l). destruct (leaf_of_spec l j Hj) as (_ & H).
  destruct (Nat.eqb_spec (lf j) k) as [<-|Hn].
  - destruct (Nat.leb_spec (before l (lf j)) j), (Nat.ltb_spec j (before l (S (lf j)))); try lia. reflexivity.
  - destruct (Nat.leb_spec (before l k) j), (Nat.ltb_spec j (before l (S k))); try reflexivity.
    destruct Hn. now apply leaf_of_unique.
Qed.
Lemma ind_part k i : k < n -> i < nth k l 0 -> ind (A := A) lf k (before l k + i) = k1.
Proof. intros Hk Hi. unfold ind. rewrite (leaf_of_unique l k) by (try assumption; rewrite before_S by exact Hk; lia). now rewrite Nat.eqb_refl. Qed.
Lemma ind_other k i : k < n -> i < N -> ~ (before l k <= i < before l k + nth k l 0) -> ind (A := A) lf k i = k0.
Proof.
  intros Hk Hi H. unfold ind. destruct (Nat.eqb_spec (lf i) k) as [<-|]; [|reflexivity]. destruct H.
  rewrite <- before_S by exact Hk. now apply leaf_of_spec.
Qed.
Lemma part_bound k : k < n -> before l k + nth k l 0 <= N.
Proof. intros Hk. rewrite <- before_S by exact Hk. apply before_bound. Qed.
Lemma sum_part k (G : vec) : k < n -> ksum N (fun i => kmul (ind lf k i) (G i)) = ksum (nth k l 0) (fun i => G (before l k + i)).
Proof using HA.
  intros Hk. rewrite (window_sum HA N (before l k) (nth k l 0)) by (try apply part_bound; try assumption; intros i Hi; now apply ind_other).
  apply ksum_ext. intros i Hi. rewrite ind_part by assumption. ring.
Qed.
Lemma RA_part k j : k < n -> RA N lf F k j = ksum (nth k l 0) (fun i => F (before l k + i) j).
Proof using HA. intros Hk. unfold RA. exact (sum_part k (fun i => F i j) Hk). Qed.
Lemma Ac_interaction k k' : k < n -> k' < n -> Ac N lf F k k' = interaction F l k k'.
Proof using HA.
  intros Hk Hk'. unfold Ac, interaction.
  transitivity (ksum N (fun j => kmul (ind lf k' j) (RA N lf F k j))); [apply ksum_ext; intros; ring|].
  rewrite sum_part by exact Hk'.
  transitivity (ksum (nth k' l 0) (fun j => ksum (nth k l 0) (fun i => F (before l k + i) (before l k' + j)))); [|apply (ksum_swap A HA)].
  apply ksum_ext. intros j _. now apply RA_part.
Qed.
Lemma D_row x i : i < N -> let k := lf i in
  times_vec N (D lf F) x i = times_vec (nth k l 0) (diagonal_block F l k) (fun j => x (before l k + j)) (i - before l k).
Proof using HA.
  intros Hi k. destruct (leaf_of_spec l i Hi) as (Hk & Hb). fold k in Hk, Hb. unfold times_vec.
  transitivity (ksum N (fun j => kmul (ind lf k j) (kmul (F i j) (x j)))).
  - apply ksum_ext. intros j _. unfold D, ind. fold k. rewrite (Nat.eqb_sym (lf j) k). destruct (k =? lf j); ring.
  - rewrite (sum_part k (fun j => kmul (F i j) (x j)) Hk). apply ksum_ext. intros j _. unfold diagonal_block. do 2 f_equal. lia.
Qed.
Lemma D_nonsingular : (forall k, k < n -> nonsingular (nth k l 0) (diagonal_block F l k)) -> nonsingular N (D lf F).
Proof using HA.
  intros H x Hx i Hi. destruct (leaf_of_spec l i Hi) as (Hk & Hb). rewrite before_S in Hb by exact Hk.
  replace i with (before l (lf i) + (i - before l (lf i))) by lia.
  apply (H (lf i) Hk (fun j => x (before l (lf i) + j))); [|lia]. intros j Hj.
  set (i' := before l (lf i) + j). assert (Hi' : i' < N) by (pose proof (part_bound _ Hk); unfold i'; lia).
  assert (El : lf i' = lf i) by (apply leaf_of_unique; [rewrite before_S by exact Hk; unfold i'; lia|exact Hk]).
  pose proof (D_row x i' Hi') as E. cbv zeta in E. rewrite El in E. replace (i' - before l (lf i)) with j in E by (unfold i'; lia).
  rewrite <- E. now apply Hx.
Qed.
End Tree.

(** What the preparation gives. *)
Record usable (d : nat) (l : list nat) (F : entries) (p : precond A lu) : Prop := Usable {
  u_shape : shape (pc_matrix _ p) = (list_sum l, list_sum l);
  u_good : good d (pc_matrix _ p);
  u_zero : represents (pc_matrix _ p) (Z (leaf_of l) F);
  u_shapes : pc_shapes _ p = l;
  u_number : length (pc_lus _ p) = length l;
  u_lus : forall k f, nth_error (pc_lus _ p) k = Some f -> forall b, solution (nth k l 0) (diagonal_block F l k) (lu_solve f b) b;
  u_coarse : forall k j, k < length l -> j < list_sum l -> nth k (pc_coarse _ p) zeros j = RA (list_sum l) (leaf_of l) F k j;
  u_coarse_lu : forall b, solution (length l) (Ac (list_sum l) (leaf_of l) F) (lu_solve (pc_coarse_lu _ p) b) b }.

Lemma path_not_nil t : several t -> forall p, In p (path_to_leaf t) -> p <> [].
Proof.
  destruct t as [m|k l]; [contradiction|]. intros _ p H ->. cbn in H. apply in_concat in H. destruct H as (x & Hx & Hp).
  unfold mapi in Hx. revert Hx. generalize 0. induction (map path_to_leaf l) as [|y ys IH]; intros q Hx; [destruct Hx|].
  destruct Hx as [<-|Hx]; [|exact (IH _ Hx)]. apply in_map_iff in Hp. destruct Hp as (z & Hz & _). discriminate.
Qed.
Lemma list_eq_nth (a b : list nat) : length a = length b -> (forall k, k < length a -> nth_error a k = nth_error b k) -> a = b.
Proof.
  revert b. induction a as [|x a IH]; intros [|y b] L H; try discriminate; [reflexivity|].
  pose proof (H 0 ltac:(cbn; lia)) as H0. injection H0 as ->. f_equal. apply IH; [cbn in L; lia|]. intros k Hk. apply (H (S k)). cbn. lia.
Qed.

Lemma prepare_ok t (K : mat A) d F : several t -> paired K t -> good d K -> represents K F ->
  (forall x, In x (sizes t) -> 0 < x) -> invertible_parts F (sizes t) ->
  exists p, prepare lu lu_factor (path_to_leaf t) K = Ok p /\ usable d (sizes t) F p.
Proof using HA Hlu.
  intros Hnode P G R Hs [ND NC]. pose proof (paired_clustered _ _ P) as Cl. destruct G as (W & G').
  pose proof (paired_shape _ _ P W) as Sh. pose proof (paths_length _ Cl) as Lp.
  assert (Kb : is_block K = true) by (destruct P; [contradiction|reflexivity]).
  assert (HN : height K = list_sum (sizes t)) by (unfold height; rewrite Sh, sizes_sum by exact Cl; reflexivity).
  unfold prepare.
  assert (DS : forall k q, nth_error (path_to_leaf t) k = Some q -> exists f l, bind (leaf_block K q) (fun d => bind (factor lu lu_factor d) (fun l => Ok (l, height d))) = Ok (l, nth k (sizes t) 0)
     /\ (forall b, solution (nth k (sizes t) 0) (diagonal_block F (sizes t) k) (lu_solve l b) b) /\ lu_factor (nth k (sizes t) 0) (nth k (sizes t) 0) f = Some l).
  { intros k q Hq. destruct (paths_at t Cl k q Hq) as (s & Hss & L).
    assert (Hk : k < length (sizes t)) by (apply nth_error_Some; congruence).
    rewrite (nth_error_nth _ _ 0 Hss).
    destruct (walk_leaf t q _ s L K F P W R) as (f & Ef & Hf).
    rewrite leaf_block_walk, Ef by (try exact Kb; apply (path_not_nil t Hnode); eapply nth_error_In; exact Hq). cbn [bind factor as_array].
    unfold factor. cbn [as_array bind]. change (height (Dense s s f)) with s. change (width (Dense s s f)) with s.
    specialize (ND k Hk). rewrite (nth_error_nth _ _ 0 Hss) in ND.
    assert (Nf : nonsingular s f) by (eapply nonsingular_ext; [|exact ND]; intros i j Hi Hj; symmetry; now apply Hf).
    destruct (proj1 Hlu s f Nf) as (x & Ex). rewrite Ex. exists f, x. split; [reflexivity|]. split; [|exact Ex].
    intros b. eapply solution_ext; [|exact (proj2 Hlu s f x b Nf Ex)]. intros i j Hi Hj. now apply Hf. }
  destruct (mapM_total (fun path => bind (leaf_block K path) (fun d => bind (factor lu lu_factor d) (fun l => Ok (l, height d)))) (path_to_leaf t)) as (ds & Eds).
  { intros q Hq. apply In_nth_error in Hq. destruct Hq as (k & Hq). destruct (DS k q Hq) as (f & x & E & _). eauto. }
  rewrite Eds. cbn [bind]. apply mapM_ok in Eds. destruct Eds as (Lds & Hds).
  assert (At : forall k, k < length (sizes t) -> exists q f l, nth_error (path_to_leaf t) k = Some q /\ nth_error ds k = Some (l, nth k (sizes t) 0)
     /\ (forall b, solution (nth k (sizes t) 0) (diagonal_block F (sizes t) k) (lu_solve l b) b) /\ lu_factor (nth k (sizes t) 0) (nth k (sizes t) 0) f = Some l).
  { intros k Hk. destruct (nth_error (path_to_leaf t) k) as [q|] eqn:Hq; [|apply nth_error_None in Hq; lia].
    destruct (DS k q Hq) as (f & x & E & S1 & S2). destruct (Hds k q Hq) as (y & Ey & Hy). rewrite E in Ey. injection Ey as <-.
    exists q, f, x. auto. }
  assert (Es : map snd ds = sizes t).
  { apply list_eq_nth; [rewrite map_length; lia|]. intros k Hk. rewrite map_length in Hk. destruct (At k ltac:(lia)) as (q & f & x & _ & Ed & _).
    rewrite nth_error_map, Ed. cbn. symmetry. apply nth_error_nth'. lia. }
  rewrite Es. set (l := sizes t) in *.
  (* lines of the coarse matrix *)
  assert (CR : forall k q, nth_error (path_to_leaf t) k = Some q -> exists va, coarse_row K l k q = Ok va /\ forall j, j < list_sum l -> va j = RA (list_sum l) (leaf_of l) F k j).
  { intros k q Hq. destruct (paths_at t Cl k q Hq) as (s & Hss & L). fold l in Hss, L.
    assert (Hk : k < length l) by (apply nth_error_Some; congruence).
    assert (En : nth k l 0 = s) by (apply nth_error_nth, Hss).
    assert (TN : t_nb_faces t = list_sum l) by (symmetry; now apply sizes_sum).
    destruct (descend_leaf HA (height K) t q _ s L K F (restriction l k) zeros 0 (height K) P W R Hs) as (va & Ev & _ & Hv).
    { intros i Hi Hi'. rewrite restriction_ind by (assumption || lia). apply ind_other; try assumption; [lia|]. now rewrite En. }
    { lia. } { lia. }
    exists va. split.
    - unfold coarse_row. pose proof (path_not_nil t Hnode q (nth_error_In _ _ Hq)) as Hq0. destruct q; [congruence|]. rewrite <- Ev. now rewrite TN, HN.
    - intros j Hj. specialize (Hv j ltac:(lia)). cbn [Nat.add] in Hv. rewrite Hv, RA_part by exact Hk. rewrite En. apply ksum_ext. intros i Hi.
      pose proof (part_bound l k Hk). rewrite restriction_ind by lia. rewrite ind_part by lia. ring. }
  destruct (sequence_total (mapi (coarse_row K l) (path_to_leaf t))) as (ra & Era).
  { intros y Hy. apply mapi_in in Hy. destruct Hy as (k & q & Hq & ->). destruct (CR k q Hq) as (va & E & _). eauto. }
  rewrite Era. cbn [bind]. destruct (sequence_nth _ _ Era) as (Lra & Hra). rewrite mapi_length in Lra.
  assert (Hrow : forall k j, k < length l -> j < list_sum l -> nth k ra zeros j = RA (list_sum l) (leaf_of l) F k j).
  { intros k j Hk Hj. destruct (At k Hk) as (q & _ & _ & Hq & _). destruct (CR k q Hq) as (va & E & Hva).
    destruct (Hra k _ (mapi_nth _ _ _ _ Hq)) as (y & Ey & Hy). rewrite E in Ey. injection Ey as <-.
    rewrite (nth_error_nth _ _ zeros Hy). now apply Hva. }
  rewrite Lp. fold l.
  set (ac := fun k k' => ksum (height K) (fun j => kmul (nth k ra zeros j) (restriction l k' j))).
  assert (Eac : forall k k', k < length l -> k' < length l -> ac k k' = Ac (list_sum l) (leaf_of l) F k k').
  { intros k k' Hk Hk'. unfold ac, Ac. rewrite HN. apply ksum_ext. intros j Hj. rewrite Hrow, restriction_ind by assumption. reflexivity. }
  assert (NAc : nonsingular (length l) (Ac (list_sum l) (leaf_of l) F)).
  { eapply nonsingular_ext; [|exact NC]. intros i j Hi Hj. symmetry. now apply Ac_interaction. }
  assert (Nac : nonsingular (length l) ac) by (eapply nonsingular_ext; [|exact NAc]; intros i j Hi Hj; symmetry; now apply Eac).
  destruct (proj1 Hlu _ ac Nac) as (f & Ef). rewrite Ef. eexists. split; [reflexivity|].
  assert (Hps : forall p, In p (path_to_leaf t) -> p <> [] /\ exists o s, leaf_at t p o s).
  { intros p Hp. split; [exact (path_not_nil t Hnode p Hp)|]. apply In_nth_error in Hp. destruct Hp as (k & Hp).
    destruct (paths_at t Cl k p Hp) as (s & _ & L). eauto. }
  destruct (zero_all t K (path_to_leaf t) d F Hps P (conj W G') R) as (Gz & P2 & G2 & R2 & _ & Z1 & Z2).
  pose proof (paired_shape _ _ P2 (proj1 G2)) as Sh2.
  assert (LA : forall k, k < length l -> exists q, In q (path_to_leaf t) /\ leaf_at t q (before l k) (nth k l 0)).
  { intros k Hk. destruct (At k Hk) as (q & _ & _ & Hq & _). destruct (paths_at t Cl k q Hq) as (s & Hss & L). fold l in Hss, L.
    exists q. split; [exact (nth_error_In _ _ Hq)|]. now rewrite (nth_error_nth _ _ 0 Hss). }
  split; cbn [pc_matrix pc_coarse pc_coarse_lu pc_lus pc_shapes].
  - rewrite Sh2. f_equal; symmetry; now apply sizes_sum.
  - exact G2.
  - refine (represents_ext _ (proj1 G2) _ _ _ R2). unfold height, width. rewrite Sh2. cbn [fst snd]. intros i j Hi Hj.
    rewrite <- (sizes_sum t Cl) in Hi, Hj. fold l in Hi, Hj.
    destruct (leaf_of_spec l i Hi) as (Hki & Hbi). destruct (leaf_of_spec l j Hj) as (Hkj & Hbj). unfold Z.
    destruct (Nat.eqb_spec (leaf_of l i) (leaf_of l j)) as [E|E].
    + apply Z1. destruct (LA _ Hki) as (q & Hq & L). exists q, (before l (leaf_of l i)), (nth (leaf_of l i) l 0).
      rewrite <- E in Hbj. rewrite before_S in Hbi, Hbj by exact Hki. auto.
    + apply Z2. intros q o s Hq L. apply In_nth_error in Hq. destruct Hq as (k & Hq).
      destruct (paths_at t Cl k q Hq) as (s' & Hss & L'). fold l in Hss, L'.
      destruct (leaf_at_unique _ _ _ _ L' _ _ L) as [-> ->].
      assert (Hk : k < length l) by (apply nth_error_Some; congruence).
      assert (En : nth k l 0 = s') by (apply nth_error_nth, Hss).
      destruct (Nat.eq_dec (leaf_of l i) k) as [Ei|Ei].
      * right. intros Hc. apply E. rewrite Ei. symmetry. apply leaf_of_unique; [|exact Hk]. now rewrite before_S, En.
      * left. intros Hc. apply Ei. apply leaf_of_unique; [|exact Hk]. now rewrite before_S, En.
  - reflexivity.
  - rewrite map_length. lia.
  - intros k x Hx b. rewrite nth_error_map in Hx. destruct (nth_error ds k) as [[y s]|] eqn:Ey; [|discriminate]. injection Hx as <-.
    assert (Hk : k < length l) by (rewrite <- Lp, <- Lds; apply nth_error_Some; congruence).
    destruct (At k Hk) as (q & g & z & _ & Ez & Hsol & _). rewrite Ey in Ez. injection Ez as -> _. apply Hsol.
  - exact Hrow.
  - intros b. eapply solution_ext; [|exact (proj2 Hlu _ ac f b Nac Ef)]. exact Eac.
Qed.
End Data.
