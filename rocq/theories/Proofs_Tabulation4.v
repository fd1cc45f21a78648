(** Proofs about the tabulation: the values that are read. *)
From Coq Require Import Reals ZArith.
From Coquelicot Require Import Complex.
From Coq Require Import List Bool Lra Lia.
From Flocq Require Import Core.Raux.
From Verif Require Import Model_Base Proofs_Problem Proofs_Geometry Model_Assembly Model_Wave Model_Tabulation Proofs_Tabulation Proofs_Tabulation2 Proofs_Tabulation3 Spec_Tabulation.
Import ListNotations.
Open Scope R_scope.

Section Table.
  Variables (nr nz : nat) (rmax zmin : R) (m : grid_shape).
  Hypothesis P : proper_grid nr rmax nz zmin m.
  Notation f := (r_node nr rmax m).
  Notation g := (z_node nz zmin m).
  Lemma r_increasing i i' : (1 <= i < i')%Z -> (i' <= Z.of_nat nr)%Z -> f i < f i'.
  Proof.
    intros H _. destruct P as (N1 & N2 & N3). destruct m; [now apply legacy_increasing|]. destruct (N3 eq_refl) as (A & B). now apply scaled_increasing.
  Qed.
  Lemma zs_decreasing' i i' : (1 <= i < i')%Z -> (i' <= Z.of_nat nz)%Z -> g i' < g i.
  Proof.
    intros H H'. destruct P as (N1 & N2 & N3). destruct m; [now apply z_decreasing|]. destruct (N3 eq_refl) as (A & B). now apply zs_decreasing.
  Qed.
  Lemma z_neg j : (1 <= j <= Z.of_nat nz)%Z -> g j < 0.
  Proof.
    intros H. destruct P as (N1 & N2 & N3). destruct m; [now apply z_negative|]. destruct (N3 eq_refl) as (A & B). now apply zs_negative.
  Qed.
  Lemma r_first_pos i : (1 <= i <= Z.of_nat nr)%Z -> 0 <= f i.
  Proof.
    intros H. assert (F1 : 0 <= f 1). { destruct P as (N1 & N2 & N3). destruct m; [rewrite legacy_1; lra|]. destruct (N3 eq_refl) as (A & B).
      destruct (Z_lt_ge_dec 1 (index_of_1 nr)) as [K|K]; [rewrite scaled_low by exact K; left; apply pow10_pos|]. pose proof (high_ge_1 nr rmax A N1 1 ltac:(lia)). lra. }
    destruct (Z.eq_dec i 1) as [-> |N]; [exact F1|]. pose proof (r_increasing 1 i ltac:(lia) ltac:(lia)). lra.
  Qed.
  Lemma r_defined r : 0 <= r -> exists i0, nearest_r_index r (r_spacing nr rmax m) m = Some i0.
  Proof.
    intros H. destruct P as (N1 & N2 & N3). destruct m; [|destruct (N3 eq_refl) as (A & B); now apply scaled_defined].
    unfold nearest_r_index. destruct (Rltb _ _); [eauto|]. destruct (Rltb _ _); eauto.
  Qed.
  Lemma z_defined' z : z <> 0 -> exists j0, nearest_z_index z (z_spacing nz zmin m) m = Some j0.
  Proof.
    intros H. destruct P as (N1 & N2 & N3). destruct m; [now apply z_defined|]. destruct (N3 eq_refl) as (A & B). rewrite zs_index by assumption. eauto.
  Qed.
  Lemma r_at_node i : (1 <= i <= Z.of_nat nr)%Z -> nearest_r_index (f i) (r_spacing nr rmax m) m = Some i.
  Proof.
    intros H. destruct P as (N1 & N2 & N3). destruct m; [apply legacy_nearest; lia|]. destruct (N3 eq_refl) as (A & B). now apply scaled_nearest.
  Qed.
  Lemma z_at_node j : (1 <= j < Z.of_nat nz)%Z -> nearest_z_index (g j) (z_spacing nz zmin m) m = Some j.
  Proof.
    intros H. destruct P as (N1 & N2 & N3). destruct m; [apply z_nearest; lia|]. destruct (N3 eq_refl) as (A & B). apply zs_nearest; try assumption. lia.
  Qed.
  Lemma r_bracket r : f 1 <= r < f (Z.of_nat nr) -> exists i0, nearest_r_index r (r_spacing nr rmax m) m = Some i0
    /\ f (clamp (Z.of_nat nr) i0 - 1) <= r <= f (clamp (Z.of_nat nr) i0 + 1).
  Proof.
    intros H. destruct P as (N1 & N2 & N3). destruct m; [apply legacy_bracket; [exact N1|rewrite legacy_1 in H; lra|lra]|]. destruct (N3 eq_refl) as (A & B).
    apply scaled_bracket; try assumption. rewrite scaled_last in H by assumption. exact H.
  Qed.
  Lemma z_bracket' z : g (Z.of_nat nz) < z <= g 1 -> exists j0, nearest_z_index z (z_spacing nz zmin m) m = Some j0
    /\ g (clamp (Z.of_nat nz) j0 + 1) <= z <= g (clamp (Z.of_nat nz) j0 - 1).
  Proof.
    intros H. destruct P as (N1 & N2 & N3). destruct m; [now apply z_bracket|]. destruct (N3 eq_refl) as (A & B). now apply zs_bracket.
  Qed.

  (** ** The table that is built *)
  Variable exp_e1 : C -> C.
  Variable nb : nat.
  Lemma integration_defined r z : (2 <= nb)%nat -> z <> 0 -> exists v, numerical_integration exp_e1 r z nb = Some v.
  Proof.
    intros Hn Hz. unfold numerical_integration. assert (O : (odd_number nb =? 1)%nat = false) by (apply Nat.eqb_neq; unfold odd_number; destruct (Nat.even nb); lia). rewrite O.
    assert (G : forall l acc, exists v, fold_left (fun acc k => obind acc (fun a => obind (simpson_term exp_e1 (odd_number nb) r z k) (fun b => Some (add_integrals a b)))) l (Some acc) = Some v).
    { induction l as [|k l IH]; intros acc; [now exists acc|]. cbn [fold_left obind].
      assert (T : exists b, simpson_term exp_e1 (odd_number nb) r z k = Some b). { unfold simpson_term. cbv zeta. rewrite (Reqb_false z 0 Hz). cbn [andb]. eauto. }
      destruct T as (b & ->). cbn [obind]. apply IH. }
    destruct (G (seq 1 (odd_number nb)) zero_integrals) as (s & ->). cbn [obind]. eauto.
  Qed.
  Lemma all_some_map {A B} (F : A -> option B) l bs : all_some (map F l) = Some bs <-> Forall2 (fun a b => F a = Some b) l bs.
  Proof.
    revert bs. induction l as [|a l IH]; intros bs; cbn [map all_some].
    - split; [intros H; injection H as <-; constructor|intros H; now inversion H].
    - split.
      + destruct (F a) as [b|] eqn:E; [|discriminate]. cbn [obind]. destruct (all_some (map F l)) as [r|] eqn:E'; [|discriminate]. cbn [obind]. intros H. injection H as <-. constructor; [exact E|now apply IH].
      + intros H. inversion H as [|? b ? r Hb Hr]; subst. rewrite Hb. cbn [obind]. apply IH in Hr. now rewrite Hr.
  Qed.
  Lemma forall2_exists {A B} (R : A -> B -> Prop) l : (forall a, In a l -> exists b, R a b) -> exists bs, Forall2 R l bs.
  Proof.
    induction l as [|a l IH]; intros H; [now exists []|]. destruct (H a (or_introl eq_refl)) as (b & Hb). destruct IH as (bs & Hbs); [intros x Hx; apply H; now right|]. exists (b :: bs). now constructor.
  Qed.
  Lemma in_indices n i : In i (indices n) <-> (1 <= i <= Z.of_nat n)%Z.
  Proof.
    unfold indices. rewrite in_map_iff. split.
    - intros (k & <- & H). apply in_seq in H. lia.
    - intros H. exists (Z.to_nat (i - 1)). split; [lia|]. apply in_seq. lia.
  Qed.
  Lemma create_defined : (2 <= nb)%nat -> exists t, create_tabulation exp_e1 nr rmax nz zmin nb m = Some t.
  Proof.
    intros Hn. unfold create_tabulation, construct. rewrite r_spacing_nodes, z_spacing_nodes.
    assert (Row : forall r, exists row, all_some (map (fun z => numerical_integration exp_e1 r z nb) (map g (indices nz))) = Some row).
    { intros r. destruct (forall2_exists (fun z v => numerical_integration exp_e1 r z nb = Some v) (map g (indices nz))) as (row & Hr).
      - intros z Hz. apply in_map_iff in Hz. destruct Hz as (j & <- & Hj). apply in_indices in Hj. apply integration_defined; [exact Hn|]. pose proof (z_neg j Hj). lra.
      - exists row. now apply all_some_map. }
    destruct (forall2_exists (fun r row => all_some (map (fun z => numerical_integration exp_e1 r z nb) (map g (indices nz))) = Some row) (map f (indices nr))) as (rows & Hr).
    { intros r _. apply Row. }
    apply (proj2 (all_some_map _ _ _)) in Hr. cbv beta in Hr. rewrite Hr. cbn [obind]. eauto.
  Qed.
  (** The table is given by a function of the indices. *)
  Lemma forall2_indices {A} (F : R -> A -> Prop) (h : Z -> R) n l (d : A) : Forall2 F (map h (indices n)) l ->
    l = map (fun i => nth (Z.to_nat (i - 1)) l d) (indices n) /\ forall i, (1 <= i <= Z.of_nat n)%Z -> F (h i) (nth (Z.to_nat (i - 1)) l d).
  Proof.
    intros H. assert (L : length l = n). { assert (L : length (map h (indices n)) = length l) by (clear d; induction H; cbn; congruence). now rewrite map_length, length_indices in L. }
    split.
    - apply nth_ext with d d; [now rewrite map_length, length_indices|]. intros k Hk. rewrite L in Hk.
      rewrite (nth_indep (map (fun i => nth (Z.to_nat (i - 1)) l d) (indices n)) d (nth (Z.to_nat (0 - 1)) l d)) by (rewrite map_length, length_indices; exact Hk).
      rewrite (map_nth (fun i => nth (Z.to_nat (i - 1)) l d) (indices n) 0%Z k).
      assert (E : nth k (indices n) 0%Z = (Z.of_nat k + 1)%Z).
      { unfold indices. rewrite (nth_indep _ 0%Z (Z.of_nat 0 + 1)%Z) by (rewrite map_length, seq_length; exact Hk). rewrite (map_nth (fun i => (Z.of_nat i + 1)%Z)). rewrite seq_nth by exact Hk. lia. }
      rewrite E. f_equal. lia.
    - intros i Hi. assert (G : forall (xs : list R) (ys : list A), Forall2 F xs ys -> forall k x, nth_error xs k = Some x -> F x (nth k ys d)).
      { intros xs ys Hxy. induction Hxy as [|x y xs ys Hx Hxy IH]; intros k x' E; destruct k; try discriminate; cbn in *; [injection E as <-; exact Hx|now apply IH]. }
      apply (G _ _ H). pose proof (elem_indices h n i Hi) as E. apply elem_some in E. tauto.
  Qed.
  Lemma create_form t : create_tabulation exp_e1 nr rmax nz zmin nb m = Some t ->
    exists v, t = table_of m nr nz f g v /\ forall i j, (1 <= i <= Z.of_nat nr)%Z -> (1 <= j <= Z.of_nat nz)%Z -> numerical_integration exp_e1 (f i) (g j) nb = Some (v i j).
  Proof.
    unfold create_tabulation, construct. rewrite r_spacing_nodes, z_spacing_nodes. destruct (all_some _) as [rows|] eqn:E; [|discriminate]. cbn [obind]. intros H. injection H as <-.
    pose proof (proj1 (all_some_map (fun r => all_some (map (fun z => numerical_integration exp_e1 r z nb) (map g (indices nz)))) (map f (indices nr)) rows) E) as H2. clear E. apply (forall2_indices _ f nr rows []) in H2. destruct H2 as (E1 & E2).
    exists (fun i j => nth (Z.to_nat (j - 1)) (nth (Z.to_nat (i - 1)) rows []) zero_integrals). 
    assert (Rows : forall i, (1 <= i <= Z.of_nat nr)%Z -> let row := nth (Z.to_nat (i - 1)) rows [] in
      row = map (fun j => nth (Z.to_nat (j - 1)) row zero_integrals) (indices nz) /\ forall j, (1 <= j <= Z.of_nat nz)%Z -> numerical_integration exp_e1 (f i) (g j) nb = Some (nth (Z.to_nat (j - 1)) row zero_integrals)).
    { intros i Hi. specialize (E2 i Hi). pose proof (proj1 (all_some_map (fun z => numerical_integration exp_e1 (f i) z nb) (map g (indices nz)) _) E2) as H3. exact (forall2_indices _ g nz _ zero_integrals H3). }
    split.
    - unfold table_of. f_equal. rewrite E1 at 1. apply map_ext_in. intros i Hi. apply in_indices in Hi. exact (proj1 (Rows i Hi)).
    - intros i j Hi Hj. exact (proj2 (Rows i Hi) j Hj).
  Qed.

  (** ** The values that are read *)
  Variable v : Z -> Z -> integrals.
  Let t := table_of m nr nz f g v.
  Lemma sizes : (size (t_z t) <=? 1)%Z || (size (t_r t) <=? 1)%Z = false.
  Proof. destruct P as (N1 & N2 & _). unfold t. cbn [t_r t_z table_of]. rewrite !size_indices. apply orb_false_intro; apply Z.leb_gt; lia. Qed.
  Lemma lookup_form r z : lookup exp_e1 t nb r z = if Rltb (Rabs z) (Rabs (g (Z.of_nat nz))) && Rltb r (f (Z.of_nat nr)) then pick t r z else Some (asymptotic (Rmax r (/ 10000000000)) z).
  Proof.
    destruct P as (N1 & N2 & _). unfold lookup. rewrite sizes. unfold t. cbn [t_r t_z table_of]. rewrite !size_indices, !elem_indices by lia. reflexivity.
  Qed.
  Lemma last_nodes rl zl : node t (length (t_r t) - 1) (length (t_z t) - 1) rl zl -> rl = f (Z.of_nat nr) /\ zl = g (Z.of_nat nz).
  Proof.
    destruct P as (N1 & N2 & _). unfold node, t. cbn [t_r t_z table_of]. rewrite !map_length, !length_indices. intros (A & B).
    pose proof (elem_indices f nr (Z.of_nat nr) ltac:(lia)) as Ea. apply elem_some in Ea. destruct Ea as (_ & Ea). replace (Z.to_nat (Z.of_nat nr - 1)) with (nr - 1)%nat in Ea by lia.
    pose proof (elem_indices g nz (Z.of_nat nz) ltac:(lia)) as Eb. apply elem_some in Eb. destruct Eb as (_ & Eb). replace (Z.to_nat (Z.of_nat nz - 1)) with (nz - 1)%nat in Eb by lia. split; congruence.
  Qed.
  Lemma in_table_form r z : in_table t r z -> 0 <= r < f (Z.of_nat nr) /\ g (Z.of_nat nz) < z < 0 /\ lookup exp_e1 t nb r z = pick t r z.
  Proof.
    intros (rl & zl & Hn & Hr & Hz). apply last_nodes in Hn. destruct Hn as (-> & ->). split; [exact Hr|]. split; [exact Hz|]. rewrite lookup_form.
    rewrite (Rabs_left z), (Rabs_left (g _)) by lra. rewrite !(proj2 (Rltb_true _ _)) by lra. reflexivity.
  Qed.
  Lemma lookup_defined r z : 0 <= r -> z < 0 -> exists w, lookup exp_e1 t nb r z = Some w.
  Proof.
    intros Hr Hz. rewrite lookup_form. destruct (_ && _); [|eauto]. destruct (r_defined r Hr) as (i0 & Ei). destruct (z_defined' z ltac:(lra)) as (j0 & Ej). destruct P as (N1 & N2 & _).
    unfold t. rewrite (pick_form m nr nz f g v N1 N2 r_increasing zs_decreasing' r z i0 j0 Ei Ej). eauto.
  Qed.
  Lemma node_form i j r z : node t i j r z -> (i < nr)%nat /\ (j < nz)%nat /\ r = f (Z.of_nat i + 1) /\ z = g (Z.of_nat j + 1).
  Proof.
    unfold node, t. cbn [t_r t_z table_of]. intros (A & B).
    assert (La : (i < nr)%nat) by (pose proof (proj1 (nth_error_Some (map f (indices nr)) i) ltac:(congruence)) as X; now rewrite map_length, length_indices in X). assert (Lb : (j < nz)%nat) by (pose proof (proj1 (nth_error_Some (map g (indices nz)) j) ltac:(congruence)) as X; now rewrite map_length, length_indices in X).
    pose proof (elem_indices f nr (Z.of_nat i + 1) ltac:(lia)) as Ea. apply elem_some in Ea. destruct Ea as (_ & Ea). replace (Z.to_nat (Z.of_nat i + 1 - 1)) with i in Ea by lia.
    pose proof (elem_indices g nz (Z.of_nat j + 1) ltac:(lia)) as Eb. apply elem_some in Eb. destruct Eb as (_ & Eb). replace (Z.to_nat (Z.of_nat j + 1 - 1)) with j in Eb by lia. repeat split; try assumption; congruence.
  Qed.
  Lemma node_at i j : (1 <= i <= Z.of_nat nr)%Z -> (1 <= j <= Z.of_nat nz)%Z -> node t (Z.to_nat (i - 1)) (Z.to_nat (j - 1)) (f i) (g j) /\ stored t (Z.to_nat (i - 1)) (Z.to_nat (j - 1)) (v i j).
  Proof.
    intros Hi Hj. unfold node, stored, t. cbn [t_r t_z t_values table_of].
    pose proof (elem_indices f nr i Hi) as Ea. apply elem_some in Ea. pose proof (elem_indices g nz j Hj) as Eb. apply elem_some in Eb.
    pose proof (elem_indices (fun i => map (v i) (indices nz)) nr i Hi) as Ec. apply elem_some in Ec. pose proof (elem_indices (v i) nz j Hj) as Ed. apply elem_some in Ed.
    split; [tauto|]. exists (map (v i) (indices nz)). tauto.
  Qed.
  Lemma lookup_node i j r z : node t i j r z -> in_table t r z -> lookup exp_e1 t nb r z = Some (v (Z.of_nat i + 1) (Z.of_nat j + 1))%Z.
  Proof.
    intros Hn Ht. destruct (node_form i j r z Hn) as (Li & Lj & -> & ->). destruct (in_table_form _ _ Ht) as (Hr & Hz & ->). destruct P as (N1 & N2 & _).
    assert (Lj' : (Z.of_nat j + 1 < Z.of_nat nz)%Z). { destruct (Z.eq_dec (Z.of_nat j + 1) (Z.of_nat nz)) as [E|E]; [rewrite E in Hz; lra|lia]. }
    pose proof (r_at_node (Z.of_nat i + 1)%Z ltac:(lia)) as Ri. pose proof (z_at_node (Z.of_nat j + 1)%Z ltac:(lia)) as Rj.
    unfold t. rewrite (pick_form m nr nz f g v N1 N2 r_increasing zs_decreasing' _ _ (Z.of_nat i + 1)%Z (Z.of_nat j + 1)%Z Ri Rj).
    f_equal. apply pick_node; try assumption; try lia; try reflexivity; [exact r_increasing|exact zs_decreasing'].
  Qed.
  Lemma lookup_window r z : in_table t r z -> exists i j, (2 <= i <= Z.of_nat nr - 1)%Z /\ (2 <= j <= Z.of_nat nz - 1)%Z /\ lookup exp_e1 t nb r z = Some (pick_value f g v i j r z)
    /\ (f 1 <= r -> f (i - 1)%Z <= r <= f (i + 1)%Z) /\ (z <= g 1 -> g (j + 1)%Z <= z <= g (j - 1)%Z).
  Proof.
    intros Ht. destruct (in_table_form _ _ Ht) as (Hr & Hz & ->). destruct (r_defined r ltac:(lra)) as (i0 & Ei). destruct (z_defined' z ltac:(lra)) as (j0 & Ej). pose proof P as (N1 & N2 & _).
    exists (clamp (Z.of_nat nr) i0), (clamp (Z.of_nat nz) j0). split; [apply clamp_in; lia|]. split; [apply clamp_in; lia|].
    split; [exact (pick_form m nr nz f g v N1 N2 r_increasing zs_decreasing' r z i0 j0 Ei Ej)|]. split.
    - intros H. destruct (r_bracket r (conj H (proj2 Hr))) as (i0' & Ei' & B). rewrite Ei in Ei'. injection Ei' as <-. exact B.
    - intros H. destruct (z_bracket' z (conj (proj1 Hz) H)) as (j0' & Ej' & B). rewrite Ej in Ej'. injection Ej' as <-. exact B.
  Qed.
  Lemma pick_component F i j r z : component F -> F (pick_value f g v i j r z) = interpolated F r z (window f i) (window g j) (square3 v i j).
  Proof. intros [<-|[<-|[<-|[<-|[<-|[]]]]]]; reflexivity. Qed.
  Lemma lookup_polynomial F p r z w : component F -> biquadratic p -> (forall i j r z u, node t i j r z -> stored t i j u -> F u = p r z) ->
    in_table t r z -> lookup exp_e1 t nb r z = Some w -> F w = p r z.
  Proof.
    intros HF Hp Hs Ht Hw. destruct (lookup_window r z Ht) as (i & j & Hi & Hj & E & _). rewrite E in Hw. injection Hw as <-. rewrite (pick_component F i j r z HF).
    assert (Vf : forall a b, (1 <= a <= Z.of_nat nr)%Z -> (1 <= b <= Z.of_nat nz)%Z -> F (v a b) = p (f a) (g b)) by (intros a b Ha Hb; destruct (node_at a b Ha Hb) as (X & Y); exact (Hs _ _ _ _ _ X Y)).
    unfold interpolated, square3, map3. cbn [fst snd]. rewrite !Vf by lia.
    pose proof (window_r nr f i r_increasing Hi) as D1. pose proof (window_z nz g j zs_decreasing' Hj) as D2.
    destruct Hp as (a0 & a1 & a2 & b0 & b1 & b2 & c0 & c1 & c2 & Hp). rewrite !Hp.
    pose proof (fun e0 e1 e2 => basis_quadratic (window f i) r e0 e1 e2 D1) as Q1. pose proof (fun e0 e1 e2 => basis_quadratic (window g j) z e0 e1 e2 D2) as Q2.
    unfold window in *. unfold map3 in Q1, Q2. cbn [fst snd] in Q1, Q2. unfold combination.
    set (fa := f (i - 1)%Z) in *. set (fb := f i) in *. set (fc := f (i + 1)%Z) in *. set (ga := g (j - 1)%Z) in *. set (gb := g j) in *. set (gc := g (j + 1)%Z) in *. clearbody fa fb fc ga gb gc.
    assert (Inner : forall x, dot3 (a0 + a1 * x + a2 * (x * x) + (b0 + b1 * x + b2 * (x * x)) * ga + (c0 + c1 * x + c2 * (x * x)) * (ga * ga),
        a0 + a1 * x + a2 * (x * x) + (b0 + b1 * x + b2 * (x * x)) * gb + (c0 + c1 * x + c2 * (x * x)) * (gb * gb),
        a0 + a1 * x + a2 * (x * x) + (b0 + b1 * x + b2 * (x * x)) * gc + (c0 + c1 * x + c2 * (x * x)) * (gc * gc)) (basis3 (ga, gb, gc) z)
      = a0 + a1 * x + a2 * (x * x) + (b0 + b1 * x + b2 * (x * x)) * z + (c0 + c1 * x + c2 * (x * x)) * (z * z)).
    { intros x. rewrite <- Q2. unfold dot3. cbn [fst snd]. ring. }
    rewrite !Inner. specialize (Q1 (a0 + b0 * z + c0 * (z * z)) (a1 + b1 * z + c1 * (z * z)) (a2 + b2 * z + c2 * (z * z))).
    transitivity (a0 + b0 * z + c0 * (z * z) + (a1 + b1 * z + c1 * (z * z)) * r + (a2 + b2 * z + c2 * (z * z)) * (r * r)); [|ring]. rewrite <- Q1. unfold dot3. cbn [fst snd]. ring.
  Qed.
End Table.
