(** Estimates remembered for a body, and bodies that share no mesh. *)
From Coq Require Import Reals.
From Coq Require Import List Bool Arith Lia.
From Verif Require Import Model_Base Model_Bodies Spec_Bodies Proofs_Problem Proofs_Bodies Proofs_Bodies2.
Import ListNotations.
Open Scope nat_scope.

Lemma skipn_next {X} k (l : list X) : skipn (S k) l = tl (skipn k l).
Proof. revert k. induction l as [|x l IH]; intros [|k]; try reflexivity. change (skipn (S k) l = tl (skipn k l)). apply IH. Qed.

Section Bodies.
  Variable face_type estimate_type : Type.
  Notation content := (content face_type).
  Variable heal downwards : content -> content.
  Variable estimate : R -> content -> option content -> estimate_type.
  Notation world := (world face_type estimate_type).
  Notation op := (op face_type).
  Notation perform := (perform heal downwards estimate).
  Notation new_body := (new_body heal downwards).
  Notation join := (join heal downwards).
  Implicit Types w : world.
  Notation extends := (extends face_type estimate_type).
  Notation below := (below face_type estimate_type).
  Notation below_cached := (below_cached face_type estimate_type).
  Notation valid_body := (valid_body face_type estimate_type).
  Notation evolves := (evolves face_type estimate_type).
  Definition all_valid w : Prop := Forall (valid_body w) (bodies w).

  Lemma longer_valid w w' : length (heap w) <= length (heap w') -> all_valid w -> Forall (valid_body w') (bodies w).
  Proof. intros E. apply Forall_impl. intros x. now apply evolves_valid. Qed.
  Lemma step_valid w o w' out : all_valid w -> perform w o = Some (w', out) -> all_valid w'.
  Proof.
    intros I E. destruct o as [c|m ld|m f|b f|b f|b|bs|b m|b ld|b|b g|k]; cbn [Model_Bodies.perform] in *.
    - injection E as <- <-. apply (longer_valid w); [|exact I]. cbn. rewrite app_length. lia.
    - destruct (mesh_exists w m) eqn:Em; [|discriminate]. destruct (lid_exists w ld); [|discriminate]. injection E as <- <-.
      destruct (new_body_spec _ _ heal downwards m ld w (exists_lt _ _ _ _ Em)) as (w2 & l & -> & B & _ & Ev & Bl & _).
      apply (add_inv _ _ valid_body w); [auto|apply longer_valid; [now destruct Ev|exact I]|exact B|].
      split; [destruct Ev; apply exists_lt in Em; cbn; lia|split; [exact Bl|exact Logic.I]].
    - destruct (mesh_exists w m) eqn:Em; [|discriminate]. injection E as <- <-. apply (longer_valid w); [now rewrite change_length|exact I].
    - apply body_do_some in E. destruct E as (x & Nx & E). injection E as -> ->. unfold all_valid. rewrite change_lid_bodies. cbn [bodies change].
      apply (longer_valid w); [|exact I]. now rewrite change_lid_length, change_length.
    - apply body_do_some in E. destruct E as (x & Nx & E). injection E as -> ->.
      set (w1 := change_lid (hb_lid x) f (change (hb_mesh x) f w)).
      assert (I1 : all_valid w1) by (unfold all_valid, w1; rewrite change_lid_bodies; cbn [bodies change]; apply (longer_valid w); [now rewrite change_lid_length, change_length|exact I]).
      destruct (hb_lid x) as [l|] eqn:El; [|exact I1]. destruct (mesh_at w1 l) as [|y c] eqn:E0; [|exact I1].
      unfold all_valid, set_body. cbn [bodies]. apply Forall_put; [|exact I1].
      assert (Gx : valid_body w1 x) by (apply (valid_at _ _ w1 b x (valid_body w1)); [unfold w1; now rewrite change_lid_bodies|exact I1]).
      destruct Gx as (V1 & V2 & V3). split; [exact V1|split; [exact Logic.I|exact V3]].
    - apply body_do_some in E. destruct E as (x & Nx & E). injection E as -> ->.
      destruct (valid_at _ _ w b x _ Nx I) as (V1 & V2 & V3). destruct (copy_body_spec _ _ w x V1 V2 V3) as (s & m & l & c & -> & Cp & Km & Kl & Kc).
      pose proof Cp as (X & B & _ & _). destruct (known_value _ _ w s _ _ Cp Km) as (Vm & _).
      assert (Lb : forall a a', known_lid _ _ s a a' -> below (fst s) a').
      { intros [a|] [a'|] K; try contradiction; [|exact Logic.I]. exact (proj2 (proj1 (known_value _ _ w s _ _ Cp K))). }
      apply (add_inv _ _ valid_body w); [auto|apply longer_valid; [now apply extends_length|exact I]|exact B|].
      split; [cbn; lia|split; [exact (Lb _ _ Kl)|]]. cbn.
      destruct (hb_cached x) as [[a d]|], c as [[a' d']|]; try contradiction; [|exact Logic.I]. destruct Kc as (Ka & Kd). split; [exact (proj2 (proj1 (known_value _ _ w s _ _ Cp Ka)))|exact (Lb _ _ Kd)].
    - destruct bs as [|b0 bs]; [discriminate|]. destruct (all_some _) as [xs|]; [|discriminate]. injection E as <- <-.
      destruct (join_spec _ _ heal downwards xs w) as (w1 & m & ld & w2 & l & -> & _ & _ & _ & _ & _ & B & _ & Ev & Lm & Bl & _).
      apply (add_inv _ _ valid_body w); [auto|apply longer_valid; [now destruct Ev|exact I]|exact B|]. split; [exact Lm|split; [exact Bl|exact Logic.I]].
    - destruct (mesh_exists w m) eqn:Em; [|discriminate]. apply body_do_some in E. destruct E as (x & Nx & E). injection E as -> ->.
      unfold all_valid, set_body. cbn [bodies]. apply Forall_put; [|exact I]. destruct (valid_at _ _ w b x _ Nx I) as (V1 & V2 & V3).
      split; [now apply exists_lt|split; [exact V2|exact V3]].
    - destruct (lid_exists w ld) eqn:Em; [|discriminate]. apply body_do_some in E. destruct E as (x & Nx & E). injection E as -> ->.
      unfold all_valid, set_body. cbn [bodies]. apply Forall_put; [|exact I]. destruct (valid_at _ _ w b x _ Nx I) as (V1 & V2 & V3).
      split; [exact V1|split; [now apply exists_below|exact V3]].
    - apply body_do_some in E. destruct E as (x & Nx & E). destruct (hb_cached x) as [c|] eqn:Ec; injection E as -> ->; [exact I|].
      unfold all_valid, set_body. cbn [bodies]. apply Forall_put; [|exact I]. destruct (valid_at _ _ w b x _ Nx I) as (V1 & V2 & V3).
      split; [exact V1|split; [exact V2|split; [exact V1|exact V2]]].
    - apply body_do_some in E. destruct E as (x & Nx & E). destruct (find _ _) as [e|]; injection E as -> ->; exact I.
    - injection E as <- <-. exact I.
  Qed.
  Lemma reaches_valid os w : reaches perform os w -> all_valid w.
  Proof. intros H. induction H as [|os w o w' out H IH E]; [constructor|]. exact (step_valid w o w' out IH E). Qed.

  (** ** A body that is not disturbed *)
  (** The body keeps its objects, and they keep their contents. *)
  Notation same_body_in := unchanged_body.
  Lemma same_meshes w w' b x x' : nth_error (bodies w') b = Some x' -> hb_mesh x' = hb_mesh x -> hb_lid x' = hb_lid x ->
    (forall k, uses x k -> mesh_at w' k = mesh_at w k) -> same_body_in w w' b x.
  Proof.
    intros N A B H. exists x'. repeat (split; [assumption|]). unfold hull, lid. rewrite A, B. split; [apply (H (hb_mesh x)); now left|].
    destruct (hb_lid x) as [l|] eqn:El; [|reflexivity]. f_equal. apply (H l). now right.
  Qed.
  Lemma uses_below w x k : valid_body w x -> uses x k -> k < length (heap w).
  Proof. intros (A & B & _) [<-|H]; [exact A|]. rewrite H in B. exact B. Qed.
  Lemma added w2 x b y : nth_error (bodies w2) b = Some y -> nth_error (bodies (add_body x w2)) b = Some y.
  Proof. intros H. cbn. rewrite nth_error_app1; [exact H|]. apply nth_error_Some. congruence. Qed.

  Lemma not_disturbed w o w' out b x : all_valid w -> perform w o = Some (w', out) -> nth_error (bodies w) b = Some x -> ~ disturbs w o b x -> same_body_in w w' b x.
  Proof.
    intros I E N D. pose proof (valid_at _ _ w b x _ N I) as Vx.
    assert (Same : forall w2 y, bodies w2 = bodies w -> (forall k, k < length (heap w) -> uses x k -> mesh_at w2 k = mesh_at w k) -> same_body_in w (add_body y w2) b x).
    { intros w2 y B H. apply (same_meshes w _ b x x); [apply added; now rewrite B|reflexivity|reflexivity|]. intros k Hk. exact (H k (uses_below w x k Vx Hk) Hk). }
    destruct o as [c|m ld|m f|b' f|b' f|b'|bs|b' m|b' ld|b'|b' g|k]; cbn [Model_Bodies.perform disturbs] in *.
    - injection E as <- <-. apply (same_meshes w _ b x x); auto. intros k Hk. apply extends_mesh; [now exists [c]|exact (uses_below w x k Vx Hk)].
    - destruct (mesh_exists w m) eqn:Em; [|discriminate]. destruct (lid_exists w ld); [|discriminate]. injection E as <- <-.
      destruct (new_body_spec _ _ heal downwards m ld w (exists_lt _ _ _ _ Em)) as (w2 & l & -> & B & _ & _ & _ & _ & O).
      apply Same; [exact B|]. intros k Hk U. apply O; [exact Hk|]. intros ->. contradiction.
    - destruct (mesh_exists w m) eqn:Em; [|discriminate]. injection E as <- <-. apply (same_meshes w _ b x x); auto. intros k Hk. apply mesh_change_other. intros ->. contradiction.
    - apply body_do_some in E. destruct E as (y & Ny & E). injection E as -> ->. apply (same_meshes w _ b x x); auto; [now rewrite change_lid_bodies|].
      intros k Hk. rewrite mesh_change_lid_other, mesh_change_other; [reflexivity| |].
      + intros ->. apply D. exists y, (hb_mesh y). split; [exact Ny|]. split; [now left|exact Hk].
      + intros El. apply D. exists y, k. split; [exact Ny|]. split; [now right|exact Hk].
    - apply body_do_some in E. destruct E as (y & Ny & E). injection E as -> ->. set (w1 := change_lid (hb_lid y) f (change (hb_mesh y) f w)).
      assert (S1 : forall k, uses x k -> mesh_at w1 k = mesh_at w k).
      { intros k Hk. unfold w1. rewrite mesh_change_lid_other, mesh_change_other; [reflexivity| |].
        - intros ->. apply D. exists y, (hb_mesh y). split; [exact Ny|]. split; [now left|exact Hk].
        - intros El. apply D. exists y, k. split; [exact Ny|]. split; [now right|exact Hk]. }
      assert (Nb : nth_error (bodies w1) b = Some x) by (unfold w1; now rewrite change_lid_bodies).
      assert (Dif : b <> b') by (intros ->; apply D; exists y, (hb_mesh y); split; [exact Ny|split; [now left|left; congruence]]).
      destruct (hb_lid y) as [l|]; [destruct (mesh_at w1 l)|]; try (now apply (same_meshes w _ b x x)).
      apply (same_meshes w _ b x x); auto. cbn. now rewrite put_other.
    - apply body_do_some in E. destruct E as (y & Ny & E). injection E as -> ->. destruct (valid_at _ _ w b' y _ Ny I) as (V1 & V2 & V3).
      destruct (copy_body_spec _ _ w y V1 V2 V3) as (s & m & l & c & -> & (X & B & _ & _) & _). apply Same; [exact B|]. intros k Hk _. now apply extends_mesh.
    - destruct bs as [|b0 bs]; [discriminate|]. destruct (all_some _) as [xs|]; [|discriminate]. injection E as <- <-.
      destruct (join_spec _ _ heal downwards xs w) as (w1 & m & ld & w2 & l & -> & _ & _ & _ & _ & _ & B & _ & _ & _ & _ & _ & O). apply Same; [exact B|]. intros k Hk _. now apply O.
    - destruct (mesh_exists w m); [|discriminate]. apply body_do_some in E. destruct E as (y & Ny & E). injection E as -> ->.
      apply (same_meshes w _ b x x); auto. cbn. rewrite put_other; [exact N|congruence].
    - destruct (lid_exists w ld); [|discriminate]. apply body_do_some in E. destruct E as (y & Ny & E). injection E as -> ->.
      apply (same_meshes w _ b x x); auto. cbn. rewrite put_other; [exact N|congruence].
    - apply body_do_some in E. destruct E as (y & Ny & E). destruct (hb_cached y) as [c|]; injection E as -> ->; [now apply (same_meshes w _ b x x)|].
      destruct (Nat.eq_dec b b') as [->|Nb].
      + rewrite N in Ny. injection Ny as <-. apply (same_meshes w _ b' x (HBody (hb_mesh x) (hb_lid x) (Some (hb_mesh x, hb_lid x)))); auto. cbn. apply put_same. apply nth_error_Some. congruence.
      + apply (same_meshes w _ b x x); auto. cbn. now rewrite put_other.
    - apply body_do_some in E. destruct E as (y & Ny & E). destruct (find _ _) as [e|]; injection E as -> ->; now apply (same_meshes w _ b x x).
    - injection E as <- <-. now apply (same_meshes w _ b x x).
  Qed.

  (** ** Estimates *)
  Definition memo_inv (os : list op) w : Prop :=
    Forall (fun e => In (Estimate (fst (fst e)) (snd (fst e))) os
      /\ exists x, nth_error (bodies w) (fst (fst e)) = Some x /\ snd e = estimate (snd (fst e)) (hull w x) (lid w x)) (memo w).
  Lemma memo_kept w o w' out : (forall b g, o <> Estimate b g) -> (forall k, o <> Forget k) -> all_valid w -> perform w o = Some (w', out) -> memo w' = memo w.
  Proof.
    intros Ne Nf I E. destruct o as [c|m ld|m f|b f|b f|b|bs|b m|b ld|b|b g|k]; cbn [Model_Bodies.perform] in *.
    - injection E as <- <-. reflexivity.
    - destruct (mesh_exists w m) eqn:Em; [|discriminate]. destruct (lid_exists w ld); [|discriminate]. injection E as <- <-.
      destruct (new_body_spec _ _ heal downwards m ld w (exists_lt _ _ _ _ Em)) as (w2 & l & -> & _ & Me & _). exact Me.
    - destruct (mesh_exists w m) eqn:Em; [|discriminate]. injection E as <- <-. reflexivity.
    - apply body_do_some in E. destruct E as (x & Nx & E). injection E as -> ->. now rewrite change_lid_memo.
    - apply body_do_some in E. destruct E as (x & Nx & E). injection E as -> ->.
      destruct (hb_lid x) as [l|]; [|reflexivity]. destruct (mesh_at _ l); cbn [memo set_body]; now rewrite change_lid_memo.
    - apply body_do_some in E. destruct E as (x & Nx & E). injection E as -> ->. destruct (valid_at _ _ w b x _ Nx I) as (V1 & V2 & V3).
      destruct (copy_body_spec _ _ w x V1 V2 V3) as (s & m & l & c & -> & (_ & _ & Me & _) & _). exact Me.
    - destruct bs as [|b0 bs]; [discriminate|]. destruct (all_some _) as [xs|]; [|discriminate]. injection E as <- <-.
      destruct (join_spec _ _ heal downwards xs w) as (w1 & m & ld & w2 & l & -> & _ & _ & _ & _ & _ & _ & Me & _). exact Me.
    - destruct (mesh_exists w m); [|discriminate]. apply body_do_some in E. destruct E as (y & Ny & E). injection E as -> ->. reflexivity.
    - destruct (lid_exists w ld); [|discriminate]. apply body_do_some in E. destruct E as (y & Ny & E). injection E as -> ->. reflexivity.
    - apply body_do_some in E. destruct E as (y & Ny & E). destruct (hb_cached y) as [c|]; injection E as -> ->; reflexivity.
    - now contradiction (Ne b g).
    - now contradiction (Nf k).
  Qed.
  Lemma reaches_memo os w : reaches perform os w -> undisturbed perform os -> memo_inv os w.
  Proof.
    intros H. induction H as [|os w o w' out H IH E]; intros U; [constructor|].
    assert (U' : undisturbed perform os).
    { intros p o' q v b g x -> R In1 N. apply (U p o' (q ++ [o]) v b g x); auto. now rewrite <- app_assoc. }
    specialize (IH U'). pose proof (reaches_valid os w H) as Va.
    assert (Keep : forall l, Forall (fun e => In (Estimate (fst (fst e)) (snd (fst e))) os /\ exists x, nth_error (bodies w) (fst (fst e)) = Some x /\ snd e = estimate (snd (fst e)) (hull w x) (lid w x)) l ->
      Forall (fun e => In (Estimate (fst (fst e)) (snd (fst e))) (os ++ [o]) /\ exists x, nth_error (bodies w') (fst (fst e)) = Some x /\ snd e = estimate (snd (fst e)) (hull w' x) (lid w' x)) l).
    { intros l. apply Forall_impl. intros [[b g] v]. cbn. intros (Hin & x & Nx & ->). split; [apply in_app_iff; now left|].
      destruct (not_disturbed w o w' out b x Va E Nx (U os o [] w b g x eq_refl H Hin Nx)) as (x' & N' & _ & _ & E1 & E2). exists x'. split; [exact N'|]. now rewrite E1, E2. }
    unfold memo_inv in *. destruct o as [c|m ld|m f|b f|b f|b|bs|b m|b ld|b|b g|k].
    11: { cbn [Model_Bodies.perform] in E. apply body_do_some in E. destruct E as (x & Nx & E). destruct (find _ _) as [e|]; injection E as -> ->; [now apply Keep|].
      cbn [memo]. constructor; [|apply Keep; exact IH]. cbn. split; [apply in_app_iff; right; now left|]. exists x. split; [exact Nx|reflexivity]. }
    11: { assert (Ew : memo w' = firstn k (memo w) ++ skipn (S k) (memo w)) by (unfold Model_Bodies.perform in E; assert (X : forall a b : world * output face_type estimate_type, Some a = Some b -> fst a = fst b) by congruence; apply X in E; cbn [fst] in E; rewrite <- E; reflexivity).
      rewrite Ew. apply Keep. rewrite <- (firstn_skipn k (memo w)) in IH. apply Forall_app in IH. destruct IH as (I1 & I2). apply Forall_app. split; [exact I1|].
      rewrite skipn_next. destruct (skipn k (memo w)); [constructor|]. now inversion I2. }
    all: match type of E with Model_Bodies.perform _ _ _ ?v ?o = Some (?v', ?out') => rewrite (memo_kept v o v' out'); [now apply Keep|intros; discriminate|intros; discriminate|exact Va|exact E] end.
  Qed.
  Lemma estimate_is_current os w b g x : reaches perform os w -> undisturbed perform os -> nth_error (bodies w) b = Some x ->
    exists w', perform w (Estimate b g) = Some (w', Estimated (estimate g (hull w x) (lid w x))).
  Proof.
    intros H U Nx. pose proof (reaches_memo os w H U) as M. cbn [Model_Bodies.perform]. unfold body_do. rewrite Nx.
    destruct (find (memo_eqb b g) (memo w)) as [e|] eqn:Fd.
    - apply find_some in Fd. destruct Fd as (Hin & Q). unfold memo_inv in M. rewrite Forall_forall in M. destruct (M e Hin) as (_ & x' & N' & V).
      unfold memo_eqb in Q. apply andb_true_iff in Q. destruct Q as (Q1 & Q2). apply Nat.eqb_eq in Q1. apply Reqb_true in Q2. rewrite Q1 in N'. rewrite Q2 in V. rewrite Nx in N'. injection N' as <-.
      exists w. now rewrite V.
    - eexists. reflexivity.
  Qed.

  (** ** Bodies that share no mesh *)
  Definition apart w : Prop := forall b b' x x' m, b <> b' -> nth_error (bodies w) b = Some x -> nth_error (bodies w) b' = Some x' -> uses x m -> ~ uses x' m.
  Lemma add_apart w w2 y : apart w -> all_valid w -> bodies w2 = bodies w -> (forall m, uses y m -> m < length (heap w) -> forall b x, nth_error (bodies w) b = Some x -> ~ uses x m) -> apart (add_body y w2).
  Proof.
    intros A Va B H b b' x x' m Nb N N' U U'. cbn in N, N'. rewrite B in N, N'.
    assert (Cases : forall c z, nth_error (bodies w ++ [y]) c = Some z -> nth_error (bodies w) c = Some z \/ c = length (bodies w) /\ z = y).
    { intros c z Hc. destruct (Nat.lt_ge_cases c (length (bodies w))) as [L|L]; [left; now rewrite nth_error_app1 in Hc|right].
      rewrite nth_error_app2 in Hc by exact L. destruct (c - length (bodies w)) as [|r] eqn:Ec; [|destruct r; discriminate]. cbn in Hc. injection Hc as ->. split; [lia|reflexivity]. }
    destruct (Cases _ _ N) as [C1|(C1 & ->)]; destruct (Cases _ _ N') as [C2|(C2 & ->)].
    - exact (A b b' x x' m Nb C1 C2 U U').
    - exact (H m U' (uses_below w x m (valid_at _ _ w b x _ C1 Va) U) b x C1 U).
    - exact (H m U (uses_below w x' m (valid_at _ _ w b' x' _ C2 Va) U') b' x' C2 U').
    - lia.
  Qed.
  Lemma sub_apart w w' : apart w -> (forall b x', nth_error (bodies w') b = Some x' -> exists x, nth_error (bodies w) b = Some x /\ forall m, uses x' m -> uses x m) -> apart w'.
  Proof.
    intros A H b b' x x' m Nb N N' U U'. destruct (H _ _ N) as (z & Nz & Z). destruct (H _ _ N') as (z' & Nz' & Z'). exact (A b b' z z' m Nb Nz Nz' (Z m U) (Z' m U')).
  Qed.
  Lemma set_apart w w1 b x y : apart w -> bodies w1 = bodies w -> nth_error (bodies w) b = Some x -> (forall m, uses y m -> uses x m) -> apart (set_body b y w1).
  Proof.
    intros A B N H. apply (sub_apart w); [exact A|]. intros c z Hz. cbn in Hz. rewrite B in Hz. destruct (Nat.eq_dec c b) as [->|Nc].
    - rewrite put_same in Hz by (apply nth_error_Some; congruence). injection Hz as <-. exists x. split; [exact N|exact H].
    - rewrite put_other in Hz by exact Nc. exists z. split; [exact Hz|auto].
  Qed.
  Lemma same_apart w w' : apart w -> bodies w' = bodies w -> apart w'.
  Proof. intros A B. apply (sub_apart w); [exact A|]. intros b x N. rewrite B in N. eauto. Qed.
  Lemma reaches_apart os w : reaches perform os w -> not_shared perform os -> apart w.
  Proof.
    intros H. induction H as [|os w o w' out H IH E]; intros U; [intros b b' x x' m _ N; destruct b; discriminate|].
    assert (U' : not_shared perform os).
    { intros p o' q v -> R. apply (U p o' (q ++ [o]) v); auto. now rewrite <- app_assoc. }
    specialize (IH U'). pose proof (reaches_valid os w H) as Va. destruct (U os o [] w eq_refl H) as (Na & Nn).
    destruct o as [c|m ld|m f|b f|b f|b|bs|b m|b ld|b|b g|k]; cbn [Model_Bodies.perform assignment] in *; try (exfalso; now apply Na).
    - injection E as <- <-. now apply (same_apart w).
    - destruct (mesh_exists w m) eqn:Em; [|discriminate]. destruct (lid_exists w ld); [|discriminate]. injection E as <- <-.
      destruct (new_body_spec _ _ heal downwards m ld w (exists_lt _ _ _ _ Em)) as (w2 & l & -> & B & _ & _ & _ & Hl & _).
      apply (add_apart w); auto. intros k [Hk|Hk] Lk b x N; cbn in Hk.
      + subst k. exact (Nn m ld b x eq_refl N).
      + destruct Hl as [->| ->]; [discriminate|]. injection Hk as <-. lia.
    - destruct (mesh_exists w m) eqn:Em; [|discriminate]. injection E as <- <-. now apply (same_apart w).
    - apply body_do_some in E. destruct E as (x & Nx & E). injection E as -> ->. apply (same_apart w); [exact IH|]. now rewrite change_lid_bodies.
    - apply body_do_some in E. destruct E as (x & Nx & E). injection E as -> ->.
      set (w1 := change_lid (hb_lid x) f (change (hb_mesh x) f w)). assert (B1 : bodies w1 = bodies w) by (unfold w1; now rewrite change_lid_bodies).
      destruct (hb_lid x) as [l|] eqn:El; [destruct (mesh_at w1 l)|]; try (now apply (same_apart w)). apply (set_apart w w1 b x); auto. intros m [Hm|Hm]; [left; exact Hm|discriminate].
    - apply body_do_some in E. destruct E as (x & Nx & E). injection E as -> ->. destruct (valid_at _ _ w b x _ Nx Va) as (V1 & V2 & V3).
      destruct (copy_body_spec _ _ w x V1 V2 V3) as (s & m & l & c & -> & Cp & Km & Kl & _). pose proof Cp as (X & B & _ & _).
      apply (add_apart w); auto. intros k [Hk|Hk] Lk; cbn in Hk.
      + subst k. destruct (known_value _ _ w s _ _ Cp Km) as (Q & _). lia.
      + subst l. destruct (hb_lid x); [|contradiction]. destruct (known_value _ _ w s _ _ Cp Kl) as (Q & _). lia.
    - destruct bs as [|b0 bs]; [discriminate|]. destruct (all_some _) as [xs|]; [|discriminate]. injection E as <- <-.
      destruct (join_spec _ _ heal downwards xs w) as (w1 & m & ld & w2 & l & -> & _ & _ & _ & _ & Hm & B & _ & _ & _ & _ & Hl & _).
      apply (add_apart w); auto. intros k [Hk|Hk] Lk; cbn in Hk; [lia|]. specialize (Hl k Hk). lia.
    - apply body_do_some in E. destruct E as (x & Nx & E). destruct (hb_cached x) as [c|] eqn:Ec; injection E as -> ->; [exact IH|].
      apply (set_apart w w b x); auto.
    - apply body_do_some in E. destruct E as (x & Nx & E). destruct (find _ _) as [e|]; injection E as -> ->; now apply (same_apart w).
    - injection E as <- <-. now apply (same_apart w).
  Qed.
  (** Moving, clipping, copying or joining bodies leaves the other bodies as they are. *)
  Lemma others_unchanged os w o w' out b x : reaches perform os w -> not_shared perform (os ++ [o]) -> perform w o = Some (w', out) -> nth_error (bodies w) b = Some x ->
    (forall f, o <> MoveBody b f) -> (forall f, o <> ClipBody b f) -> (forall m f, o = TransformMesh m f -> ~ uses x m) -> same_body_in w w' b x.
  Proof.
    intros H U E N Nm Nc Nt. assert (U' : not_shared perform os) by (intros p o' q v -> R; apply (U p o' (q ++ [o]) v); auto; now rewrite <- app_assoc).
    pose proof (reaches_apart os w H U') as A. destruct (U os o [] w eq_refl H) as (Na & Nn).
    apply (not_disturbed w o w' out b x (reaches_valid os w H) E N). intros D. destruct o as [c|m ld|m f|b' f|b' f|b'|bs|b' m|b' ld|b'|b' g|k]; cbn [disturbs assignment] in *; try contradiction.
    - exact (Nn m ld b x eq_refl N D).
    - exact (Nt m f eq_refl D).
    - destruct D as (y & m & Ny & Uy & Ux). destruct (Nat.eq_dec b' b) as [->|Nb]; [now apply (Nm f)|]. exact (A b' b y x m Nb Ny N Uy Ux).
    - destruct D as (y & m & Ny & Uy & Ux). destruct (Nat.eq_dec b' b) as [->|Nb]; [now apply (Nc f)|]. exact (A b' b y x m Nb Ny N Uy Ux).
  Qed.
End Bodies.
