(** The invariants of the bodies that refer to mesh objects. *)
From Coq Require Import Reals.
From Coq Require Import List Bool Arith Lia.
From Verif Require Import Model_Base Model_Bodies Spec_Bodies Proofs_Problem Proofs_Bodies.
Import ListNotations.
Open Scope nat_scope.

Lemma put_In {X} k (x y : X) l : In y (put k x l) -> y = x \/ In y l.
Proof.
  unfold put. rewrite in_app_iff. intros [H|H].
  - right. rewrite <- (firstn_skipn k l). apply in_app_iff. now left.
  - destruct (skipn k l) as [|z r] eqn:E; [contradiction|]. destruct H as [<-|H]; [now left|]. right. rewrite <- (firstn_skipn k l), E. apply in_app_iff. right. now right.
Qed.
Lemma Forall_put {X} (P : X -> Prop) k x l : P x -> Forall P l -> Forall P (put k x l).
Proof. intros Px Pl. rewrite Forall_forall in *. intros y Hy. apply put_In in Hy. destruct Hy as [->|Hy]; auto. Qed.

Section Bodies.
  Variable face_type estimate_type : Type.
  Notation content := (content face_type).
  Variable heal downwards : content -> content.
  Variable estimate : R -> content -> option content -> estimate_type.
  Notation world := (world face_type estimate_type).
  Notation op := (op face_type).
  Notation perform := (perform heal downwards estimate).
  Notation new_body := (new_body heal downwards).
  Notation join := (join heal downwards).
  Implicit Types w : world.
  Notation extends := (extends face_type estimate_type).
  Notation below := (below face_type estimate_type).
  Notation below_cached := (below_cached face_type estimate_type).

  Definition valid_body w (x : hbody) : Prop := hb_mesh x < length (heap w) /\ below w (hb_lid x) /\ below_cached w (hb_cached x).
  Definition good_cache w (x : hbody) : Prop :=
    hb_cached x = None \/ exists l, hb_cached x = Some (hb_mesh x, l) /\ (l = hb_lid x \/ hb_lid x = None /\ exists l0, l = Some l0 /\ mesh_at w l0 = []).
  Definition cache_inv w : Prop := Forall (fun x => valid_body w x /\ good_cache w x) (bodies w).
  Definition uncached w : Prop := Forall (fun x => valid_body w x /\ hb_cached x = None) (bodies w).

  (** The meshes remain, and the empty ones remain empty. *)
  Definition evolves w w' : Prop := length (heap w) <= length (heap w') /\ forall k, k < length (heap w) -> mesh_at w k = [] -> mesh_at w' k = [].
  Lemma evolves_valid w w' x : length (heap w) <= length (heap w') -> valid_body w x -> valid_body w' x.
  Proof.
    intros L (A & B & D). split; [lia|]. unfold Proofs_Bodies.below, Proofs_Bodies.below_cached in *. split; [destruct (hb_lid x); [lia|exact I]|].
    destruct (hb_cached x) as [[m [l|]]|]; [|split; [lia|exact I]|exact I]. cbn in D. unfold Proofs_Bodies.below in D. split; [lia|cbn; lia].
  Qed.
  Lemma evolves_good w w' x : evolves w w' -> valid_body w x -> good_cache w x -> valid_body w' x /\ good_cache w' x.
  Proof.
    intros (L & E) Vx G. split; [now apply (evolves_valid w)|]. destruct G as [G|(l & G & H)]; [now left|]. right. exists l. split; [exact G|].
    destruct H as [H|(H & l0 & -> & H0)]; [now left|right]. split; [exact H|]. exists l0. split; [reflexivity|]. apply E; [|exact H0].
    destruct Vx as (_ & _ & D). rewrite G in D. cbn in D. tauto.
  Qed.
  Lemma evolves_inv w w' : evolves w w' -> cache_inv w -> Forall (fun x => valid_body w' x /\ good_cache w' x) (bodies w).
  Proof. intros E. apply Forall_impl. intros x (A & B). now apply (evolves_good w). Qed.
  Lemma evolves_uncached w w' : length (heap w) <= length (heap w') -> uncached w -> Forall (fun x => valid_body w' x /\ hb_cached x = None) (bodies w).
  Proof. intros E. apply Forall_impl. intros x (A & B). split; [now apply (evolves_valid w)|exact B]. Qed.
  Lemma change_evolves m f w : f [] = [] -> evolves w (change m f w).
  Proof. intros F. split; [now rewrite change_length|]. intros k _ E. now apply change_empty. Qed.
  Lemma change_lid_evolves l f w : f [] = [] -> evolves w (change_lid l f w).
  Proof. intros F. split; [now rewrite change_lid_length|]. intros k _ E. now apply change_lid_empty. Qed.
  Lemma evolves_trans a b c : evolves a b -> evolves b c -> evolves a c.
  Proof. intros (A & B) (C & D). split; [lia|]. intros k Hk E. apply D; [lia|]. now apply B. Qed.
  Lemma extends_evolves a b : extends a b -> evolves a b.
  Proof. intros E. split; [now apply extends_length|]. intros k Hk H. now rewrite (extends_mesh _ _ a b k E Hk). Qed.

  (** ** New bodies *)
  Lemma allocate_extends c w : extends w (fst (allocate c w)).
  Proof. now exists [c]. Qed.
  Lemma allocate_length c w : length (heap (fst (allocate c w))) = S (length (heap w)).
  Proof. cbn. rewrite app_length. cbn. lia. Qed.
  Lemma allocated c w : mesh_at (fst (allocate c w)) (length (heap w)) = c.
  Proof. unfold mesh_at. cbn. now rewrite app_nth2, Nat.sub_diag by lia. Qed.
  (** What [FloatingBody(...)] does. *)
  Lemma new_body_spec m ld w : m < length (heap w) -> exists w2 l, new_body m ld w = add_body (HBody m l None) w2
    /\ bodies w2 = bodies w /\ memo w2 = memo w /\ evolves w w2 /\ below w2 l
    /\ (l = None \/ l = Some (length (heap w))) /\ (forall k, k < length (heap w) -> k <> m -> mesh_at w2 k = mesh_at w k).
  Proof.
    intros Lm. unfold Model_Bodies.new_body.
    match goal with |- context [let '(_, _) := ?t in add_body _ _] => remember t as r eqn:Er end.
    assert (Hr : bodies (fst r) = bodies w /\ memo (fst r) = memo w /\ extends w (fst r) /\ below (fst r) (snd r) /\ (snd r = None \/ snd r = Some (length (heap w)))).
    { rewrite Er. clear Er. destruct ld as [l|]; [destruct (mesh_at w l) as [|y c]|]; cbn [fst snd].
      - repeat split; [apply extends_refl|now left].
      - split; [reflexivity|]. split; [reflexivity|]. split; [now eexists|]. split; [cbn; rewrite app_length; cbn; lia|now right].
      - repeat split; [apply extends_refl|now left]. }
    clear Er. destruct r as [w1 l]. cbn [fst snd] in Hr. destruct Hr as (B & Me & X & Bl & Hl).
    set (w2 := match mesh_at w1 m with [] => w1 | _ :: _ => change m heal w1 end).
    exists w2, l. split; [unfold w2; reflexivity|].
    assert (E2 : length (heap w2) = length (heap w1) /\ bodies w2 = bodies w1 /\ memo w2 = memo w1 /\ (forall k, mesh_at w1 k = [] -> mesh_at w2 k = []) /\ forall k, k <> m -> mesh_at w2 k = mesh_at w1 k).
    { unfold w2. destruct (mesh_at w1 m) as [|y c] eqn:Em; [repeat split; auto|]. split; [apply change_length|]. split; [reflexivity|]. split; [reflexivity|]. split.
      - intros k E. rewrite mesh_change_other; [exact E|congruence].
      - intros k Nk. now apply mesh_change_other. }
    destruct E2 as (L2 & B2 & M2 & E2 & O2). split; [congruence|]. split; [congruence|]. split.
    - split; [rewrite L2; now apply extends_length|]. intros k Hk E. apply E2. now rewrite (extends_mesh _ _ w w1 k X Hk).
    - split; [unfold Proofs_Bodies.below in *; destruct l; [now rewrite L2|exact I]|]. split; [exact Hl|]. intros k Hk Nk. rewrite O2 by exact Nk. now apply extends_mesh.
  Qed.
  Lemma join_spec xs w : exists w1 m ld w2 l, join xs w = add_body (HBody m l None) w2 /\ join xs w = new_body m ld w1 /\ extends w w1 /\ bodies w1 = bodies w /\ memo w1 = memo w
    /\ m = length (heap w) /\ bodies w2 = bodies w /\ memo w2 = memo w /\ evolves w w2 /\ m < length (heap w2) /\ below w2 l
    /\ (forall k, l = Some k -> length (heap w) < k) /\ (forall k, k < length (heap w) -> mesh_at w2 k = mesh_at w k).
  Proof.
    unfold Model_Bodies.join. set (c := concat (map (fun x => mesh_at w (hb_mesh x)) xs)). destruct (allocate c w) as [w1 m] eqn:Ea.
    assert (Xw : extends w w1) by (pose proof (allocate_extends c w) as H; rewrite Ea in H; exact H).
    assert (Lw : length (heap w1) = S (length (heap w))) by (pose proof (allocate_length c w) as H; rewrite Ea in H; exact H).
    assert (Hm : m = length (heap w)) by (unfold allocate in Ea; congruence). assert (Hb : bodies w1 = bodies w) by (unfold allocate in Ea; injection Ea as <- <-; reflexivity). assert (Hme : memo w1 = memo w) by (unfold allocate in Ea; injection Ea as <- <-; reflexivity).
    assert (G : forall w1' ld, extends w w1' -> length (heap w) < length (heap w1') -> bodies w1' = bodies w -> memo w1' = memo w ->
      exists w1 m ld0 w2 l, new_body m ld w1' = add_body (HBody m l None) w2 /\ new_body m ld w1' = new_body m ld0 w1 /\ extends w w1 /\ bodies w1 = bodies w /\ memo w1 = memo w
      /\ m = length (heap w) /\ bodies w2 = bodies w /\ memo w2 = memo w /\ evolves w w2 /\ m < length (heap w2) /\ below w2 l
      /\ (forall k, l = Some k -> length (heap w) < k) /\ (forall k, k < length (heap w) -> mesh_at w2 k = mesh_at w k)).
    { intros w1' ld X L B M. destruct (new_body_spec m ld w1' ltac:(lia)) as (w2 & l & E & B2 & M2 & Ev & Bl & Hl & O).
      exists w1', m, ld, w2, l. split; [exact E|]. split; [reflexivity|]. split; [exact X|]. split; [exact B|]. split; [exact M|]. split; [exact Hm|]. split; [congruence|]. split; [congruence|].
      split; [exact (evolves_trans _ _ _ (extends_evolves _ _ X) Ev)|]. split; [destruct Ev; lia|]. split; [exact Bl|]. split.
      - intros k ->. destruct Hl as [Hl|Hl]; [discriminate|]. injection Hl as ->. exact L.
      - intros k Hk. rewrite O by lia. now apply extends_mesh. }
    destruct (lids w xs) as [|c0 cs] eqn:El.
    - destruct (G w1 None Xw ltac:(lia) Hb Hme) as (a & b & d & e & f & H1 & H2 & H3 & H4 & H5 & H6 & H7). exists a, b, d, e, f. rewrite Hm in *. subst b. split; [exact H1|]. split; [exact H2|]. tauto.
    - destruct (allocate (concat (c0 :: cs)) w1) as [w1' l0] eqn:Ea2.
      assert (X2 : extends w1 w1') by (pose proof (allocate_extends (concat (c0 :: cs)) w1) as H; rewrite Ea2 in H; exact H).
      assert (L2 : length (heap w1') = S (length (heap w1))) by (pose proof (allocate_length (concat (c0 :: cs)) w1) as H; rewrite Ea2 in H; exact H).
      assert (Hb2 : bodies w1' = bodies w) by (unfold allocate in Ea2; injection Ea2 as <- <-; exact Hb). assert (Hme2 : memo w1' = memo w) by (unfold allocate in Ea2; injection Ea2 as <- <-; exact Hme).
      destruct (G w1' (Some l0) (extends_trans _ _ _ _ _ Xw X2) ltac:(lia) Hb2 Hme2) as (a & b & d & e & f & H1 & H2 & H3 & H4 & H5 & H6 & H7). exists a, b, d, e, f. rewrite Hm in *. subst b. split; [exact H1|]. split; [exact H2|]. tauto.
  Qed.

  (** ** The value of [mesh_including_lid] *)
  Lemma add_inv (P : world -> hbody -> Prop) w w2 x : (forall y, P w2 y -> P (add_body x w2) y) ->
    Forall (P w2) (bodies w) -> bodies w2 = bodies w -> P w2 x -> Forall (P (add_body x w2)) (bodies (add_body x w2)).
  Proof. intros H F E Px. cbn. rewrite E. apply Forall_app. split; [eapply Forall_impl; [exact H|exact F]|]. constructor; [now apply H|constructor]. Qed.
  Lemma body_do_some w b f r : body_do w b f = Some r -> exists x, nth_error (bodies w) b = Some x /\ r = f x.
  Proof. unfold body_do. destruct (nth_error (bodies w) b) as [x|]; [|discriminate]. intros H. injection H as <-. eauto. Qed.
  Lemma valid_at w b x (Q : hbody -> Prop) : nth_error (bodies w) b = Some x -> Forall Q (bodies w) -> Q x.
  Proof. intros N F. rewrite Forall_forall in F. apply F. exact (nth_error_In _ _ N). Qed.
  Lemma exists_lt w m : mesh_exists w m = true -> m < length (heap w).
  Proof. apply Nat.ltb_lt. Qed.
  Lemma exists_below w l : lid_exists w l = true -> below w l.
  Proof. destruct l; [apply exists_lt|intros _; exact I]. Qed.

  Lemma step_cache w o w' out : neutral o -> ~ assignment o -> cache_inv w -> perform w o = Some (w', out) -> cache_inv w'.
  Proof.
    intros Nt As I E. destruct o as [c|m ld|m f|b f|b f|b|bs|b m|b ld|b|b g|k]; cbn [Model_Bodies.perform neutral assignment] in *; try (exfalso; now apply As).
    - injection E as <- <-. apply (evolves_inv w); [|exact I]. apply extends_evolves. now exists [c].
    - destruct (mesh_exists w m) eqn:Em; [|discriminate]. destruct (lid_exists w ld); [|discriminate]. injection E as <- <-.
      destruct (new_body_spec m ld w (exists_lt _ _ Em)) as (w2 & l & -> & B & _ & Ev & Bl & _).
      apply (add_inv (fun w x => valid_body w x /\ good_cache w x) w); [auto|now apply evolves_inv|exact B|].
      split; [split; [destruct Ev; apply exists_lt in Em; cbn; lia|split; [exact Bl|exact Logic.I]]|now left].
    - destruct (mesh_exists w m) eqn:Em; [|discriminate]. injection E as <- <-. apply (evolves_inv w); [now apply change_evolves|exact I].
    - apply body_do_some in E. destruct E as (x & Nx & E). injection E as -> ->. unfold cache_inv. rewrite change_lid_bodies. cbn [bodies change].
      apply (evolves_inv w); [|exact I]. eapply evolves_trans; [now apply (change_evolves (hb_mesh x) f)|now apply change_lid_evolves].
    - apply body_do_some in E. destruct E as (x & Nx & E). injection E as -> ->.
      set (w1 := change_lid (hb_lid x) f (change (hb_mesh x) f w)).
      assert (Ev : evolves w w1) by (eapply evolves_trans; [now apply (change_evolves (hb_mesh x) f)|now apply change_lid_evolves]).
      assert (I1 : cache_inv w1) by (unfold cache_inv, w1; rewrite change_lid_bodies; cbn [bodies change]; exact (evolves_inv w w1 Ev I)).
      destruct (hb_lid x) as [l|] eqn:El; [|exact I1]. destruct (mesh_at w1 l) as [|y c] eqn:E0; [|exact I1].
      unfold cache_inv, set_body. cbn [bodies]. apply Forall_put; [|exact I1].
      assert (Gx : valid_body w1 x /\ good_cache w1 x).
      { apply (valid_at w1 b x (fun x => valid_body w1 x /\ good_cache w1 x)); [unfold w1; now rewrite change_lid_bodies|exact I1]. }
      destruct Gx as ((V1 & V2 & V3) & [G|(l0 & G & [H|(H & _)])]).
      + split; [split; [exact V1|split; [exact Logic.I|exact V3]]|now left].
      + split; [split; [exact V1|split; [exact Logic.I|exact V3]]|]. right. exists l0. split; [exact G|]. right. split; [reflexivity|]. exists l. split; [congruence|exact E0].
      + congruence.
    - apply body_do_some in E. destruct E as (x & Nx & E). injection E as -> ->.
      destruct (valid_at w b x _ Nx I) as ((V1 & V2 & V3) & G). destruct (copy_body_spec _ _ w x V1 V2 V3) as (s & m & l & c & -> & Cp & Km & Kl & Kc).
      pose proof Cp as (X & B & _ & _). destruct (known_value _ _ w s _ _ Cp Km) as (Vm & _).
      assert (Lb : forall a a', known_lid _ _ s a a' -> below (fst s) a').
      { intros [a|] [a'|] K; try contradiction; [|exact Logic.I]. exact (proj2 (proj1 (known_value _ _ w s _ _ Cp K))). }
      apply (add_inv (fun w x => valid_body w x /\ good_cache w x) w); [auto|apply evolves_inv; [now apply extends_evolves|exact I]|exact B|].
      split; [split; [cbn; lia|split; [exact (Lb _ _ Kl)|]]|].
      + cbn. destruct (hb_cached x) as [[a d]|], c as [[a' d']|]; try contradiction; [|exact Logic.I]. destruct Kc as (Ka & Kd). split; [exact (proj2 (proj1 (known_value _ _ w s _ _ Cp Ka)))|exact (Lb _ _ Kd)].
      + destruct G as [G|(l0 & G & H)]; rewrite G in Kc.
        * left. cbn. destruct c; [contradiction|reflexivity].
        * destruct c as [[a' d']|]; [|contradiction]. destruct Kc as (Ka & Kd). right. exists d'. cbn. split; [now rewrite (known_fun _ _ s _ _ _ Km Ka)|].
          destruct H as [->|(H & l1 & -> & H1)]; [left; exact (known_lid_fun _ _ s _ _ _ Kd Kl)|]. right. rewrite H in Kl. destruct l; [contradiction|]. split; [reflexivity|].
          destruct d' as [d'|]; [|contradiction]. exists d'. split; [reflexivity|]. now rewrite (proj2 (known_value _ _ w s _ _ Cp Kd)).
    - destruct bs as [|b0 bs]; [discriminate|]. destruct (all_some _) as [xs|]; [|discriminate]. injection E as <- <-.
      destruct (join_spec xs w) as (w1 & m & ld & w2 & l & -> & _ & _ & _ & _ & _ & B & _ & Ev & Lm & Bl & _).
      apply (add_inv (fun w x => valid_body w x /\ good_cache w x) w); [auto|now apply evolves_inv|exact B|].
      split; [split; [exact Lm|split; [exact Bl|exact Logic.I]]|now left].
    - apply body_do_some in E. destruct E as (x & Nx & E). destruct (hb_cached x) as [c|] eqn:Ec; injection E as -> ->; [exact I|].
      unfold cache_inv, set_body. cbn [bodies]. apply Forall_put; [|exact I]. destruct (valid_at w b x _ Nx I) as ((V1 & V2 & V3) & G).
      split; [split; [exact V1|split; [exact V2|split; [exact V1|exact V2]]]|]. right. exists (hb_lid x). split; [reflexivity|now left].
    - apply body_do_some in E. destruct E as (x & Nx & E). destruct (find _ _) as [e|]; injection E as -> ->; exact I.
    - injection E as <- <-. exact I.
  Qed.
  Lemma step_uncached w o w' out : (forall b, o <> WholeMesh b) -> uncached w -> perform w o = Some (w', out) -> uncached w'.
  Proof.
    intros Nw I E. destruct o as [c|m ld|m f|b f|b f|b|bs|b m|b ld|b|b g|k]; cbn [Model_Bodies.perform] in *; try (exfalso; now apply (Nw b)).
    - injection E as <- <-. apply (evolves_uncached w); [|exact I]. cbn. rewrite app_length. lia.
    - destruct (mesh_exists w m) eqn:Em; [|discriminate]. destruct (lid_exists w ld); [|discriminate]. injection E as <- <-.
      destruct (new_body_spec m ld w (exists_lt _ _ Em)) as (w2 & l & -> & B & _ & Ev & Bl & _).
      apply (add_inv (fun w x => valid_body w x /\ hb_cached x = None) w); [auto|apply evolves_uncached; [now destruct Ev|exact I]|exact B|].
      split; [split; [destruct Ev; apply exists_lt in Em; cbn; lia|split; [exact Bl|exact Logic.I]]|reflexivity].
    - destruct (mesh_exists w m) eqn:Em; [|discriminate]. injection E as <- <-. apply (evolves_uncached w); [now rewrite change_length|exact I].
    - apply body_do_some in E. destruct E as (x & Nx & E). injection E as -> ->. unfold uncached. rewrite change_lid_bodies. cbn [bodies change].
      apply (evolves_uncached w); [|exact I]. now rewrite change_lid_length, change_length.
    - apply body_do_some in E. destruct E as (x & Nx & E). injection E as -> ->.
      set (w1 := change_lid (hb_lid x) f (change (hb_mesh x) f w)).
      assert (I1 : uncached w1) by (unfold uncached, w1; rewrite change_lid_bodies; cbn [bodies change]; apply (evolves_uncached w); [now rewrite change_lid_length, change_length|exact I]).
      destruct (hb_lid x) as [l|] eqn:El; [|exact I1]. destruct (mesh_at w1 l) as [|y c] eqn:E0; [|exact I1].
      unfold uncached, set_body. cbn [bodies]. apply Forall_put; [|exact I1].
      assert (Gx : valid_body w1 x /\ hb_cached x = None).
      { apply (valid_at w1 b x (fun x => valid_body w1 x /\ hb_cached x = None)); [unfold w1; now rewrite change_lid_bodies|exact I1]. }
      destruct Gx as ((V1 & V2 & V3) & G). split; [split; [exact V1|split; [exact Logic.I|exact V3]]|exact G].
    - apply body_do_some in E. destruct E as (x & Nx & E). injection E as -> ->.
      destruct (valid_at w b x _ Nx I) as ((V1 & V2 & V3) & G). destruct (copy_body_spec _ _ w x V1 V2 V3) as (s & m & l & c & -> & Cp & Km & Kl & Kc).
      pose proof Cp as (X & B & _ & _). destruct (known_value _ _ w s _ _ Cp Km) as (Vm & _). rewrite G in Kc. destruct c; [contradiction|].
      apply (add_inv (fun w x => valid_body w x /\ hb_cached x = None) w); [auto|apply evolves_uncached; [now apply extends_length|exact I]|exact B|].
      split; [split; [cbn; lia|split; [|exact Logic.I]]|reflexivity]. cbn. destruct (hb_lid x), l; try contradiction; [|exact Logic.I]. exact (proj2 (proj1 (known_value _ _ w s _ _ Cp Kl))).
    - destruct bs as [|b0 bs]; [discriminate|]. destruct (all_some _) as [xs|]; [|discriminate]. injection E as <- <-.
      destruct (join_spec xs w) as (w1 & m & ld & w2 & l & -> & _ & _ & _ & _ & _ & B & _ & Ev & Lm & Bl & _).
      apply (add_inv (fun w x => valid_body w x /\ hb_cached x = None) w); [auto|apply evolves_uncached; [now destruct Ev|exact I]|exact B|].
      split; [split; [exact Lm|split; [exact Bl|exact Logic.I]]|reflexivity].
    - destruct (mesh_exists w m) eqn:Em; [|discriminate]. apply body_do_some in E. destruct E as (x & Nx & E). injection E as -> ->.
      unfold uncached, set_body. cbn [bodies]. apply Forall_put; [|exact I]. destruct (valid_at w b x _ Nx I) as ((V1 & V2 & V3) & G).
      split; [split; [now apply exists_lt|split; [exact V2|exact V3]]|exact G].
    - destruct (lid_exists w ld) eqn:Em; [|discriminate]. apply body_do_some in E. destruct E as (x & Nx & E). injection E as -> ->.
      unfold uncached, set_body. cbn [bodies]. apply Forall_put; [|exact I]. destruct (valid_at w b x _ Nx I) as ((V1 & V2 & V3) & G).
      split; [split; [exact V1|split; [now apply exists_below|exact V3]]|exact G].
    - apply body_do_some in E. destruct E as (x & Nx & E). destruct (find _ _) as [e|]; injection E as -> ->; exact I.
    - injection E as <- <-. exact I.
  Qed.
  Lemma uncached_cache w : uncached w -> cache_inv w.
  Proof. apply Forall_impl. intros x (A & B). split; [exact A|now left]. Qed.

  Lemma reaches_inv os w : reaches perform os w -> Forall neutral os -> assigned_first os ->
    cache_inv w /\ ((forall b, ~ In (WholeMesh b) os) -> uncached w).
  Proof.
    intros H. induction H as [|os w o w' out H IH E]; intros Fn Af.
    - split; [constructor|]. intros _. constructor.
    - apply Forall_app in Fn. destruct Fn as (Fn & Fo). inversion Fo as [|? ? No _]; subst.
      assert (Af' : assigned_first os).
      { intros p o' q -> As b. apply (Af p o' (q ++ [o])); [now rewrite <- app_assoc|exact As]. }
      destruct (IH Fn Af') as (I & U). split.
      + destruct o as [c|m ld|m f|b f|b f|b|bs|b m|b ld|b|b g|k]; try (apply (step_cache w _ w' out No); [intros X; exact X|exact I|exact E]).
        * apply uncached_cache. eapply step_uncached; [|apply U|exact E]; [discriminate|]. exact (Af os _ [] eq_refl Logic.I).
        * apply uncached_cache. eapply step_uncached; [|apply U|exact E]; [discriminate|]. exact (Af os _ [] eq_refl Logic.I).
      + intros Nw. eapply step_uncached; [|apply U|exact E].
        * intros b ->. apply (Nw b). apply in_app_iff. right. now left.
        * intros b Hb. apply (Nw b). apply in_app_iff. now left.
  Qed.
  Lemma whole_mesh_is_current os w b x : reaches perform os w -> Forall neutral os -> assigned_first os -> nth_error (bodies w) b = Some x ->
    exists w', perform w (WholeMesh b) = Some (w', Faces (hull w x ++ lid_faces w x)).
  Proof.
    intros H Fn Af Nx. destruct (reaches_inv os w H Fn Af) as (I & _). destruct (valid_at w b x _ Nx I) as (_ & G).
    cbn [Model_Bodies.perform]. unfold body_do. rewrite Nx. unfold hull, lid_faces, lid.
    destruct G as [G|(l & G & H1)]; rewrite G; eexists; f_equal; f_equal; f_equal.
    - unfold whole. cbn [fst snd]. unfold mesh_at. destruct (hb_lid x); reflexivity.
    - unfold whole. cbn [fst snd]. destruct H1 as [->|(H1 & l0 & -> & H2)]; [unfold mesh_at; destruct (hb_lid x); reflexivity|]. rewrite H1, H2. reflexivity.
  Qed.
End Bodies.
