(** Proofs about the orientation of the faces: the flooding of the mesh. *)
From Coq Require Import Reals List Bool Arith Permutation Lia.
From Verif Require Import Model_Base Model_Geometry Model_Mesh Spec_Mesh Proofs_Mesh Proofs_Mesh2 Model_Normals Spec_Normals Proofs_Normals.
Import ListNotations.
Open Scope nat_scope.

Definition flipif (b : bool) (f : face) : face := if b then flip_face f else f.
Lemma flipif_has b f v : has (flipif b f) v <-> has f v.
Proof. destruct b; [apply flip_has|reflexivity]. Qed.
Lemma flipif_well_formed b f : well_formed f -> well_formed (flipif b f).
Proof. destruct b; [apply flip_well_formed|trivial]. Qed.
Lemma flipif_is_side b f v w : is_side (flipif b f) v w <-> is_side f v w.
Proof. destruct b; [apply is_side_flip|reflexivity]. Qed.
Lemma flipif_flipif a b f : flipif a (flipif b f) = flipif (xorb a b) f.
Proof. destruct a, b; cbn; auto using flip_flip. Qed.

(** ** Directions *)

Definition dir (f : face) (a b : nat) : bool := existsb (fun e => Nat.eqb (fst e) a && Nat.eqb (snd e) b) (sides f).
Lemma dir_In f a b : dir f a b = true <-> In (a, b) (sides f).
Proof.
  unfold dir. rewrite existsb_exists. split.
  - intros ([x y] & H & E). cbn in E. apply andb_prop in E. destruct E as [E1 E2]. apply Nat.eqb_eq in E1. apply Nat.eqb_eq in E2. now subst.
  - intros H. exists (a, b). split; [exact H|]. cbn. now rewrite !Nat.eqb_refl.
Qed.
Lemma dir_back f a b : well_formed f -> is_side f a b -> dir f b a = negb (dir f a b).
Proof.
  intros W S. destruct (dir f a b) eqn:E.
  - apply dir_In in E. destruct (dir f b a) eqn:E'; [|reflexivity]. apply dir_In in E'. destruct (sides_one_way f a b W E E').
  - cbn. apply dir_In. destruct S as [S|S]; [|exact S]. apply dir_In in S. congruence.
Qed.
Lemma dir_flip b f v w : well_formed f -> is_side f v w -> dir (flipif b f) v w = xorb b (dir f v w).
Proof.
  intros W S. destruct b; cbn [flipif]; [|now destruct (dir f v w)]. change (xorb true (dir f v w)) with (negb (dir f v w)).
  rewrite <- (dir_back f v w W S). destruct (dir f w v) eqn:E.
  - apply dir_In, sides_flip, dir_In, E.
  - destruct (dir (flip_face f) v w) eqn:E'; [|reflexivity].
    apply (proj1 (dir_In _ _ _)), (proj1 (sides_flip _ _ _)), (proj2 (dir_In _ _ _)) in E'. congruence.
Qed.
Lemma sides_next f a b c : well_formed f -> In (a, b) (sides f) -> In (a, c) (sides f) -> b = c.
Proof.
  intros W. unfold sides. destruct (Nat.eqb_spec (fa f) (fd f)) as [E|E]; cbn; intros H H'; wf W;
    repeat destruct H as [H|H]; try contradiction; repeat destruct H' as [H'|H']; try contradiction;
    injection H as <- <-; intuition congruence.
Qed.
Lemma sides_prev f a b c : well_formed f -> In (b, a) (sides f) -> In (c, a) (sides f) -> b = c.
Proof.
  intros W H H'. apply (sides_next (flip_face f) a); [now apply flip_well_formed| |]; now apply sides_flip.
Qed.
Lemma references f v : well_formed f -> has f v -> exists k n p, where_first v (face_ids f) = Ok k
  /\ get (turned k (outline f)) 1 = Ok n /\ get (turned k (outline f)) (length (turned k (outline f)) - 1) = Ok p
  /\ In (v, n) (sides f) /\ In (p, v) (sides f).
Proof.
  intros W H. unfold has in H. unfold outline, is_tri, sides, face_ids, where_first.
  destruct (Nat.eqb_spec (fa f) (fd f)) as [E|E]; wf W; try contradiction; try (exfalso; intuition congruence);
    repeat destruct H as [H|H]; try contradiction; subst v; rewrite ?E;
    repeat match goal with |- context [Nat.eqb ?x ?y] => destruct (Nat.eqb_spec x y); [try (exfalso; intuition congruence)|try (exfalso; intuition congruence)] end;
    cbn [bind]; eexists _, _, _; (split; [reflexivity|]; split; [reflexivity|]; split; [reflexivity|]); cbn [turned skipn firstn app length Nat.sub]; cbn; rewrite ?E; tauto.
Qed.
Lemma same_side_ok f g v w : well_formed f -> well_formed g -> is_side f v w -> is_side g v w ->
  same_side f g v w = Ok (eqb (dir f v w) (dir g v w)).
Proof.
  intros Wf Wg Sf Sg. destruct (references f v Wf) as (k & n & p & E1 & E2 & E3 & N & P); [now apply is_side_has in Sf|].
  destruct (references g v Wg) as (k' & n' & p' & E1' & E2' & E3' & N' & P'); [now apply is_side_has in Sg|].
  unfold same_side. rewrite E1. cbn [bind]. rewrite E1'. cbn [bind]. rewrite E2. cbn [bind].
  assert (A : forall h x, well_formed h -> is_side h v w -> In (v, x) (sides h) -> Nat.eqb x w = dir h v w).
  { intros h x Wh Sh Hx. destruct (Nat.eqb_spec x w) as [->|D].
    - symmetry. now apply dir_In.
    - destruct (dir h v w) eqn:Ed; [|reflexivity]. apply dir_In in Ed. destruct (D (sides_next h v x w Wh Hx Ed)). }
  assert (B : forall h x, well_formed h -> is_side h v w -> In (x, v) (sides h) -> Nat.eqb x w = negb (dir h v w)).
  { intros h x Wh Sh Hx. rewrite <- dir_back by assumption. destruct (Nat.eqb_spec x w) as [->|D].
    - symmetry. now apply dir_In.
    - destruct (dir h w v) eqn:Ed; [|reflexivity]. apply dir_In in Ed. destruct (D (sides_prev h v x w Wh Hx Ed)). }
  rewrite (A f n Wf Sf N). destruct (dir f v w) eqn:Ed.
  - rewrite E2'. cbn [bind]. rewrite (A g n' Wg Sg N'). now destruct (dir g v w).
  - rewrite E3'. cbn [bind]. rewrite (B g p' Wg Sg P'). now destruct (dir g v w).
Qed.

(** ** Only the orientation changes, whatever the mesh *)

Lemma reversed_refl f : same_or_reversed f f.
Proof. now left. Qed.
Lemma reversed_flip f g : same_or_reversed f g -> same_or_reversed f (flip_face g).
Proof. intros [->| ->]; [now right|left; now destruct f]. Qed.
Lemma reversed_set fs0 fs j g : Forall2 same_or_reversed fs0 fs -> nth_error fs j = Some g ->
  Forall2 same_or_reversed fs0 (set_nth j (flip_face g) fs).
Proof.
  intros H. revert j. induction H as [|f h fs0 fs R H IH]; intros [|j] E; cbn in *; try discriminate.
  - injection E as ->. constructor; [now apply reversed_flip|exact H].
  - constructor; auto.
Qed.

Section Reversed.
  Variable set_order : list nat -> list nat.
  Variable fs0 : list face.
  Definition kept (s : flood) : Prop := Forall2 same_or_reversed fs0 (fl_faces s).

  Lemma visit_kept i j s s' : kept s -> visit set_order i j s = Ok s' -> kept s'.
  Proof.
    unfold visit, kept. intros K H. destruct (get (fl_ff s) j) as [fj|]; [|discriminate]. cbn [bind] in H.
    destruct (negb (memb i fj)); [discriminate|].
    destruct (get (fl_faces s) i) as [f|]; [|discriminate]. cbn [bind] in H.
    destruct (get (fl_faces s) j) as [g|] eqn:Eg; [|discriminate]. cbn [bind] in H. unfold get in Eg.
    destruct (nth_error (fl_faces s) j) as [g'|] eqn:Ng; [|discriminate]. injection Eg as ->.
    destruct (set_order _) as [|v1 [|v2 [|v3 l]]]; try (injection H as <-; exact K).
    destruct (same_side f g v1 v2) as [b|]; [|discriminate]. cbn [bind] in H. injection H as <-. cbn [fl_faces].
    destruct b; [now apply reversed_set|exact K].
  Qed.
  Lemma visit_all_kept i js : forall s s', kept s -> visit_all set_order i js s = Ok s' -> kept s'.
  Proof.
    induction js as [|j js IH]; intros s s' K H; cbn [visit_all] in H; [now injection H as <-|].
    destruct (get (fl_seen s) j) as [b|]; [|discriminate]. cbn [bind] in H. destruct b; [exact (IH _ _ K H)|].
    destruct (visit set_order i j s) as [s1|] eqn:E; [|discriminate]. cbn [bind] in H. exact (IH _ _ (visit_kept _ _ _ _ K E) H).
  Qed.
  Lemma process_kept i s s' : kept s -> process set_order i s = Ok s' -> kept s'.
  Proof. unfold process. intros K H. destruct (get (fl_ff s) i); [|discriminate]. cbn [bind] in H. exact (visit_all_kept _ _ _ _ K H). Qed.
  Lemma flooding_kept n : forall s s', kept s -> flooding set_order n s = Ok s' -> kept s'.
  Proof.
    induction n as [|n IH]; intros s s' K H; cbn [flooding] in H.
    - destruct (fl_stack s); [|discriminate]. destruct (positions negb (fl_seen s)); [now injection H as <-|discriminate].
    - destruct (fl_stack s) as [|i st]; [destruct (positions negb (fl_seen s)) as [|i r]; [now injection H as <-|]|];
        (match type of H with bind ?x _ = _ => destruct x as [s1|] eqn:E end; [|discriminate]); cbn [bind] in H;
        (apply process_kept in E; [exact (IH _ _ E H)|exact K]).
  Qed.
End Reversed.

Lemma heal_normals_kept set_order m m' : heal_normals set_order m = Ok m' ->
  m_vertices m' = m_vertices m /\ Forall2 same_or_reversed (m_faces m) (m_faces m').
Proof.
  unfold heal_normals. intros H. destruct (compute_connectivity set_order m) as [c|]; [|discriminate]. cbn [bind] in H.
  destruct (m_faces m) as [|f fs] eqn:Ef; [discriminate|].
  match type of H with bind ?x _ = _ => destruct x as [s|] eqn:E end; [|discriminate]. cbn [bind] in H.
  assert (K : Forall2 same_or_reversed (f :: fs) (fl_faces s)).
  { apply (flooding_kept set_order (f :: fs)) in E; [exact E|]. unfold kept. cbn [fl_faces]. clear.
    generalize (f :: fs). intros l. induction l; constructor; auto. now left. }
  destruct (snd c); [|injection H as <-; split; [reflexivity|exact K]].
  unfold outwards in H. destruct (highest _); [|discriminate]. cbn [bind] in H. destruct (faces_props _); [|discriminate].
  cbn [bind] in H. injection H as <-. destruct (Rltb _ 0); cbn [flip_normals m_vertices m_faces]; (split; [reflexivity|]); [|exact K].
  clear - K. induction K; cbn; constructor; auto. now apply reversed_flip.
Qed.
