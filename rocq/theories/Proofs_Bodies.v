(** Lemmas about bodies that refer to mesh objects. *)
From Coq Require Import Reals.
From Coq Require Import List Bool Arith Lia.
From Verif Require Import Model_Base Model_Bodies Spec_Bodies Proofs_Problem.
Import ListNotations.
Open Scope nat_scope.

Lemma put_length {X} k (x : X) l : length (put k x l) = length l.
Proof.
  unfold put. rewrite app_length, firstn_length. destruct (skipn k l) as [|y r] eqn:E.
  - assert (H := skipn_length k l). rewrite E in H. cbn in *. lia.
  - assert (H := skipn_length k l). rewrite E in H. cbn in *. lia.
Qed.
Lemma put_cons {X} k (x y : X) l : put (S k) x (y :: l) = y :: put k x l.
Proof. reflexivity. Qed.
Lemma put_same {X} k (x : X) l : k < length l -> nth_error (put k x l) k = Some x.
Proof. revert k. induction l as [|y l IH]; intros [|k] H; cbn in H; try lia; [reflexivity|]. rewrite put_cons. cbn. apply IH. lia. Qed.
Lemma put_other {X} k k' (x : X) l : k' <> k -> nth_error (put k x l) k' = nth_error l k'.
Proof.
  revert k k'. induction l as [|y l IH]; intros [|k] [|k'] H; try reflexivity; try lia.
  rewrite put_cons. cbn. apply IH. lia.
Qed.
Lemma nth_put_same {X} k (x d : X) l : k < length l -> nth k (put k x l) d = x.
Proof. intros H. apply nth_error_nth. now apply put_same. Qed.
Lemma nth_put_other {X} k k' (x d : X) l : k' <> k -> nth k' (put k x l) d = nth k' l d.
Proof. intros H. rewrite <- !nth_default_eq. unfold nth_default. now rewrite put_other. Qed.

Section Bodies.
  Variable face_type estimate_type : Type.
  Notation content := (content face_type).
  Variable heal downwards : content -> content.
  Variable estimate : R -> content -> option content -> estimate_type.
  Notation world := (world face_type estimate_type).
  Notation op := (op face_type).
  Notation perform := (perform heal downwards estimate).
  Notation new_body := (new_body heal downwards).
  Notation join := (join heal downwards).
  Implicit Types w : world.

  (** ** What the operations do to the objects that they do not modify *)
  Lemma mesh_change m f w k : m < length (heap w) -> mesh_at (change m f w) k = if Nat.eqb k m then f (mesh_at w m) else mesh_at w k.
  Proof.
    intros H. unfold mesh_at, change. cbn. destruct (Nat.eqb_spec k m) as [->|N]; [now apply nth_put_same|now apply nth_put_other].
  Qed.
  Lemma mesh_change_other m f w k : k <> m -> mesh_at (change m f w) k = mesh_at w k.
  Proof. intros H. unfold mesh_at, change. cbn. now apply nth_put_other. Qed.
  Lemma change_length m f w : length (heap (change m f w)) = length (heap w).
  Proof. apply put_length. Qed.
  Lemma change_lid_length l f w : length (heap (change_lid l f w)) = length (heap w).
  Proof. destruct l; [apply put_length|reflexivity]. Qed.
  Lemma change_lid_bodies l f w : bodies (change_lid l f w) = bodies w.
  Proof. destruct l; reflexivity. Qed.
  Lemma change_lid_memo l f w : memo (change_lid l f w) = memo w.
  Proof. destruct l; reflexivity. Qed.
  Lemma mesh_change_lid_other l f w k : l <> Some k -> mesh_at (change_lid l f w) k = mesh_at w k.
  Proof. intros H. destruct l as [l|]; [|reflexivity]. apply mesh_change_other. congruence. Qed.
  Lemma change_empty m f w k : f [] = [] -> mesh_at w k = [] -> mesh_at (change m f w) k = [].
  Proof.
    intros F E. destruct (Nat.eq_dec k m) as [->|N]; [|now rewrite mesh_change_other].
    destruct (Nat.lt_ge_cases m (length (heap w))) as [L|L]; [rewrite mesh_change by exact L; now rewrite Nat.eqb_refl, E|].
    unfold mesh_at. apply nth_overflow. now rewrite change_length.
  Qed.
  Lemma change_lid_empty l f w k : f [] = [] -> mesh_at w k = [] -> mesh_at (change_lid l f w) k = [].
  Proof. destruct l; [apply change_empty|auto]. Qed.

  (** [w'] has the same meshes as [w], and maybe others. *)
  Definition extends (w w' : world) : Prop := exists more, heap w' = heap w ++ more.
  Lemma extends_refl w : extends w w.
  Proof. exists []. now rewrite app_nil_r. Qed.
  Lemma extends_trans a b c : extends a b -> extends b c -> extends a c.
  Proof. intros (x & E) (y & F). exists (x ++ y). now rewrite F, E, app_assoc. Qed.
  Lemma extends_mesh a b m : extends a b -> m < length (heap a) -> mesh_at b m = mesh_at a m.
  Proof. intros (x & E) H. unfold mesh_at. rewrite E. now apply app_nth1. Qed.
  Lemma extends_length a b : extends a b -> length (heap a) <= length (heap b).
  Proof. intros (x & E). rewrite E, app_length. lia. Qed.

  (** ** Deep copies *)
  Section Copy.
    Variable w0 : world.
    Definition copying (s : world * list (nat * nat)) : Prop :=
      extends w0 (fst s) /\ bodies (fst s) = bodies w0 /\ memo (fst s) = memo w0
      /\ Forall (fun p => length (heap w0) <= snd p < length (heap (fst s)) /\ mesh_at (fst s) (snd p) = mesh_at w0 (fst p)) (snd s).
    Definition known (s : world * list (nat * nat)) (m n : nat) : Prop := find (fun p => Nat.eqb (fst p) m) (snd s) = Some (m, n).
    Definition later (s s' : world * list (nat * nat)) : Prop := forall m n, known s m n -> known s' m n.
    Lemma copy_mesh_spec m s s' n : copying s -> m < length (heap w0) -> copy_mesh m s = (s', n) -> copying s' /\ known s' m n /\ later s s'.
    Proof.
      intros (X & B & Me & Fo) Lm E. unfold copy_mesh in E. destruct (find _ (snd s)) as [p|] eqn:Fd.
      - injection E as <- <-. split; [repeat split; assumption|]. split; [|intros ? ? K; exact K]. unfold known. rewrite Fd. apply find_some in Fd. destruct Fd as (_ & Q). apply Nat.eqb_eq in Q. destruct p; cbn in *; now subst.
      - cbn in E. injection E as <- <-. assert (X' : extends (fst s) (World (heap (fst s) ++ [mesh_at (fst s) m]) (bodies (fst s)) (memo (fst s)))) by (eexists; reflexivity).
        pose proof (extends_length _ _ X) as L1. split; [|split].
        + split; [|split; [|split]]; cbn [fst snd].
          * exact (extends_trans _ _ _ X X').
          * exact B.
          * exact Me.
          * constructor; cbn [fst snd heap].
            -- rewrite app_length. cbn. split; [lia|]. unfold mesh_at at 1. cbn [heap]. rewrite app_nth2, Nat.sub_diag by lia. cbn. now apply extends_mesh.
            -- eapply Forall_impl; [|exact Fo]. intros p ((H1 & H2) & H3). split; [rewrite app_length; lia|]. rewrite (extends_mesh _ _ _ X'); [exact H3|exact H2].
        + unfold known. cbn. now rewrite Nat.eqb_refl.
        + intros k v K. unfold known in *. cbn. destruct (Nat.eqb_spec m k) as [->|N]; [congruence|exact K].
    Qed.
    Lemma known_value s m n : copying s -> known s m n -> length (heap w0) <= n < length (heap (fst s)) /\ mesh_at (fst s) n = mesh_at w0 m.
    Proof. intros (_ & _ & _ & Fo) K. apply find_some in K. destruct K as (K & _). rewrite Forall_forall in Fo. exact (Fo _ K). Qed.
    Lemma copy_again m s n : known s m n -> copy_mesh m s = (s, n).
    Proof. intros K. unfold copy_mesh. unfold known in K. now rewrite K. Qed.

    Definition below (l : option nat) : Prop := match l with None => True | Some k => k < length (heap w0) end.
    Definition known_lid (s : world * list (nat * nat)) (l l' : option nat) : Prop :=
      match l, l' with None, None => True | Some m, Some n => known s m n | _, _ => False end.
    Lemma copy_lid_spec l s s' n : copying s -> below l -> copy_lid l s = (s', n) -> copying s' /\ known_lid s' l n /\ later s s'.
    Proof.
      intros Cp Bl E. destruct l as [l|]; cbn in E.
      - destruct (copy_mesh l s) as [s1 k] eqn:Em. injection E as <- <-. exact (copy_mesh_spec l s s1 k Cp Bl Em).
      - injection E as <- <-. split; [exact Cp|]. split; [exact I|]. intros ? ? K; exact K.
    Qed.
    Lemma later_lid s s' l n : later s s' -> known_lid s l n -> known_lid s' l n.
    Proof. intros L. destruct l, n; cbn; auto. Qed.
    Lemma known_lid_fun s l n n' : known_lid s l n -> known_lid s l n' -> n = n'.
    Proof. destruct l, n, n'; cbn; unfold known; try contradiction; try congruence; auto. Qed.
    Lemma known_fun s l n n' : known s l n -> known s l n' -> n = n'.
    Proof. unfold known. congruence. Qed.
    Definition below_cached (c : option (nat * option nat)) : Prop := match c with None => True | Some (m, l) => m < length (heap w0) /\ below l end.
    Lemma copy_body_spec x : hb_mesh x < length (heap w0) -> below (hb_lid x) -> below_cached (hb_cached x) ->
      exists s m l c, copy_body x w0 = add_body (HBody m l c) (fst s) /\ copying s /\ known s (hb_mesh x) m /\ known_lid s (hb_lid x) l
      /\ match hb_cached x, c with None, None => True | Some (a, b), Some (a', b') => known s a a' /\ known_lid s b b' | _, _ => False end.
    Proof.
      intros Bm Bl Bc. unfold copy_body.
      assert (C0 : copying (w0, [])) by (split; [apply extends_refl|split; [reflexivity|split; [reflexivity|constructor]]]).
      destruct (copy_mesh (hb_mesh x) (w0, [])) as [s1 m] eqn:E1. destruct (copy_mesh_spec _ _ _ _ C0 Bm E1) as (C1 & K1 & _).
      destruct (copy_lid (hb_lid x) s1) as [s2 l] eqn:E2. destruct (copy_lid_spec _ _ _ _ C1 Bl E2) as (C2 & K2 & L2).
      destruct (hb_cached x) as [[a b]|]; cbn.
      - destruct Bc as (Ba & Bb). destruct (copy_mesh a s2) as [s3 a'] eqn:E3. destruct (copy_mesh_spec _ _ _ _ C2 Ba E3) as (C3 & K3 & L3).
        destruct (copy_lid b s3) as [s4 b'] eqn:E4. destruct (copy_lid_spec _ _ _ _ C3 Bb E4) as (C4 & K4 & L4).
        exists s4, m, l, (Some (a', b')). split; [reflexivity|]. split; [exact C4|]. split; [apply L4, L3, L2, K1|]. split; [apply (later_lid s3), (later_lid s2); auto|]. split; [apply L4, K3|exact K4].
      - exists s2, m, l, None. split; [reflexivity|]. split; [exact C2|]. split; [apply L2, K1|]. split; [exact K2|exact I].
    Qed.
  End Copy.
End Bodies.
