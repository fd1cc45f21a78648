(** Properties C43 and C59: what a body remembers, and what bodies share. *)
From Coq Require Import Reals.
From Coq Require Import List Bool Arith Lia.
From Verif Require Import Model_Base Model_Bodies Spec_Bodies Proofs_Problem Proofs_Bodies Proofs_Bodies2 Proofs_Bodies3.
Import ListNotations.
Open Scope nat_scope.

Section Bodies.
  Variable face_type estimate_type : Type.
  Variable heal downwards : content face_type -> content face_type.
  Variable estimate : R -> content face_type -> option (content face_type) -> estimate_type.
  Notation perform := (perform heal downwards estimate).

  (** C43: after any sequence of constructions, transformations, clips, copies and joins, [mesh_including_lid] has the faces of the
      current mesh followed by those of the current lid. Missing: histories where the mesh or the lid is assigned after a reading. *)
  Theorem whole_mesh_current_partial os w b x : reaches perform os w -> Forall neutral os -> assigned_first os -> nth_error (bodies w) b = Some x ->
    exists w', perform w (WholeMesh b) = Some (w', Faces (hull w x ++ lid_faces w x)).
  Proof. exact (whole_mesh_is_current _ _ heal downwards estimate os w b x). Qed.

  (** C43: the estimate is that of the current mesh and lid if the body is not modified in place after a first estimate (it can be copied,
      and the copies can be modified). *)
  Theorem estimate_current_partial os w b g x : reaches perform os w -> undisturbed perform os -> nth_error (bodies w) b = Some x ->
    exists w', perform w (Estimate b g) = Some (w', Estimated (estimate g (hull w x) (lid w x))).
  Proof. exact (estimate_is_current _ _ heal downwards estimate os w b g x). Qed.

  (** C59: if no mesh object is given to two bodies, an operation leaves all the other bodies as they are. *)
  Theorem other_bodies_unchanged_partial os w o w' out b x : reaches perform os w -> not_shared perform (os ++ [o]) -> perform w o = Some (w', out) ->
    nth_error (bodies w) b = Some x -> (forall f, o <> MoveBody b f) -> (forall f, o <> ClipBody b f) -> (forall m f, o = TransformMesh m f -> ~ uses x m) ->
    unchanged_body w w' b x.
  Proof. exact (others_unchanged _ _ heal downwards estimate os w o w' out b x). Qed.
  (** C59: and in any case, an operation leaves as they are the bodies that it does not disturb. *)
  Theorem undisturbed_bodies_unchanged os w o w' out b x : reaches perform os w -> perform w o = Some (w', out) -> nth_error (bodies w) b = Some x ->
    ~ disturbs w o b x -> unchanged_body w w' b x.
  Proof. intros H. exact (not_disturbed _ _ heal downwards estimate w o w' out b x (reaches_valid _ _ heal downwards estimate os w H)). Qed.
End Bodies.

(** Meshes whose faces are numbers: moved by addition. *)
Notation ex_perform := (@perform nat nat (fun c => c) (fun c => c) (fun _ c l => length c + match l with None => 0 | Some d => 100 * length d end)).
Notation ex_history := (@history nat nat (fun c => c) (fun c => c) (fun _ c l => length c + match l with None => 0 | Some d => 100 * length d end)).
Lemma ex_reaches os w outs : ex_history empty_world os = Some (w, outs) -> reaches ex_perform os w.
Proof.
  assert (G : forall os p v w outs, reaches ex_perform p v -> ex_history v os = Some (w, outs) -> reaches ex_perform (p ++ os) w).
  { clear. induction os as [|o os IH]; intros p v w outs H E.
    - cbn in E. injection E as <- <-. now rewrite app_nil_r.
    - cbn [history] in E. destruct (ex_perform v o) as [[v' out]|] eqn:Ep; [|discriminate]. destruct (ex_history v' os) as [[w1 o1]|] eqn:Eh; [|discriminate]. injection E as <- <-.
      replace (p ++ o :: os) with ((p ++ [o]) ++ os) by (now rewrite <- app_assoc). apply (IH _ v' w1 o1); [|exact Eh]. exact (reach_step _ _ _ p v o v' out H Ep). }
  intros E. exact (G os [] empty_world w outs (reach_nil _ _ _) E).
Qed.
Lemma ex_reached os w : reaches ex_perform os w -> exists outs, ex_history empty_world os = Some (w, outs).
Proof.
  assert (G : forall os o v w outs w' out, ex_history v os = Some (w, outs) -> ex_perform w o = Some (w', out) -> exists outs', ex_history v (os ++ [o]) = Some (w', outs')).
  { clear. induction os as [|o1 os IH]; intros o v w outs w' out E P; cbn [history app] in *.
    - injection E as -> <-. rewrite P. eauto.
    - destruct (ex_perform v o1) as [[v' out1]|]; [|discriminate]. destruct (ex_history v' os) as [[w1 os1]|] eqn:Eh; [|discriminate]. injection E as -> <-.
      destruct (IH o v' w os1 w' out Eh P) as (outs' & ->). eauto. }
  intros H. induction H as [|os w o w' out H (outs & IH) E]; [now exists []|]. exact (G os o empty_world w outs w' out IH E).
Qed.
Definition shift (n : nat) (c : list nat) := map (Nat.add n) c.
Definition keep_small (c : list nat) := filter (fun x => Nat.ltb x 10) c.

(** A body with a lid is built, read, moved, copied and clipped until the lid disappears. *)
Definition ex_os := [NewMesh [1; 2]; NewMesh [8]; NewBody 0 (Some 1); WholeMesh 0; MoveBody 0 (shift 3); CopyBody 0; ClipBody 1 keep_small; MoveBody 1 (shift 100)].
Example whole_mesh_example : exists w outs x, ex_history empty_world ex_os = Some (w, outs) /\ reaches ex_perform ex_os w /\ Forall neutral ex_os /\ assigned_first ex_os
  /\ nth_error (bodies w) 1 = Some x /\ hull w x = [104; 105] /\ lid w x = None /\ hb_cached x <> None
  /\ exists w', ex_perform w (WholeMesh 1) = Some (w', Faces [104; 105]).
Proof.
  destruct (ex_history empty_world ex_os) as [[w outs]|] eqn:E; [|discriminate]. pose proof (ex_reaches _ _ _ E) as Rw. cbn in E. injection E as <- <-.
  eexists _, _, _. split; [reflexivity|]. split; [exact Rw|]. split; [repeat (apply Forall_cons || apply Forall_nil); cbn; auto|]. split.
  - intros p o q Eq As b. assert (Hin : In o ex_os) by (rewrite Eq; apply in_app_iff; right; now left). cbn in Hin. repeat destruct Hin as [<-|Hin]; try contradiction.
  - cbn. split; [reflexivity|]. split; [reflexivity|]. split; [reflexivity|]. split; [discriminate|]. eexists. reflexivity.
Qed.
(** C43 is false when the lid is assigned after [mesh_including_lid] was read (for instance by the construction of a problem). *)
Theorem whole_mesh_current_refuted : exists os w x w', reaches ex_perform os w /\ Forall neutral os /\ nth_error (bodies w) 0 = Some x
  /\ hull w x ++ lid_faces w x = [1; 2; 8] /\ ex_perform w (WholeMesh 0) = Some (w', Faces [1; 2]).
Proof.
  set (os := [NewMesh [1; 2]; NewMesh [8]; NewBody 0 None; WholeMesh 0; SetLid 0 (Some 1)]).
  destruct (ex_history empty_world os) as [[w outs]|] eqn:E; [|discriminate]. exists os, w. pose proof (ex_reaches _ _ _ E) as Rw. cbn in E. injection E as <- <-.
  eexists _, _. split; [exact Rw|]. split; [repeat (apply Forall_cons || apply Forall_nil); cbn; auto|]. split; [reflexivity|]. split; [reflexivity|]. reflexivity.
Qed.
(** Estimates: the original is asked first, the copy is modified. *)
Definition ex_os2 : list (op nat) := [NewMesh [1; 2]; NewBody 0 None; Estimate 0 1%R; CopyBody 0; ClipBody 1 (fun c => firstn 1 c)].
Example estimate_example : exists w outs x, ex_history empty_world ex_os2 = Some (w, outs) /\ reaches ex_perform ex_os2 w /\ undisturbed ex_perform ex_os2
  /\ nth_error (bodies w) 1 = Some x /\ exists w', ex_perform w (Estimate 1 1%R) = Some (w', Estimated 1).
Proof.
  destruct (ex_history empty_world ex_os2) as [[w outs]|] eqn:E; [|discriminate]. pose proof (ex_reaches _ _ _ E) as Rw. cbn in E. injection E as <- <-.
  eexists _, _, _. split; [reflexivity|]. split; [exact Rw|].
  assert (U : undisturbed ex_perform ex_os2).
  { intros p o q v b g x Eq Rp Hin N D. unfold ex_os2 in Eq.
    destruct p as [|o1 [|o2 [|o3 [|o4 [|o5 p]]]]]; cbn in Eq; injection Eq; intros; subst; try (destruct p; discriminate); cbn in Hin; repeat (destruct Hin as [Hin|Hin]; try discriminate); try contradiction; cbn [disturbs] in D; try contradiction.
    injection Hin as <- <-. apply ex_reached in Rp. destruct Rp as (outs & Ep). cbn in Ep. injection Ep as <- <-. cbn in N. injection N as <-.
    destruct D as (y & m & Ny & Uy & Ux). cbn in Ny. injection Ny as <-. destruct Uy as [Uy|Uy], Ux as [Ux|Ux]; cbn in *; congruence. }
  split; [exact U|]. cbn. split; [reflexivity|]. destruct (estimate_current_partial _ _ _ _ _ _ _ 1 1%R (HBody 1 None None) Rw U eq_refl) as (w' & E). exists w'. exact E.
Qed.
(** C43 is false for the estimate of a body that was moved or clipped in place, or given another lid, after a first estimate. *)
Theorem estimate_current_refuted : exists os w x w', reaches ex_perform os w /\ Forall neutral os /\ nth_error (bodies w) 0 = Some x
  /\ length (hull w x) = 1 /\ lid w x = None /\ ex_perform w (Estimate 0 1%R) = Some (w', Estimated 2).
Proof.
  set (os := [NewMesh [1; 12]; NewBody 0 None; Estimate 0 1%R; ClipBody 0 keep_small] : list (op nat)).
  destruct (ex_history empty_world os) as [[w outs]|] eqn:E; [|discriminate]. exists os, w. pose proof (ex_reaches _ _ _ E) as Rw. cbn in E. injection E as <- <-.
  eexists _, _. split; [exact Rw|]. split; [repeat (apply Forall_cons || apply Forall_nil); cbn; auto|]. split; [reflexivity|]. split; [reflexivity|]. split; [reflexivity|].
  match goal with |- ?l = _ => let l' := eval cbv -[Reqb IZR] in l in change l with l' end. rewrite Reqb_refl. reflexivity.
Qed.

(** C59: two bodies, the second one a copy of the first one. *)
Definition ex_os3 : list (op nat) := [NewMesh [1; 2]; NewBody 0 None; CopyBody 0].
Example other_bodies_example : exists w x, reaches ex_perform ex_os3 w /\ not_shared ex_perform (ex_os3 ++ [MoveBody 0 (shift 3)])
  /\ nth_error (bodies w) 1 = Some x /\ hull w x = [1; 2]
  /\ exists w' y, ex_perform w (MoveBody 0 (shift 3)) = Some (w', Done) /\ nth_error (bodies w') 0 = Some y /\ hull w' y = [4; 5] /\ unchanged_body w w' 1 x.
Proof.
  destruct (ex_history empty_world ex_os3) as [[w outs]|] eqn:E; [|discriminate]. exists w. pose proof (ex_reaches _ _ _ E) as Rw. cbn in E. injection E as <- <-.
  assert (U : not_shared ex_perform (ex_os3 ++ [MoveBody 0 (shift 3)])).
  { intros p o q v Eq Rp. unfold ex_os3 in Eq. cbn in Eq.
    destruct p as [|o1 [|o2 [|o3 [|o4 p]]]]; cbn in Eq; injection Eq; intros; subst; try (destruct p; discriminate); (split; [intros X; exact X|]); intros m l b x Eo N; try discriminate.
    apply ex_reached in Rp. destruct Rp as (outs & Ep). cbn in Ep. injection Ep as <- <-. cbn in N. destruct b; discriminate. }
  eexists. split; [exact Rw|]. split; [exact U|]. split; [reflexivity|]. split; [reflexivity|]. eexists _, _. split; [reflexivity|]. split; [reflexivity|]. split; [reflexivity|].
  apply (other_bodies_unchanged_partial _ _ _ _ _ ex_os3 _ (MoveBody 0 (shift 3)) _ Done 1 _ Rw U eq_refl eq_refl); discriminate.
Qed.
(** C59 is false when two bodies are built from the same mesh: moving one moves the mesh of the other. *)
Theorem other_bodies_unchanged_refuted : exists os w x w' x', reaches ex_perform os w /\ ex_perform w (MoveBody 0 (shift 3)) = Some (w', Done)
  /\ nth_error (bodies w) 1 = Some x /\ nth_error (bodies w') 1 = Some x' /\ hull w x = [1; 2] /\ hull w' x' = [4; 5].
Proof.
  set (os := [NewMesh [1; 2]; NewBody 0 None; NewBody 0 None]).
  destruct (ex_history empty_world os) as [[w outs]|] eqn:E; [|discriminate]. exists os, w. pose proof (ex_reaches _ _ _ E) as Rw. cbn in E. injection E as <- <-.
  eexists _, _, _. split; [exact Rw|]. repeat (split; [reflexivity|]). reflexivity.
Qed.

Print Assumptions whole_mesh_current_partial.
Print Assumptions whole_mesh_current_refuted.
Print Assumptions estimate_current_partial.
Print Assumptions estimate_current_refuted.
Print Assumptions other_bodies_unchanged_partial.
Print Assumptions undisturbed_bodies_unchanged.
Print Assumptions other_bodies_unchanged_refuted.
