(** The waterlines of a mesh that is not immersed. *)
From Coq Require Import Reals List Bool Arith ZArith Lia Lra.
From Verif Require Import Model_Base Model_Geometry Proofs_Geometry Model_Mesh Spec_Mesh Proofs_Mesh Proofs_Mesh2 Model_Quality Spec_Quality Model_Clip Spec_Clip
  Proofs_Clip5 Proofs_Components Model_Lid Spec_Lid Proofs_Lid2 Props_Clip.
Import ListNotations.
Open Scope R_scope.

Lemma crown_selects m : valid m -> exists W c, crown 0 m = Ok c /\ selects m W c /\ (forall i, In i W <-> wet m i).
Proof.
  intros Vm. unfold crown. set (fsv := positions _ (m_vertices m)). set (W := positions _ (m_faces m)).
  assert (HW : forall i, In i W <-> wet m i).
  { intros i. unfold W. rewrite positions_In. split.
    - intros (f & Hf & T). apply existsb_exists in T. destruct T as (x & Hx & Mx). apply memb_In in Mx. unfold fsv in Mx. apply positions_In in Mx.
      destruct Mx as (v & Hv & Cv). exists f, x, v. split; [exact Hf|]. split; [exact Hx|]. split; [exact Hv|]. unfold is_close in Cv. apply Rleb_true in Cv.
      rewrite Rabs_R0, Rminus_0_r in Cv. lra.
    - intros (f & x & v & Hf & Hx & Hv & Cv). exists f. split; [exact Hf|]. apply existsb_exists. exists x. split; [exact Hx|]. apply memb_In. unfold fsv. apply positions_In.
      exists v. split; [exact Hv|]. unfold is_close. apply Rleb_true. rewrite Rabs_R0, Rminus_0_r. lra. }
  destruct (extract_selects m W Vm) as (c & E & Sc); [intros i Hi; now apply positions_lt in Hi|]. exists W, c. split; [exact E|]. split; [exact Sc|exact HW].
Qed.
Lemma waterline_clipped argsort m : sorts argsort -> clippable (level_plane 0) vicinity m -> (exists v, In v (m_vertices m) /\ / 100000000 < vz v) ->
  exists m' ids faces c parts, clip argsort (level_plane 0) vicinity m = Ok (m', ids) /\ clipped (level_plane 0) m m' ids
    /\ (forall i, In i faces <-> wet m' i) /\ selects m' faces c /\ connected_components c = Some (Ok parts)
    /\ components_of_waterline argsort 0 m = Ok parts.
Proof.
  intros Hs Hc (v & Hv & Lv). destruct (clip_keeps_part_below_partial argsort Hs (level_plane 0) vicinity m) as (m' & ids & E & C); [unfold vicinity; lra|exact Hc|].
  assert (Vm' : valid m') by (destruct C as (? & ? & ? & ? & ? & ? & _ & _ & _ & _ & _ & _ & _ & _ & _ & X & _); exact X).
  destruct (crown_selects m' Vm') as (W & c & Ec & Sc & HW). destruct (components_ok c) as (parts & pids & Ep & _); [apply Sc|].
  exists m', ids, W, c, parts. split; [exact E|]. split; [exact C|]. split; [exact HW|]. split; [exact Sc|]. split; [exact Ep|].
  unfold components_of_waterline. assert (existsb (fun v => Rltb (0 + / 100000000) (vz v)) (m_vertices m) = true) as ->.
  { apply existsb_exists. exists v. split; [exact Hv|]. apply Rltb_true. lra. }
  rewrite E. cbn [bind fst]. rewrite Ec. cbn [bind]. rewrite Ep. reflexivity.
Qed.
