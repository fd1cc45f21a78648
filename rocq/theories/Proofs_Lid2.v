From Coq Require Import Reals List Bool Arith ZArith Lia Lra Permutation Relation_Operators Operators_Properties.
From Verif Require Import Model_Base Model_Geometry Model_Mesh Spec_Mesh Spec_Clip Proofs_Geometry Proofs_Mesh Proofs_Mesh2 Model_Quality Spec_Quality Proofs_Quality Proofs_Components
  Model_Lid Spec_Lid Proofs_Lid.
Import ListNotations.
Open Scope nat_scope.

(** ** The connected components of a mesh *)
Lemma components_sub m : valid m -> exists parts ids, connected_components m = Some (Ok parts)
  /\ Forall2 (fun l p => l <> [] /\ sub m l p) ids parts
  /\ (forall l i, In l ids -> In i l -> i < nb_faces m)
  /\ (forall i, i < nb_faces m -> exists l, In l ids /\ In i l)
  /\ (forall l i j, In l ids -> In i l -> (In j l <-> connected (m_faces m) i j)).
Proof.
  intros Vm. destruct (components_extract m Vm) as (parts & ids & E & L & H & P & C). exists parts, ids. split; [exact E|].
  assert (B : forall l i, In l ids -> In i l -> i < nb_faces m).
  { intros l i Hl Hi. assert (X : In i (concat ids)) by (apply in_concat; exists l; now split). apply (Permutation_in _ P), in_seq in X. lia. }
  assert (Sh : forall i j, i < nb_faces m -> connected (m_faces m) i j -> j < nb_faces m).
  { intros i j Hi X. apply clos_rt_rtn1 in X. destruct X as [|y z (f & g & v & _ & Hg & _) _]; [exact Hi|].
    unfold nb_faces. apply nth_error_Some. congruence. }
  split; [|split; [exact B|split]].
  - assert (G : forall k l, nth_error ids k = Some l -> exists p, nth_error parts k = Some p /\ l <> [] /\ sub m l p).
    { intros k l Hk. destruct (H k l Hk) as (Nl & p & Hp & Ep). exists p. split; [exact Hp|]. split; [exact Nl|].
      destruct (extract_sub m l Vm) as (p' & E' & Sp); [intros i Hi; apply (B l); [now apply nth_error_In in Hk|exact Hi]|]. rewrite Ep in E'. apply Ok_inj' in E'. now subst. }
    clear - G L. revert parts L G. induction ids as [|l ids IH]; intros parts L G; destruct parts as [|p parts]; try discriminate; constructor.
    + destruct (G 0 l eq_refl) as (p' & Hp & X). cbn in Hp. injection Hp as <-. exact X.
    + apply IH; [now injection L|]. intros k l' Hk. exact (G (S k) l' Hk).
  - intros i Hi. assert (X : In i (concat ids)) by (apply (Permutation_in _ (Permutation_sym P)), in_seq; lia). apply in_concat in X. destruct X as (l & Hl & Hil). eauto.
  - intros l i j Hl Hi. assert (Li := B l i Hl Hi). split.
    + intros Hj. apply C; [exact Li|now apply (B l)|]. eauto.
    + intros X. pose proof (Sh i j Li X) as Lj. apply (C i j Li Lj) in X. destruct X as (l' & Hl' & Hi' & Hj).
      enough (l' = l) by now subst. assert (Nd : NoDup (concat ids)) by (apply (Permutation_NoDup (Permutation_sym P)), seq_NoDup).
      clear - Nd Hl Hl' Hi Hi'. induction ids as [|a ids IH]; [destruct Hl|]. cbn in Nd.
      assert (D : forall x b, In x a -> In b ids -> In x b -> False).
      { intros x b Hx Hb Hxb. assert (Y : In x (concat ids)) by (apply in_concat; eauto). clear - Nd Hx Y.
        induction a as [|y a IHa]; [destruct Hx|]. cbn in Nd. inversion Nd as [|? ? N1 N2]; subst. destruct Hx as [->|Hx]; [apply N1, in_or_app; now right|now apply IHa]. }
      assert (Nd' : NoDup (concat ids)) by (clear - Nd; induction a as [|y a IHa]; [exact Nd|]; cbn in Nd; inversion Nd; auto).
      destruct Hl as [<-|Hl], Hl' as [<-|Hl']; [reflexivity|exfalso; eauto|exfalso; eauto|now apply IH].
Qed.

(** ** The faces at the free surface *)
Lemma crown_sub m : valid m -> exists W c, crown 0 m = Ok c /\ sub m W c /\ (forall i, In i W <-> wet m i).
Proof.
  intros Vm. unfold crown. set (fsv := positions _ (m_vertices m)). set (W := positions _ (m_faces m)).
  assert (HW : forall i, In i W <-> wet m i).
  { intros i. unfold W. rewrite positions_In. split.
    - intros (f & Hf & T). apply existsb_exists in T. destruct T as (x & Hx & Mx). apply memb_In in Mx. unfold fsv in Mx. apply positions_In in Mx.
      destruct Mx as (v & Hv & Cv). exists f, x, v. split; [exact Hf|]. split; [exact Hx|]. split; [exact Hv|]. unfold is_close in Cv. apply Rleb_true in Cv.
      rewrite Rabs_R0, Rminus_0_r in Cv. lra.
    - intros (f & x & v & Hf & Hx & Hv & Cv). exists f. split; [exact Hf|]. apply existsb_exists. exists x. split; [exact Hx|]. apply memb_In. unfold fsv. apply positions_In.
      exists v. split; [exact Hv|]. unfold is_close. apply Rleb_true. rewrite Rabs_R0, Rminus_0_r. lra. }
  destruct (extract_sub m W Vm) as (c & E & Sc); [intros i Hi; now apply positions_lt in Hi|]. exists W, c. split; [exact E|]. split; [exact Sc|exact HW].
Qed.

(** ** The waterlines *)
Lemma waterline_step argsort m L p : valid m -> immersed m -> sub m L p -> (forall i j, In i L -> (In j L <-> connected (m_faces m) i j)) ->
  exists comps ids, components_of_waterline argsort 0 p = Ok comps /\ Forall2 (sub m) ids comps /\ Forall (is_waterline m) ids
    /\ (forall i, In i L -> wet m i -> exists l, In l ids /\ In i l).
Proof.
  intros Vm Im Sp HL. assert (Vp : valid p) by apply Sp. unfold components_of_waterline.
  assert (Ne : existsb (fun v => Rltb (0 + / 100000000) (vz v)) (m_vertices p) = false).
  { destruct (existsb _ _) eqn:E; [|reflexivity]. exfalso. apply existsb_exists in E. destruct E as (v & Hv & Lv). apply Rltb_true in Lv.
    apply (sub_all_corners m L p v Sp) in Hv. destruct Hv as (i & f & x & _ & _ & _ & Hv). apply nth_error_In, Im in Hv. lra. }
  rewrite Ne. cbn [bind]. destruct (crown_sub p Vp) as (W & c & -> & Sc & HW). cbn [bind].
  destruct (picks_exists L W) as (K & PK).
  { intros k Hk. rewrite (sub_len m L p Sp). apply HW in Hk. destruct Hk as (f & x & v & Hf & _). unfold nb_faces. apply nth_error_Some. congruence. }
  assert (SK := sub_trans m L p W K c Sp Sc PK). assert (Vc : valid c) by apply Sc.
  assert (Kw : forall i, In i K -> wet m i /\ In i L).
  { intros i Hi. destruct (f2_in_right _ _ _ _ PK Hi) as (k & Hk & Ek). split; [|now apply nth_error_In in Ek]. apply (sub_wet m L p k i Sp Ek). now apply HW. }
  assert (Kc : forall i, In i L -> wet m i -> In i K).
  { intros i Hi Wi. apply In_nth_error in Hi. destruct Hi as [k Ek]. apply (sub_wet m L p k i Sp Ek) in Wi. apply HW in Wi.
    destruct (f2_in_left _ _ _ _ PK Wi) as (i' & Hi' & Ek'). congruence. }
  destruct (components_sub c Vc) as (comps & ids & -> & F & B & Cov & C). cbn [ended].
  assert (Ex : exists ids', Forall2 (picks K) ids ids').
  { clear - B SK. assert (G : forall l, In l ids -> exists l', picks K l l').
    { intros l Hl. apply picks_exists. intros k Hk. rewrite (sub_len m K c SK). eauto. }
    clear B. induction ids as [|l ids IH]; [exists []; constructor|]. destruct (G l (or_introl eq_refl)) as [l' Pl].
    destruct IH as [ids' Pi]; [intros x Hx; apply G; now right|]. exists (l' :: ids'). now constructor. }
  destruct Ex as (ids' & PI). exists comps, ids'. split; [reflexivity|]. split; [|split].
  - clear - F PI SK. revert ids' PI. induction F as [|l q ids comps (Nl & Sq) F IH]; intros ids' PI; inversion PI; subst; constructor; [|now apply IH].
    eapply sub_trans; eauto.
  - assert (Step : forall k i, nth_error K k = Some i -> forall j, linked m i j -> exists k', nth_error K k' = Some j /\ connected (m_faces c) k k').
    { intros k i Hk j X. apply clos_rt_rtn1 in X. induction X as [|y z (Wy & Wz & Sh) _ (k1 & Ek1 & C1)]; [exists k; split; [exact Hk|apply rt_refl]|].
      assert (Iz : In z K).
      { apply Kc; [|exact Wz]. assert (Iy : In y L) by (apply Kw; now apply nth_error_In in Ek1). apply (HL y z Iy). now apply rt_step. }
      apply In_nth_error in Iz. destruct Iz as [k2 Ek2]. exists k2. split; [exact Ek2|].
      apply rt_trans with k1; [exact C1|]. apply rt_step. now apply (sub_share m K c k1 k2 y z SK Ek1 Ek2). }
    assert (Back : forall k k' i, nth_error K k = Some i -> connected (m_faces c) k k' -> exists j, nth_error K k' = Some j /\ linked m i j).
    { intros k k' i Hk X. apply clos_rt_rtn1 in X. induction X as [|y z Sh _ (j & Ej & Lj)]; [exists i; split; [exact Hk|apply rt_refl]|].
      assert (Lz : z < length K).
      { rewrite (sub_len m K c SK). destruct Sh as (f & g & v & _ & Hg & _). unfold nb_faces. apply nth_error_Some. congruence. }
      destruct (nth_error K z) as [j'|] eqn:Ez; [|apply nth_error_None in Ez; lia]. exists j'. split; [reflexivity|].
      apply rt_trans with j; [exact Lj|]. apply rt_step. split; [apply Kw; now apply nth_error_In in Ej|]. split; [apply Kw; now apply nth_error_In in Ez|].
      now apply (sub_share m K c y z j j' SK Ej Ez). }
    apply Forall_forall. intros l' Hl'. destruct (f2_in_right _ _ _ _ PI Hl') as (l & Hl & Pl). destruct (f2_in_left _ _ _ _ F Hl) as (q & _ & Nl & _).
    split.
    + destruct l as [|k l]; [contradiction|]. inversion Pl; subst. discriminate.
    + intros i Hi. destruct (f2_in_right _ _ _ _ Pl Hi) as (k & Hk & Ek). split; [apply Kw; now apply nth_error_In in Ek|].
      intros j. split.
      * intros Hj. destruct (f2_in_right _ _ _ _ Pl Hj) as (k' & Hk' & Ek'). apply (C l k k' Hl Hk) in Hk'. destruct (Back k k' i Ek Hk') as (j' & Ej' & Lj'). congruence.
      * intros X. destruct (Step k i Ek j X) as (k' & Ek' & Ck'). apply (C l k k' Hl Hk) in Ck'. destruct (f2_in_left _ _ _ _ Pl Ck') as (j' & Hj' & Ej'). congruence.
  - intros i Hi Wi. pose proof (Kc i Hi Wi) as Ki. apply In_nth_error in Ki. destruct Ki as [k Ek].
    destruct (Cov k) as (l & Hl & Hk); [rewrite <- (sub_len m K c SK); apply nth_error_Some; congruence|].
    destruct (f2_in_left _ _ _ _ PI Hl) as (l' & Hl' & Pl). exists l'. split; [exact Hl'|]. destruct (f2_in_left _ _ _ _ Pl Hk) as (j' & Hj' & Ej'). congruence.
Qed.

Lemma waterlines_ok argsort m : valid m -> immersed m ->
  exists comps ids, waterlines argsort m = Ok comps /\ Forall2 (sub m) ids comps /\ Forall (is_waterline m) ids
    /\ (forall i, wet m i -> exists l, In l ids /\ In i l).
Proof.
  intros Vm Im. unfold waterlines. destruct (components_sub m Vm) as (parts & ids & -> & F & B & Cov & C). cbn [ended bind].
  assert (G : exists comps ids', mapM (components_of_waterline argsort 0) parts = Ok comps /\ Forall2 (sub m) ids' (concat comps) /\ Forall (is_waterline m) ids'
    /\ (forall i, In i (concat ids) -> wet m i -> exists l, In l ids' /\ In i l)).
  { assert (C' : forall l, In l ids -> forall i j, In i l -> (In j l <-> connected (m_faces m) i j)) by (intros; now apply C).
    clear - F Vm Im C'. induction F as [|l p ids parts (Nl & Sp) F IH].
    - exists [], []. split; [reflexivity|]. split; [constructor|]. split; [constructor|]. intros i [].
    - destruct IH as (comps & ids' & E & S & W & A); [intros x Hx; apply C'; now right|].
      destruct (waterline_step argsort m l p Vm Im Sp) as (cs & is & E1 & S1 & W1 & A1); [intros i j; apply C'; now left|].
      exists (cs :: comps), (is ++ ids'). cbn [mapM]. rewrite E1, E. cbn [bind]. split; [reflexivity|]. cbn [concat]. split; [now apply Forall2_app|].
      split; [apply Forall_app; now split|]. intros i Hi Wi. apply in_app_or in Hi. destruct Hi as [Hi|Hi].
      + destruct (A1 i Hi Wi) as (x & Hx & Hix). exists x. split; [apply in_or_app; now left|exact Hix].
      + destruct (A i Hi Wi) as (x & Hx & Hix). exists x. split; [apply in_or_app; now right|exact Hix]. }
  destruct G as (comps & ids' & -> & S & W & A). cbn [bind]. exists (concat comps), ids'. split; [reflexivity|]. split; [exact S|]. split; [exact W|].
  intros i Wi. apply A; [|exact Wi]. destruct Wi as (f & x & v & Hf & _).
  destruct (Cov i) as (l & Hl & Hi); [unfold nb_faces; apply nth_error_Some; congruence|]. apply in_concat. eauto.
Qed.
