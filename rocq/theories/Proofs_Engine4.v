From Coq Require Import Reals List Bool ZArith Arith Lia Lra.
From Verif Require Import Model_Base Model_Ring Model_Block Spec_Block Proofs_Block Proofs_Block2 Model_Geometry Proofs_Geometry
  Model_Mesh Spec_Mesh Proofs_Mesh Model_Quality Model_Tree Spec_Tree Proofs_Tree Proofs_Symmetry Model_Engine Spec_Engine
  Proofs_Engine Proofs_Engine2 Proofs_Engine3.
Import ListNotations.
Open Scope nat_scope.

Lemma mapM_seq {X Y} (f : X -> result Y) (R : nat -> Y) : forall l s,
  (forall j y, nth_error l j = Some y -> f y = Ok (R (s + j))) -> mapM f l = Ok (map R (seq s (length l))).
Proof.
  induction l as [|x l IH]; intros s H; [reflexivity|]. cbn [mapM length seq map].
  rewrite (H 0 x eq_refl). cbn [bind]. rewrite Nat.add_0_r.
  rewrite (IH (S s)); [reflexivity|]. intros j y Hy. rewrite (H (S j) y Hy). do 2 f_equal. lia.
Qed.
Lemma mapM_nth {X Y} (f : X -> result Y) : forall l r, mapM f l = Ok r ->
  forall j x, nth_error l j = Some x -> exists y, f x = Ok y /\ nth_error r j = Some y.
Proof.
  induction l as [|x l IH]; intros r H j y Hy; [destruct j; discriminate|].
  cbn [mapM] in H. destruct (f x) as [z|] eqn:E; [|discriminate]. cbn [bind] in H.
  destruct (mapM f l) as [r'|]; [|discriminate]. cbn [bind] in H. apply Ok_inj' in H. subst r.
  destruct j as [|j]; cbn in Hy; [injection Hy as <-; eauto|]. exact (IH r' eq_refl j y Hy).
Qed.
Lemma mapi_from_length {X Y} (f : nat -> X -> Y) : forall l k, length (mapi_from f k l) = length l.
Proof. induction l as [|x l IH]; intros k; cbn; [reflexivity|]. now rewrite IH. Qed.
Lemma mapi_from_nth {X Y} (f : nat -> X -> Y) : forall l k j x, nth_error l j = Some x -> nth_error (mapi_from f k l) j = Some (f (k + j) x).
Proof.
  induction l as [|y l IH]; intros k j x H; [destruct j; discriminate|].
  destruct j as [|j]; cbn in *; [injection H as ->; now rewrite Nat.add_0_r|]. rewrite (IH (S k) j x H). do 2 f_equal. lia.
Qed.
Lemma mapi_length {X Y} (f : nat -> X -> Y) l : length (mapi f l) = length l.
Proof. apply mapi_from_length. Qed.
Lemma mapi_nth {X Y} (f : nat -> X -> Y) l j x : nth_error l j = Some x -> nth_error (mapi f l) j = Some (f j x).
Proof. intros H. unfold mapi. now rewrite (mapi_from_nth f l 0 j x H). Qed.
Lemma sequence_nth {X} (l : list (result X)) r : sequence l = Ok r ->
  length r = length l /\ forall j x, nth_error l j = Some x -> exists y, x = Ok y /\ nth_error r j = Some y.
Proof.
  intros H. split; [exact (mapM_length _ _ _ H)|]. exact (mapM_nth _ _ _ H).
Qed.
Lemma nth_error_in_range {X Y} (l : list X) (r : list Y) j y : length r = length l -> nth_error r j = Some y -> exists x, nth_error l j = Some x.
Proof.
  intros E H. assert (j < length l) by (rewrite <- E; apply nth_error_Some; congruence).
  destruct (nth_error l j) eqn:El; [eauto|]. apply nth_error_None in El. lia.
Qed.

Lemma raw_node k l r : t_raw (Node k l) = Ok r -> exists rs, mapM t_raw l = Ok rs /\ l <> [] /\ r = concat rs.
Proof.
  cbn [t_raw]. rewrite sequence_map. destruct (mapM t_raw l) as [rs|] eqn:E; [|discriminate]. cbn [bind].
  intros H. exists rs. destruct rs; [discriminate|]. unfold concatenate in H. apply Ok_inj' in H.
  split; [reflexivity|]. split; [intros ->; discriminate|now symmetry].
Qed.

(** ** Regular families *)
Definition shift (v : vec) (i : nat) : quad -> quad := moved_quad (fun x => vadd x (vscale (INR i) v)).
Definition turn (a : axis) (n i : nat) : quad -> quad := moved_quad (rotate_point a (2 * INR i * PI / (INR n + 1))).

Lemma vadd_assoc u v w : vadd (vadd u v) w = vadd u (vadd v w).
Proof. revert u v w. vring. Qed.
Lemma vadd_comm u v : vadd u v = vadd v u.
Proof. revert u v. vring. Qed.
Lemma vscale_plus a b v : vadd (vscale a v) (vscale b v) = vscale (a + b) v.
Proof. revert v. vring. Qed.
Lemma vadd_zero v w : vadd w (vscale 0 v) = w.
Proof. revert v w. vring. Qed.
Lemma shift_zero' v q : shift v 0 q = q.
Proof. apply moved_id. intros x. cbn [INR]. apply vadd_zero. Qed.
Lemma shift_plus v a b q : shift v a (shift v b q) = shift v (a + b) q.
Proof.
  unfold shift. rewrite moved_compose. apply moved_ext. intros x. rewrite vadd_assoc. f_equal.
  rewrite vscale_plus. f_equal. rewrite plus_INR. ring.
Qed.
Lemma turn_zero a n q : turn a n 0 q = q.
Proof.
  apply moved_id. intros x. cbn [INR]. replace (2 * 0 * PI / (INR n + 1))%R with 0%R by (unfold Rdiv; ring).
  apply rotate_zero.
Qed.
Lemma turn_plus a n i j q : proper_axis a -> turn a n i (turn a n j q) = turn a n (i + j) q.
Proof.
  intros H. unfold turn. rewrite moved_compose. apply moved_ext. intros x. rewrite rotate_compose by exact H.
  f_equal. rewrite plus_INR. unfold Rdiv. ring.
Qed.
Lemma turn_full a n q : proper_axis a -> turn a n (S n) q = q.
Proof.
  intros H. apply moved_id. intros x. rewrite S_INR.
  replace (2 * (INR n + 1) * PI / (INR n + 1))%R with (2 * PI)%R.
  - now apply rotate_full_turn.
  - pose proof (pos_INR n). field. lra.
Qed.
Lemma shift_invariant {A : coeffs} P (G : bool -> panel -> panel -> A * A) v i :
  invariant_under P G (moved_quad (fun x => vadd x v)) -> invariant_under P G (shift v i).
Proof.
  intros [HP H]. induction i as [|i [IHP IH]].
  - split; [intros tri q; now rewrite shift_zero'|]. intros b t1 t2 q1 q2 P1 P2. now rewrite !shift_zero'.
  - assert (E : forall q, shift v (S i) q = moved_quad (fun x => vadd x v) (shift v i q)).
    { intros q. unfold shift. rewrite moved_compose. apply moved_ext. intros x. rewrite vadd_assoc. f_equal.
      rewrite S_INR. destruct v as [a c d]. unfold vscale, vadd. cbn. f_equal; ring. }
    split; [intros tri q Hq; rewrite E; apply HP, IHP, Hq|].
    intros b t1 t2 q1 q2 P1 P2. rewrite !E, H by (now apply IHP). now apply IH.
Qed.
(** The faces of the parts of a mesh belong to the family when those of the mesh do. *)
Lemma within_concat P rs r : within P (concat rs) -> In r rs -> within P r.
Proof. intros H Hr. unfold within in *. rewrite Forall_forall in *. intros x Hx. apply H. apply in_concat. eauto. Qed.
Lemma within_app P r s : within P (r ++ s) -> within P r /\ within P s.
Proof. intros H. unfold within in *. now apply Forall_app. Qed.
Lemma within_first P f n r : (forall q, f 0 q = q) -> within P (concat (map (fun i => map (img (f i)) r) (seq 0 (S n)))) -> within P r.
Proof. intros H W. cbn [seq map concat] in W. rewrite (img_id _ _ H) in W. now destruct (within_app _ _ _ W). Qed.
Lemma mesh_raw_in m r x : mesh_raw m = Ok r -> In x r -> exists f, In f (m_faces m) /\ fst x = is_tri f /\ face_points (m_vertices m) f = Ok (snd x).
Proof.
  unfold mesh_raw. revert r. induction (m_faces m) as [|f fs IH]; intros r E Hx; cbn [mapM] in E.
  - apply Ok_inj' in E. subst r. destruct Hx.
  - destruct (face_points (m_vertices m) f) as [q|] eqn:Eq; [|discriminate]. cbn [bind] in E.
    destruct (mapM _ fs) as [r'|] eqn:Er in E; [|discriminate]. cbn [bind] in E. apply Ok_inj' in E. subst r.
    destruct Hx as [<-|Hx]; [exists f; cbn; auto|]. destruct (IH r' Er Hx) as (g & Hg & E1 & E2). exists g. cbn. auto.
Qed.
Lemma faces_within P t : forall r, t_raw t = Ok r -> faces_in P t -> within P r.
Proof.
  induction t as [m|k l IH] using tree_induction; intros r E H.
  - cbn [t_raw] in E. unfold within. rewrite Forall_forall. intros x Hx. destruct (mesh_raw_in _ _ _ E Hx) as (f & Hf & E1 & E2).
    rewrite E1. apply (H m f (snd x)); [now left|exact Hf|exact E2].
  - destruct (raw_node _ _ _ E) as (rs & Ers & _ & ->). unfold within. rewrite Forall_forall. intros x Hx. apply in_concat in Hx.
    destruct Hx as (s & Hs & Hxs). destruct (In_nth_error _ _ Hs) as [j Hj].
    assert (Hl : j < length l) by (rewrite <- (mapM_length _ _ _ Ers); apply nth_error_Some; congruence).
    destruct (nth_error l j) as [y|] eqn:Hy; [|apply nth_error_None in Hy; lia].
    destruct (mapM_nth _ _ _ Ers j y Hy) as (s' & Es' & Hs'). rewrite Hj in Hs'. injection Hs' as <-.
    assert (W : within P s).
    { apply (IH y (nth_error_In _ _ Hy) s Es'). intros m f q Hm. apply H. cbn [leaves]. apply in_concat. exists (leaves y). split; [apply in_map, (nth_error_In _ _ Hy)|exact Hm]. }
    unfold within in W. rewrite Forall_forall in W. exact (W x Hxs).
Qed.

Lemma translation_raw v ints x n r : t_raw (Node (Translation v ints) (x :: map (fun i => t_translate x (vscale (INR i) v)) (seq 1 n))) = Ok r ->
  exists r0, t_raw x = Ok r0 /\ r = concat (map (fun i => map (img (shift v i)) r0) (seq 0 (S n)))
    /\ forall j y, nth_error (x :: map (fun i => t_translate x (vscale (INR i) v)) (seq 1 n)) j = Some y ->
         t_raw y = Ok (map (img (shift v j)) r0).
Proof.
  intros H. destruct (raw_node _ _ _ H) as (rs & E & _ & ->).
  destruct (mapM_nth _ _ _ E 0 x eq_refl) as (r0 & E0 & _). exists r0. split; [exact E0|].
  assert (P : forall j y, nth_error (x :: map (fun i => t_translate x (vscale (INR i) v)) (seq 1 n)) j = Some y ->
         t_raw y = Ok (map (img (shift v j)) r0)).
  { intros j y Hy. destruct j as [|j].
    - cbn in Hy. injection Hy as <-. rewrite img_id by (intros; apply shift_zero'). exact E0.
    - cbn [nth_error] in Hy. rewrite nth_error_map in Hy. destruct (nth_error (seq 1 n) j) as [i|] eqn:Ei; [|discriminate].
      cbn in Hy. injection Hy as <-.
      assert (i = S j). { assert (j < n) by (rewrite <- (seq_length n 1); apply nth_error_Some; congruence).
        rewrite (nth_error_nth' _ 0) in Ei by (rewrite seq_length; lia). rewrite seq_nth in Ei by lia. injection Ei as <-. lia. }
      subst i. rewrite raw_translate, E0. reflexivity. }
  split; [|exact P].
  rewrite (mapM_seq t_raw (fun i => map (img (shift v i)) r0) _ 0 P) in E. apply Ok_inj' in E. subst rs.
  cbn [length]. now rewrite map_length, seq_length.
Qed.
Lemma axial_raw a x n r : t_raw (Node (Axial a) (x :: map (fun i => t_rotate x a (2 * INR i * PI / (INR n + 1))) (seq 1 n))) = Ok r ->
  exists r0, t_raw x = Ok r0 /\ r = concat (map (fun i => map (img (turn a n i)) r0) (seq 0 (S n)))
    /\ forall j y, nth_error (x :: map (fun i => t_rotate x a (2 * INR i * PI / (INR n + 1))) (seq 1 n)) j = Some y ->
         t_raw y = Ok (map (img (turn a n j)) r0).
Proof.
  intros H. destruct (raw_node _ _ _ H) as (rs & E & _ & ->).
  destruct (mapM_nth _ _ _ E 0 x eq_refl) as (r0 & E0 & _). exists r0. split; [exact E0|].
  assert (P : forall j y, nth_error (x :: map (fun i => t_rotate x a (2 * INR i * PI / (INR n + 1))) (seq 1 n)) j = Some y ->
         t_raw y = Ok (map (img (turn a n j)) r0)).
  { intros j y Hy. destruct j as [|j].
    - cbn in Hy. injection Hy as <-. rewrite img_id by (intros; apply turn_zero). exact E0.
    - cbn [nth_error] in Hy. rewrite nth_error_map in Hy. destruct (nth_error (seq 1 n) j) as [i|] eqn:Ei; [|discriminate].
      cbn in Hy. injection Hy as <-.
      assert (i = S j). { assert (j < n) by (rewrite <- (seq_length n 1); apply nth_error_Some; congruence).
        rewrite (nth_error_nth' _ 0) in Ei by (rewrite seq_length; lia). rewrite seq_nth in Ei by lia. injection Ei as <-. lia. }
      subst i. rewrite raw_rotate, E0. reflexivity. }
  split; [|exact P].
  rewrite (mapM_seq t_raw (fun i => map (img (turn a n i)) r0) _ 0 P) in E. apply Ok_inj' in E. subst rs.
  cbn [length]. now rewrite map_length, seq_length.
Qed.
Lemma reflection_raw p x o r : t_mirror x p = Ok o -> t_raw (Node (Reflection p) [x; o]) = Ok r ->
  exists r0, t_raw x = Ok r0 /\ t_raw o = Ok (map (img (mirrored_quad p)) r0) /\ r = r0 ++ map (img (mirrored_quad p)) r0.
Proof.
  intros Hm H. destruct (raw_node _ _ _ H) as (rs & E & _ & ->).
  destruct (mapM_nth _ _ _ E 0 x eq_refl) as (r0 & E0 & _). exists r0. split; [exact E0|].
  pose proof (raw_mirror p x o Hm) as Eo. rewrite E0 in Eo. cbn [bind] in Eo. split; [exact Eo|].
  cbn [mapM] in E. rewrite E0, Eo in E. cbn [bind] in E. apply Ok_inj' in E. subst rs. cbn [concat]. now rewrite app_nil_r.
Qed.

(** Shapes of the symmetric trees. *)
Lemma regular_parts k l : regular (Node k l) -> forall x, In x l -> regular x.
Proof.
  intros H x Hx. inversion H; subst; auto. destruct Hx as [<-|[<-|[]]]; assumption.
Qed.
Lemma regular_reflection_inv p l : regular (Node (Reflection p) l) -> exists x o, l = [x; o] /\ t_mirror x p = Ok o.
Proof. intros H. inversion H; subst. eauto. Qed.
Lemma regular_translation_inv v i l : regular (Node (Translation v i) l) ->
  exists x n, l = x :: map (fun i => t_translate x (vscale (INR i) v)) (seq 1 n).
Proof. intros H. inversion H; subst. eauto. Qed.
Lemma regular_axial_inv a l : regular (Node (Axial a) l) ->
  exists x n, l = x :: map (fun i => t_rotate x a (2 * INR i * PI / (INR n + 1))) (seq 1 n).
Proof. intros H. inversion H; subst. eauto. Qed.

Section Main.
Context {A : coeffs}.
Variable P : bool -> quad -> Prop.
Variable G : bool -> panel -> panel -> A * A.
Variable rel : A -> A -> Prop.
Hypothesis rel_refl : forall x, rel x x.
Variable ks : list kind.
Hypothesis Hresp : forall k, In k ks -> respects P G k.
Hypothesis Hcoh : coherent ks.
Notation good := (good G rel).

Lemma evaluate_good same t1 t2 r1 r2 : t_raw t1 = Ok r1 -> t_raw t2 = Ok r2 ->
  exists sk, evaluate G same t1 t2 = Ok sk /\ forall pr, good pr same r1 r2 sk.
Proof.
  intros E1 E2. unfold evaluate. rewrite !t_panels_raw, E1, E2. cbn [bind]. eexists. split; [reflexivity|].
  intros pr. unfold Proofs_Engine3.good.
  assert (E : forall (p : A * A -> A) (q : A * A -> A) same ps1 ps2, sel pr (dense G same ps1 ps2 p, dense G same ps1 ps2 q) = dense G same ps1 ps2 (if pr then p else q))
    by (intros; destruct pr; reflexivity).
  rewrite E. replace (if pr then fst else snd) with (@sel A pr) by (destruct pr; reflexivity).
  apply dense_approx; exact rel_refl.
Qed.

Lemma kinds_sub k l x : incl (kinds (Node k l)) ks -> In x l -> incl (kinds x) ks.
Proof. intros H Hx q Hq. apply H. now apply (kinds_in k l x q). Qed.
Lemma same_planes p q : In (Reflection p) ks -> In (Reflection q) ks -> plane_eqb p q = true ->
  forall x, mirrored_quad p x = mirrored_quad q x.
Proof. intros Hp Hq E x. apply mirrored_ext. exact (Hcoh _ _ Hp Hq E). Qed.
Lemma basic_good : forall t1, regular t1 -> incl (kinds t1) ks ->
  forall t2 same r1 r2, regular t2 -> incl (kinds t2) ks -> (same = true -> t1 = t2) ->
  t_raw t1 = Ok r1 -> t_raw t2 = Ok r2 -> within P r1 -> within P r2 ->
  exists sk, basic_matrices G same t1 t2 = Ok sk /\ forall pr, good pr same r1 r2 sk.
Proof.
  induction t1 as [m|k l IH] using tree_induction; intros HR1 HK1 t2 same r1 r2 HR2 HK2 HS E1 E2 W1 W2.
  - now apply evaluate_good.
  - destruct k as [|p|v i|a]; try now apply evaluate_good.
    destruct t2 as [m2|[|q|v i|a] l2]; try now apply evaluate_good.
    cbn [basic_matrices]. destruct (plane_eqb p q) eqn:Epq; [|now apply evaluate_good].
    destruct (regular_reflection_inv _ _ HR1) as (x1 & o1 & -> & Hm1).
    destruct (regular_reflection_inv _ _ HR2) as (x2 & o2 & -> & Hm2).
    destruct (reflection_raw _ _ _ _ Hm1 E1) as (s1 & Ex1 & Eo1 & ->).
    destruct (reflection_raw _ _ _ _ Hm2 E2) as (s2 & Ex2 & Eo2 & ->).
    assert (I1 : In (Reflection p) ks) by (apply HK1; now left).
    assert (I2 : In (Reflection q) ks) by (apply HK2; now left).
    assert (HS' : same = true -> x1 = x2) by (intros HT; specialize (HS HT); congruence).
    pose proof (kinds_sub _ _ x1 HK1 (or_introl eq_refl)) as Kx1.
    pose proof (kinds_sub _ _ x2 HK2 (or_introl eq_refl)) as Kx2.
    pose proof (kinds_sub _ _ o2 HK2 (or_intror (or_introl eq_refl))) as Ko2.
    pose proof (regular_parts _ _ HR1 x1 (or_introl eq_refl)) as Rx1.
    pose proof (regular_parts _ _ HR2 x2 (or_introl eq_refl)) as Rx2.
    pose proof (regular_parts _ _ HR2 o2 (or_intror (or_introl eq_refl))) as Ro2.
    destruct (within_app _ _ _ W1) as [Ws1 _]. destruct (within_app _ _ _ W2) as [Ws2 Wo2].
    destruct (IH x1 (or_introl eq_refl) Rx1 Kx1 x2 same s1 s2 Rx2 Kx2 HS' Ex1 Ex2 Ws1 Ws2) as (a & Ea & Ga).
    destruct (IH x1 (or_introl eq_refl) Rx1 Kx1 o2 false s1 _ Ro2 Ko2 ltac:(discriminate) Ex1 Eo2 Ws1 Wo2) as (b & Eb & Gb).
    rewrite Ea, Eb. cbn [bind]. eexists. split; [reflexivity|]. intros pr.
    destruct (Hresp _ I2) as [Hq Hinv].
    rewrite (img_ext (mirrored_quad p) (mirrored_quad q)) by (now apply same_planes).
    apply (reflection_good P); try assumption.
    + intros x. now apply mirrored_involution.
    + intros HT. rewrite (HS' HT) in Ex1. rewrite Ex1 in Ex2. apply Ok_inj' in Ex2. now subst.
    + apply Ga.
    + apply Gb.
Qed.
End Main.
