(** Minced bodies. *)
From Coq Require Import Reals String Ascii List Bool ZArith Arith Lra Lia Permutation.
From Verif Require Import Model_Base Model_Geometry Model_Mesh Model_Quality Spec_Mesh Model_Tree Spec_Tree Spec_Clip Spec_Quality Proofs_Geometry Proofs_Mesh Proofs_Mesh2 Proofs_Mesh3
  Proofs_Tree Proofs_Clip4 Proofs_Clip5 Proofs_Clip6 Spec_Integrals Proofs_Integrals Model_Body Spec_Body Proofs_Body Proofs_Body2 Proofs_Body3 Proofs_Symmetry Proofs_Points Proofs_Dataset Proofs_Grid8
  Model_Slice Spec_Slice Proofs_Slice Proofs_Slice2 Proofs_Slice3.
Import ListNotations.
Open Scope R_scope.

(** ** The planes *)
Lemma intermingled_in {A} (ls : list (list A)) l x : In l ls -> In x l -> In x (intermingled ls).
Proof.
  intros Hl Hx. apply In_nth_error in Hx. destruct Hx as [k Hk]. unfold intermingled. apply in_flat_map. exists k. split.
  - apply in_seq. split; [lia|]. assert (L : (k < length l)%nat) by (apply nth_error_Some; congruence).
    assert (length l <= fold_right Nat.max 0 (map (@length A) ls))%nat; [|lia]. clear - Hl. induction ls as [|a ls IH]; [destruct Hl|]. cbn. destruct Hl as [->|Hl]; [lia|specialize (IH Hl); lia].
  - apply in_flat_map. exists l. split; [exact Hl|]. rewrite Hk. now left.
Qed.
(** Every fraction with the last denominator is the position of a plane at some depth. *)
Lemma positions_all depth i : (0 < i < 2 ^ depth)%nat -> exists j k, (1 <= j <= depth)%nat /\ In k (slice_positions j) /\ k = INR i / 2 ^ depth.
Proof.
  revert i. induction depth as [|d IH]; intros i Hi; [cbn in Hi; lia|].
  destruct (Nat.Even_or_Odd i) as [[k ->]|[k ->]].
  - destruct (IH k) as (j & r & Hj & Hr & Er); [cbn [Nat.pow] in Hi; lia|]. exists j, r. split; [lia|]. split; [exact Hr|]. rewrite Er, mult_INR. cbn [pow]. change (INR 2) with 2.
    field. apply pow_nonzero. lra.
  - exists (S d), (INR (2 * k + 1) / 2 ^ (S d)). split; [lia|]. split; [|reflexivity]. unfold slice_positions. apply in_map_iff. exists k. split; [reflexivity|]. apply in_seq.
    replace (S d - 1)%nat with d by lia. cbn [Nat.pow] in Hi. lia.
Qed.
Lemma pow_nat d : INR (2 ^ d) = 2 ^ d.
Proof. induction d as [|d IH]; [reflexivity|]. cbn [Nat.pow pow]. rewrite mult_INR, IH. reflexivity. Qed.
(** A mesh that is on one side of all the planes is in one slice. *)
Lemma one_slice (f : vec -> R) lo hi n m qs : (0 < n)%nat -> polygons_of m qs ->
  (forall i, (0 < i < n)%nat -> (forall q, In q qs -> f (p_center (face_of q)) < lo + INR i * (hi - lo) / INR n)
     \/ (forall q, In q qs -> lo + INR i * (hi - lo) / INR n <= f (p_center (face_of q)))) ->
  in_one_slice f lo hi n m.
Proof.
  intros Hn P H. assert (G : forall k, (0 < k <= n)%nat -> exists j, (j < k)%nat /\ forall q, In q qs ->
     (j = 0%nat \/ lo + INR j * (hi - lo) / INR n <= f (p_center (face_of q))) /\ (S j = k \/ f (p_center (face_of q)) < lo + INR (S j) * (hi - lo) / INR n)).
  { induction k as [|k IH]; intros Hk; [lia|]. destruct (Nat.eq_dec k 0) as [->|N0]; [exists 0%nat; split; [lia|]; intros q _; split; now left|].
    destruct IH as (j & Lj & Hj); [lia|]. destruct (Nat.eq_dec (S j) k) as [Ek|Nk].
    - destruct (H k) as [Hlt|Hge]; [lia| |].
      + exists j. split; [lia|]. intros q Hq. split; [now apply Hj|]. right. rewrite Ek. now apply Hlt.
      + exists k. split; [lia|]. intros q Hq. split; [right; now apply Hge|now left].
    - exists j. split; [lia|]. intros q Hq. destruct (Hj q Hq) as [H1 [H2|H2]]; [contradiction|]. split; [exact H1|now right]. }
  destruct (G n) as (j & Lj & Hj); [lia|]. exists j, (map face_of qs). split; [exact Lj|]. split; [exact (leaf_props _ _ P)|].
  intros x Hx. apply in_map_iff in Hx. destruct Hx as (q & <- & Hq). now apply Hj.
Qed.

(** ** The bounding box *)
Lemma rmin_list x l : (In (Rmin_list x l) (x :: l)) /\ forall y, In y (x :: l) -> Rmin_list x l <= y.
Proof.
  unfold Rmin_list. induction l as [|a l [I1 I2]]; cbn [fold_right]; [split; [now left|intros y [<-|[]]; lra]|]. split.
  - unfold Rmin at 1. destruct (Rle_dec a (fold_right Rmin x l)); [right; now left|]. destruct I1 as [E|I1]; [left; exact E|right; now right].
  - intros y [<-|[<-|Hy]]; [eapply Rle_trans; [apply Rmin_r|apply I2; now left]|apply Rmin_l|eapply Rle_trans; [apply Rmin_r|apply I2; now right]].
Qed.
Lemma rmax_list x l : (In (Rmax_list x l) (x :: l)) /\ forall y, In y (x :: l) -> y <= Rmax_list x l.
Proof.
  unfold Rmax_list. induction l as [|a l [I1 I2]]; cbn [fold_right]; [split; [now left|intros y [<-|[]]; lra]|]. split.
  - unfold Rmax at 1. destruct (Rle_dec a (fold_right Rmax x l)); [|right; now left]. destruct I1 as [E|I1]; [left; exact E|right; now right].
  - intros y [<-|[<-|Hy]]; [eapply Rle_trans; [apply I2; now left|apply Rmax_r]|apply Rmax_l|eapply Rle_trans; [apply I2; now right|apply Rmax_r]].
Qed.
Lemma range_value (f : vec -> R) v vs lo hi : range_of f (v :: vs) lo hi -> (lo, hi) = (Rmin_list (f v) (map f vs), Rmax_list (f v) (map f vs)).
Proof.
  intros ((a & Ha & Ea) & (b & Hb & Eb) & H). destruct (rmin_list (f v) (map f vs)) as [M1 M2]. destruct (rmax_list (f v) (map f vs)) as [M3 M4].
  change (f v :: map f vs) with (map f (v :: vs)) in *. apply in_map_iff in M1, M3. destruct M1 as (u & Eu & Hu). destruct M3 as (w & Ew & Hw).
  pose proof (M2 _ (in_map f _ _ Ha)). pose proof (M4 _ (in_map f _ _ Hb)). pose proof (H u Hu). pose proof (H w Hw). f_equal; lra.
Qed.
Definition unit_of (f : vec -> R) (d : vec) : Prop := forall c p, height (Plane d (vscale p d)) c = f c - p.
Lemma units : Forall2 unit_of [vx; vy; vz] directions.
Proof. repeat constructor; intros [x y z] p; unfold height, dot, vsub, vscale; cbn; ring. Qed.

Section Mince.
  Variable argsort : list R -> list nat.
  Hypothesis Hs : sorts argsort.
  Variable heal_normals : mesh -> result mesh.
  Variable set_order : list nat -> list nat.
  Hypothesis order_perm : forall l, Permutation l (set_order l).
  Local Notation sliceable := (Spec_Slice.sliceable argsort heal_normals).
  Local Notation slice := (fun acc p => bind acc (fun c => fb_sliced argsort heal_normals set_order c p)).

  Lemma cut_all ps : forall b qs, sliceable b -> tree_polygons (fb_mesh b) qs -> fb_lid b = None ->
    exists b' qs', fold_left slice ps (Ok b) = Ok b' /\ fb_dofs b' = fb_dofs b /\ fb_name b' = fb_name b /\ fb_lid b' = None
    /\ sliceable b' /\ tree_polygons (fb_mesh b') qs' /\ (exists qs0, Permutation qs qs0 /\ Forall2 same_polygon qs0 qs')
    /\ (forall p, (In p ps \/ forall m, In m (leaves (fb_mesh b)) -> leaf_sided p m) -> forall m, In m (leaves (fb_mesh b')) -> leaf_sided p m)
    /\ (ps = [] -> b' = b) /\ (ps <> [] -> fb_mass b' = None /\ fb_com b' = None /\ fb_rc b' = None /\ fb_inertia b' = None /\ fb_stiffness b' = None).
  Proof.
    induction ps as [|p ps IH]; intros b qs Sl Q Lb.
    - exists b, qs. cbn [fold_left]. split; [reflexivity|]. split; [reflexivity|]. split; [reflexivity|]. split; [exact Lb|]. split; [exact Sl|]. split; [exact Q|].
      split; [exists qs; split; [reflexivity|]; clear; induction qs; constructor; [apply same_polygon_refl|assumption]|]. split; [intros p [[]|H]; exact H|]. split; [reflexivity|contradiction].
    - destruct (body_cut argsort Hs heal_normals set_order order_perm b p qs Sl Q) as (b1 & qs1 & E1 & B1 & Sl1 & Q1 & (q0 & P0 & F0) & S1 & S2 & L1 & _); [congruence|].
      destruct (IH b1 qs1 Sl1 Q1 (L1 Lb)) as (b2 & qs2 & E2 & D2 & N2 & L2 & Sl2 & Q2 & (q1 & P1 & F1) & S3 & K1 & K2).
      exists b2, qs2. cbn [fold_left bind]. rewrite E1. split; [exact E2|].
      assert (D1 : fb_dofs b1 = fb_dofs b) by (rewrite B1; reflexivity). assert (N1 : fb_name b1 = fb_name b) by (rewrite B1; reflexivity).
      split; [congruence|]. split; [congruence|]. split; [exact L2|]. split; [exact Sl2|]. split; [exact Q2|]. split; [|split; [|split; [discriminate|]]].
      + destruct (Permutation_Forall2 P1 (Forall2_flip' same_polygon same_polygon same_polygon_sym _ _ F0)) as (q2 & P2 & F2).
        exists q2. split; [now rewrite P0|]. apply (same_polygons_list_trans _ q1); [|exact F1]. exact (Forall2_flip' same_polygon same_polygon same_polygon_sym _ _ F2).
      + intros p' H. apply S3. destruct H as [[<-|H]|H]; [right; exact S1|now left|right; now apply S2].
      + intros _. destruct ps as [|p2 ps]; [|apply K2; discriminate]. rewrite (K1 eq_refl), B1. cbn. auto.
  Qed.
  Lemma planes_ok l : (forall d n r, In (d, n, r) l -> (0 < n)%nat) -> exists planes, mapM planes_in_direction l = Ok planes
    /\ forall d n lo hi i r, In (d, n, (lo, hi)) l -> (1 <= i <= Nat.log2 n)%nat -> In r (slice_positions i) ->
       exists p, In p (concat (intermingled planes)) /\ p = Plane d (vscale (lo + r * (hi - lo)) d).
  Proof.
    intros H. exists (map (fun x => let '(d, n, (lo, hi)) := x in map (planes_at_depth d lo hi) (seq 1 (Nat.log2 n))) l). split.
    - induction l as [|[[d n] [lo hi]] l IH]; [reflexivity|]. cbn [mapM map]. unfold planes_in_direction at 1, slice_depth.
      destruct n as [|n]; [specialize (H d 0%nat (lo, hi) (or_introl eq_refl)); lia|]. cbn [bind]. rewrite IH; [reflexivity|]. intros d' n' r' H'. apply (H d' n' r'). now right.
    - intros d n lo hi i r Hl Hi Hr. eexists. split; [|reflexivity]. apply in_concat. exists (planes_at_depth d lo hi i). split.
      + apply (intermingled_in _ (map (planes_at_depth d lo hi) (seq 1 (Nat.log2 n)))); [apply in_map_iff; exists (d, n, (lo, hi)); auto|apply in_map, in_seq; lia].
      + unfold planes_at_depth. apply in_map_iff. exists r. auto.
  Qed.
  Lemma mince_ok b nb : sliceable b -> symmetric (fb_mesh b) -> fb_lid b = None -> Forall (fun n => (0 < n)%nat) nb ->
    exists b' vs, minced argsort heal_normals set_order b nb = Ok b' /\ t_vertices (fb_mesh b) = Ok vs
    /\ same_panels (fb_mesh b) (fb_mesh b') /\ fb_dofs b' = fb_dofs b /\ fb_name b' = ("copy_of_" ++ fb_name b)%string /\ fb_lid b' = None
    /\ forall coordinate n lo hi, In (coordinate, n) (combine [vx; vy; vz] nb) -> range_of coordinate vs lo hi ->
       forall m, In m (leaves (fb_mesh b')) -> in_one_slice coordinate lo hi (2 ^ Nat.log2 n) m.
  Proof.
    intros Sl Sy Lb Pn. pose proof Sl as (T & (qs & F & Q & G) & W & Hl). unfold minced, fb_copy.
    assert (Ck : fb_check b = Ok tt).
    { unfold fb_check. destruct (forallb _ _) eqn:Ef; [reflexivity|]. exfalso. apply Bool.not_true_iff_false in Ef. apply Ef. apply forallb_forall. intros [n rows] Hr. apply Nat.eqb_eq. exact (W n rows Hr). }
    rewrite Ck. cbn [bind]. rewrite (copy_ok _ Sy), Lb. cbn [bind option_bind].
    set (c := FB _ (fb_mesh b) None (fb_dofs b) (fb_mass b) (fb_com b) (fb_rc b) (fb_gc b) (fb_inertia b) (fb_stiffness b)).
    unfold t_bbox. rewrite (t_vertices_whole _ F). cbn [bind]. set (vs := m_vertices (whole (leaves (fb_mesh b)))).
    destruct (bbox (Mesh vs [])) as [[bx by_] bz] eqn:Eb. cbn [bind].
    destruct (planes_ok (combine (combine directions nb) [bx; by_; bz])) as (planes & Ep & Hp).
    { intros d n r H. apply in_combine_l in H. apply in_combine_r in H. rewrite Forall_forall in Pn. now apply Pn. }
    rewrite Ep. cbn [bind].
    assert (Slc : sliceable c) by (split; [exact T|split; [exists qs; split; [exact F|split; assumption]|split; [exact W|exact Hl]]]).
    destruct (cut_all (concat (intermingled planes)) c qs Slc Q eq_refl) as (b' & qs' & E & D' & N' & L' & Sl' & Q' & (qs0 & P0 & F0) & S' & _).
    exists b', vs. split; [exact E|]. split; [reflexivity|]. split; [exists qs, qs0, qs'; auto|]. split; [exact D'|]. split; [exact N'|]. split; [exact L'|].
    intros f n lo hi Hfn Hr m Hm.
    assert (Hz : exists d, In (d, n, (lo, hi)) (combine (combine directions nb) [bx; by_; bz]) /\ unit_of f d).
    { destruct vs as [|v vs'] eqn:Ev; [destruct Hr as ((v & [] & _) & _)|]. apply range_value in Hr. unfold bbox in Eb. cbn [m_vertices] in Eb. injection Eb as <- <- <-.
      pose proof units as U. inversion U as [|? ? ? ? Ux Ur]; subst. inversion Ur as [|? ? ? ? Uy Ur']; subst. inversion Ur' as [|? ? ? ? Uz _]; subst.
      clear - Hfn Hr Ux Uy Uz. destruct nb as [|n1 nb]; [destruct Hfn|]. cbn [combine In] in Hfn. destruct Hfn as [[= <- <-]|Hfn]; [exists (V 1 0 0); cbn; split; [left; now rewrite Hr|exact Ux]|].
      destruct nb as [|n2 nb]; [destruct Hfn|]. cbn [combine In] in Hfn. destruct Hfn as [[= <- <-]|Hfn]; [exists (V 0 1 0); cbn; split; [right; left; now rewrite Hr|exact Uy]|].
      destruct nb as [|n3 nb]; [destruct Hfn|]. cbn [combine In] in Hfn. destruct Hfn as [[= <- <-]|[]]. exists (V 0 0 1). cbn. split; [right; right; left; now rewrite Hr|exact Uz]. }
    destruct Hz as (d & Hd & Ud).
    destruct (polygons_exist m) as [qm Pm]; [destruct Sl' as ([_ Tt] & _); exact (proj1 (Tt m Hm))|].
    apply (one_slice f lo hi _ m qm); [pose proof (Nat.pow_nonzero 2 (Nat.log2 n)); lia|exact Pm|]. intros i Hi.
    destruct (positions_all _ _ Hi) as (j & r & Hj & Hrr & Er). destruct (Hp d n lo hi j r Hd Hj Hrr) as (p & Hpi & Epp).
    destruct (S' p (or_introl Hpi) m Hm) as (q2 & Pq2 & Sd). assert (q2 = qm) as -> by (apply (polygons_unique (Leaf m)); [exists [q2]|exists [qm]]; cbn; (split; [repeat constructor; assumption|now rewrite app_nil_r])).
    assert (Et : lo + r * (hi - lo) = lo + INR i * (hi - lo) / INR (2 ^ Nat.log2 n)) by (rewrite Er, pow_nat; unfold Rdiv; ring).
    rewrite Epp, Et in Sd. destruct Sd as [Sd|Sd]; [left|right]; intros q Hq; specialize (Sd q Hq); rewrite Ud in Sd; lra.
  Qed.
End Mince.
