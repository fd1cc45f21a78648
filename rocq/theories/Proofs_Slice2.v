(** Slices of collections and of bodies. *)
From Coq Require Import Reals String Ascii List Bool ZArith Arith Lra Lia Permutation.
From Verif Require Import Model_Base Model_Geometry Model_Mesh Model_Quality Spec_Mesh Model_Tree Spec_Tree Spec_Clip Spec_Quality Proofs_Geometry Proofs_Mesh Proofs_Mesh2 Proofs_Mesh3
  Proofs_Tree Proofs_Clip4 Proofs_Clip5 Proofs_Clip6 Spec_Integrals Proofs_Integrals Model_Body Spec_Body Proofs_Body Proofs_Body2 Proofs_Body3 Proofs_Symmetry Proofs_Points Spec_Slice Proofs_Slice.
Import ListNotations.
Open Scope R_scope.

(** A list of polygons on one side of a plane. *)
Definition sided (p : plane) (qs : list polygon) : Prop :=
  (forall q, In q qs -> height p (p_center (face_of q)) < 0) \/ (forall q, In q qs -> 0 <= height p (p_center (face_of q))).
(** The second mesh has no other panel than the first one. *)
Definition part_of (m m' : mesh) : Prop := forall qs, polygons_of m qs -> exists qs', polygons_of m' qs' /\ incl qs' qs.
Record cut_by (p : plane) (ms : list mesh) (qs : list polygon) (t' : tree) : Prop := {
  cut_tidy : tidy_tree t';
  cut_plain : plain t';
  cut_panels : exists qss, Forall2 polygons_of (leaves t') qss /\ Permutation qs (concat qss) /\ Forall (sided p) qss;
  cut_parts : forall m', In m' (leaves t') -> exists m, In m ms /\ part_of m m' }.

Lemma sided_app p qss1 qss2 : Forall (sided p) qss1 -> Forall (sided p) qss2 -> Forall (sided p) (qss1 ++ qss2).
Proof. intros H1 H2. apply Forall_app. now split. Qed.
Lemma leaves_nodes l : leaves (Node Plain l) = concat (map leaves l).
Proof. reflexivity. Qed.

Section Slice.
  Variable set_order : list nat -> list nat.
  Hypothesis order_perm : forall l, Permutation l (set_order l).

  Lemma leaf_cut p m qs : tidy m -> polygons_of m qs -> exists t', t_sliced set_order p (Leaf m) = Ok t' /\ cut_by p [m] qs t'
     /\ (t' = Leaf m \/ exists l, t' = Node Plain l).
  Proof.
    intros T P. destruct (leaf_sliced set_order order_perm p m qs T P) as (l & E & [[-> Sd]|(m1 & m2 & qs1 & qs2 & -> & T1 & T2 & P1 & P2 & F1 & F2)]); cbn [t_sliced]; rewrite E; cbn [bind].
    - exists (Leaf m). split; [reflexivity|]. split; [|now left]. constructor.
      + split; [constructor|]. intros x [<-|[]]. exact T.
      + constructor.
      + exists [qs]. split; [repeat constructor; exact P|]. split; [cbn; now rewrite app_nil_r|]. constructor; [exact Sd|constructor].
      + intros m' [<-|[]]. exists m. split; [now left|]. intros qs0 P0. exists qs0. split; [exact P0|apply incl_refl].
    - exists (Node Plain (map Leaf [m1; m2])). split; [reflexivity|]. split; [|right; now exists [Leaf m1; Leaf m2]]. constructor.
      + split; [constructor; [discriminate|]; intros x [<-|[<-|[]]]; constructor|]. intros x [<-|[<-|[]]]; assumption.
      + constructor. intros x [<-|[<-|[]]]; constructor.
      + exists [qs1; qs2]. cbn. split; [repeat constructor; assumption|]. split.
        * rewrite app_nil_r, F1, F2. clear. induction qs as [|q l IH]; [constructor|]. cbn [filter]. destruct (Rltb (height p (p_center (face_of q))) 0); cbn [negb app].
          -- now constructor.
          -- rewrite <- Permutation_middle. now constructor.
        * constructor; [|constructor; [|constructor]].
          -- left. intros q Hq. rewrite F1 in Hq. apply filter_In in Hq. now apply Rltb_true.
          -- right. intros q Hq. apply (Permutation_in _ F2) in Hq. apply filter_In in Hq. destruct Hq as [_ Hq]. apply negb_true_iff, Rltb_false in Hq. lra.
      + intros m' Hm'. exists m. split; [now left|]. intros qs0 P0.
        assert (qs0 = qs) as -> by (clear - P P0; revert qs P; unfold polygons_of in *; induction P0 as [|f [[[a b] c] d] fs l Hq F IH]; intros qs P; inversion P as [|? [[[a' b'] c'] d'] ? ? Hq']; subst;
          [reflexivity|]; f_equal; [destruct Hq as (? & ? & ? & ?), Hq' as (? & ? & ? & ?); congruence|now apply IH]).
        cbn in Hm'. destruct Hm' as [<-|[<-|[]]].
        * exists qs1. split; [exact P1|]. rewrite F1. intros q Hq. apply filter_In in Hq. tauto.
        * exists qs2. split; [exact P2|]. intros q Hq. apply (Permutation_in _ F2) in Hq. apply filter_In in Hq. tauto.
  Qed.
  Lemma tree_cut p t qs : tidy_tree t -> tree_polygons t qs -> exists t', t_sliced set_order p t = Ok t' /\ cut_by p (leaves t) qs t'
     /\ (t' = t \/ exists l, t' = Node Plain l).
  Proof.
    revert qs. induction t as [m|k l IH] using tree_induction; intros qs [F T] (qss & Fq & ->).
    - inversion Fq as [|? q ? ? Pq Fr]; subst. inversion Fr; subst. cbn [concat]. rewrite app_nil_r. cbn [leaves]. apply (leaf_cut p m q); [apply T; now left|exact Pq].
    - apply filled_inv in F. destruct F as [Nl Fl]. cbn [t_sliced]. rewrite sequence_map.
      assert (G : forall l0 qss0, (forall x, In x l0 -> In x l) -> Forall2 polygons_of (concat (map leaves l0)) qss0 -> exists l', mapM (t_sliced set_order p) l0 = Ok l'
        /\ length l' = length l0 /\ (forall x, In x l' -> tidy_tree x /\ plain x)
        /\ (exists qss', Forall2 polygons_of (concat (map leaves l')) qss' /\ Permutation (concat qss0) (concat qss') /\ Forall (sided p) qss')
        /\ (forall m', In m' (concat (map leaves l')) -> exists m, In m (concat (map leaves l0)) /\ part_of m m')).
      { induction l0 as [|x l0 IHl]; intros qss0 Hl0 Hq.
        - exists []. split; [reflexivity|]. split; [reflexivity|]. split; [intros x []|]. split; [|intros m' []]. inversion Hq; subst. exists []. cbn. repeat split; constructor.
        - cbn [map concat] in Hq. apply Forall2_app_inv_l in Hq. destruct Hq as (q1 & q2 & H1 & H2 & ->).
          destruct (IHl q2) as (l' & E & L & Tl & (qss2 & Q2 & P2 & S2) & Pl); [intros y Hy; apply Hl0; now right|exact H2|].
          destruct (IH x (Hl0 x (or_introl eq_refl)) (concat q1)) as (x' & Ex & [Tx Px (qss1 & Q1 & P1 & S1) Hx] & _).
          { split; [apply Fl, Hl0; now left|]. intros m Hm. apply T. cbn. apply in_concat. exists (leaves x). split; [apply in_map, Hl0; now left|exact Hm]. }
          { now exists q1. }
          exists (x' :: l'). cbn [mapM]. rewrite Ex. cbn [bind]. rewrite E. cbn [bind]. split; [reflexivity|]. split; [cbn; now rewrite L|].
          split; [intros y [<-|Hy]; [split; assumption|now apply Tl]|]. split.
          + exists (qss1 ++ qss2). cbn [map concat]. split; [apply Forall2_app; assumption|]. split; [rewrite !List.concat_app; now apply Permutation_app|now apply sided_app].
          + intros m' Hm'. cbn [map concat] in *. apply in_app_or in Hm'. destruct Hm' as [Hm'|Hm'].
            * destruct (Hx m' Hm') as (m & Hm & I). exists m. split; [apply in_or_app; now left|exact I].
            * destruct (Pl m' Hm') as (m & Hm & I). exists m. split; [apply in_or_app; now right|exact I]. }
      destruct (G l qss (fun x H => H) Fq) as (l' & E & L & Tl & Q & Pl). rewrite E. cbn [bind]. exists (Node Plain l'). split; [reflexivity|]. split; [|right; now exists l'].
      constructor.
      + split; [constructor; [intros ->; destruct l; [contradiction|discriminate L]|intros x Hx; apply (Tl x Hx)]|].
        intros m Hm. rewrite leaves_nodes in Hm. apply in_concat in Hm. destruct Hm as (ms & Hms & Hm). apply in_map_iff in Hms. destruct Hms as (x & <- & Hx). now apply (Tl x Hx).
      + constructor. intros x Hx. apply (Tl x Hx).
      + exact Q.
      + exact Pl.
  Qed.
  (** Slices of valid meshes, such as the lids. *)
End Slice.
