From Coq Require Import Reals List Bool Arith ZArith Lia Lra Permutation.
From Verif Require Import Model_Base Model_Geometry Model_Mesh Model_Clip Spec_Mesh Spec_Tree Spec_Clip Model_Tree Model_Body Spec_Body
  Proofs_Geometry Proofs_Mesh Proofs_Mesh2 Proofs_Mesh3 Proofs_Clip4 Proofs_Clip5 Model_Integrals Spec_Integrals Proofs_Integrals Proofs_Tree Proofs_Tree2 Proofs_Body Proofs_Body2 Proofs_Body5
  Model_Quality Spec_Quality Proofs_Quality Model_Normals Spec_Normals Proofs_Normals4 Model_Grid Spec_Grid Proofs_Grid Proofs_Grid2 Proofs_Grid3 Proofs_Grid4 Proofs_Grid5 Proofs_Grid6
  Model_Box Spec_Box Proofs_Box Proofs_Box2 Proofs_Box3.
Import ListNotations.
Open Scope R_scope.

(** ** Gathering meshes *)
Definition loose (vs : list vec) (fs : list face) (qs : list polygon) : Prop := exists qs', Forall2 (corners_at vs) fs qs' /\ Forall2 same_polygon qs qs'.
Lemma corners_shift pre vs post f q : corners_at vs f q -> corners_at (pre ++ vs ++ post) (face_map (fun i => (length pre + i)%nat) f) q.
Proof.
  assert (E : forall i (p : vec), nth_error vs i = Some p -> nth_error (pre ++ vs ++ post) (length pre + i) = Some p).
  { intros i p Hi. rewrite nth_error_app2 by lia. replace (length pre + i - length pre)%nat with i by lia. rewrite nth_error_app1; [exact Hi|]. apply nth_error_Some. congruence. }
  destruct q as [[[a b] c] d]. intros (A & B & C & D). cbn [face_map]. repeat split; cbn [fa fb fc fd]; now apply E.
Qed.
Lemma whole_loose_from ms qss : Forall2 carried ms qss -> forall pre, loose (pre ++ concat (map m_vertices ms)) (faces_from (length pre) ms) (concat qss)
  /\ forall i, (i < total_vertices ms)%nat -> exists f, In f (faces_from (length pre) ms) /\ In (length pre + i)%nat [fa f; fb f; fc f; fd f].
Proof.
  intros H. induction H as [|m qs ms qss C H IH]; intros pre.
  - split; [exists []; split; constructor|]. intros i Hi. unfold total_vertices in Hi. cbn in Hi. lia.
  - destruct (IH (pre ++ m_vertices m)) as [(qs1 & P1 & S1) U1]. destruct C as (Vm & Um & Nm & qs0 & P0 & S0). cbn [map concat faces_from].
    rewrite app_length in P1, U1. fold (nb_vertices m) in P1, U1. rewrite <- app_assoc in P1. split.
    + exists (qs0 ++ qs1). split; [|now apply Forall2_app]. apply Forall2_app; [|exact P1]. unfold shift_faces. clear - P0. unfold polygons_of in P0.
      induction P0; cbn; constructor; [|assumption]. now apply corners_shift.
    + intros i Hi. rewrite total_vertices_cons in Hi. destruct (Nat.lt_ge_cases i (nb_vertices m)) as [L|L].
      * destruct (Um i L) as (f & Hf & Hi'). exists (face_map (fun i => (length pre + i)%nat) f). split; [apply in_or_app; left; unfold shift_faces; now apply in_map|].
        cbn [face_map fa fb fc fd]. cbn [In] in *. intuition congruence.
      * destruct (U1 (i - nb_vertices m)%nat) as (f & Hf & Hi'); [lia|]. exists f. split; [apply in_or_app; now right|].
        replace (length pre + nb_vertices m + (i - nb_vertices m))%nat with (length pre + i)%nat in Hi' by lia. exact Hi'.
Qed.
Lemma loose_valid vs fs qs : loose vs fs qs -> valid (Mesh vs fs).
Proof.
  intros (qs' & P & _) f i Hf Hi. cbn in *. apply In_nth_error in Hf. destruct Hf as [k Hf]. destruct (Forall2_nth_l _ _ _ _ _ P Hf) as (q & _ & C).
  destruct (corners_in _ _ _ i C Hi) as (p & Hp & _). apply nth_error_Some. congruence.
Qed.
Section Merge.
  Variable argsort : list R -> list nat.
  Hypothesis Hs : sorts argsort.
  Lemma merge_loose vs fs qs : loose vs fs qs -> all_used (Mesh vs fs) -> spaced qs -> vs <> [] ->
    exists m ids, merge_duplicates argsort (/ 100000000) (Mesh vs fs) = Ok (m, ids) /\ carried (heal_triangles m) qs.
  Proof.
    intros L Um Sp Nv. pose proof (loose_valid _ _ _ L) as Vm.
    destruct (merge_duplicates_ok argsort Hs (/ 100000000) (Mesh vs fs) ltac:(lra) Vm Nv) as (m & ids & E & V' & N & [M1 M2 M3 M4] & Fs). cbn [m_vertices m_faces] in *.
    exists m, ids. split; [exact E|]. destruct L as (qs' & P & S).
    assert (Cor : forall i v, nth_error vs i = Some v -> exists q, In q qs /\ In v (polygon_corners q)).
    { intros i v Hi. destruct (Um i) as (f & Hf & Hi'); [cbn; apply nth_error_Some; congruence|]. cbn in Hf. apply In_nth_error in Hf. destruct Hf as [k Hf].
      destruct (Forall2_nth_l _ _ _ _ _ P Hf) as (q' & Hq' & C). destruct (Forall2_nth_r _ _ _ _ _ S Hq') as (q & Hq & Sq).
      destruct (corners_in _ _ _ _ C Hi') as (p & Hp & Hc). exists q. split; [now apply nth_error_In in Hq|]. apply (same_polygon_corners _ _ _ Sq). congruence. }
    assert (M3' : forall i v, nth_error vs i = Some v -> exists k, nth_error ids i = Some k /\ nth_error (m_vertices m) k = Some v).
    { intros i v Hi. destruct (M3 i v Hi) as (k & v' & Hk & Hv & C). exists k. split; [exact Hk|]. rewrite Hv. f_equal.
      destruct (M2 k v' Hv) as (j & Hj & _). destruct (Cor i v Hi) as (q & Hq & Cq). destruct (Cor j v' Hj) as (q' & Hq' & Cq').
      destruct (Sp v v' q q' Hq Hq' Cq Cq') as [->|K]; [reflexivity|]. exfalso. apply near_dist in C. lra. }
    assert (U' : all_used m).
    { intros k Hk. apply nth_error_Some in Hk. destruct (nth_error (m_vertices m) k) as [v|] eqn:Ek; [|contradiction]. destruct (M2 k v Ek) as (i & Hi & Hik).
      destruct (Um i) as (f & Hf & Hi'); [cbn; apply nth_error_Some; congruence|]. cbn in Hf. apply In_nth_error in Hf. destruct Hf as [j Hf].
      destruct (Fs j f Hf) as (a & b & c & d & A & B & C & D & Ef). exists (F a b c d). split; [now apply nth_error_In in Ef|].
      cbn [fa fb fc fd]. cbn [In] in *. destruct Hi' as [<-|[<-|[<-|[<-|[]]]]]; intuition congruence. }
    assert (Pm : polygons_of m qs').
    { apply Forall2_nth. apply Forall2_nth in P. destruct P as [Lp P]. unfold nb_faces in N. cbn in N. split; [congruence|].
      intros k f q Hf Hq. assert (Hk : (k < length fs)%nat) by (rewrite <- N; apply nth_error_Some; congruence). apply nth_error_Some in Hk.
      destruct (nth_error fs k) as [f0|] eqn:Ef0; [|contradiction]. destruct (Fs k f0 Ef0) as (a & b & c & d & A & B & C & D & Ef).
      assert (f = F a b c d) as -> by congruence. pose proof (P k f0 q Ef0 Hq) as Cq. destruct q as [[[pa pb] pc] pd]. destruct Cq as (Qa & Qb & Qc & Qd).
      destruct (M3' _ _ Qa) as (ka & Ka & Va). destruct (M3' _ _ Qb) as (kb & Kb & Vb). destruct (M3' _ _ Qc) as (kc & Kc & Vc). destruct (M3' _ _ Qd) as (kd & Kd & Vd).
      repeat split; cbn [fa fb fc fd]; congruence. }
    assert (Nd : NoDup (m_vertices m)).
    { apply NoDup_nth_error. intros i j Hi Eij. apply nth_error_Some in Hi. destruct (nth_error (m_vertices m) i) as [v|] eqn:Ei; [|contradiction].
      destruct (M2 i v Ei) as (i' & A & B). destruct (M2 j v (eq_sym Eij)) as (j' & A' & B'). pose proof (M4 i' j' v A A'). congruence. }
    split; [now apply heal_valid|]. split; [|split; [exact Nd|]].
    - intros i Hi. destruct (U' i Hi) as (f & Hf & Hfi). exists (heal_face f). split; [cbn [heal_triangles m_faces]; now apply in_map|].
      destruct (heal_rotation f) as [->|[->|[->| ->]]]; cbn [fa fb fc fd]; cbn [In] in *; tauto.
    - assert (R1 : exists qs2, polygons_of (heal_triangles m) qs2 /\ Forall2 same_polygon qs' qs2).
      { unfold polygons_of, heal_triangles in *. cbn [m_vertices m_faces]. clear - Pm. induction Pm as [|f q fs qs C P (qs2 & I1 & I2)]; cbn [map].
        - exists []. split; constructor.
        - assert (Q : exists q', corners_at (m_vertices m) (heal_face f) q' /\ same_polygon q q').
          { destruct q as [[[a b] c] d]. destruct C as (A & B & C & D). destruct (heal_rotation f) as [->|[->|[->| ->]]]; cbn [corners_at fa fb fc fd].
            - exists (a, b, c, d). split; [repeat split; assumption|cbn; auto].
            - exists (b, c, d, a). split; [repeat split; assumption|cbn; auto].
            - exists (c, d, a, b). split; [repeat split; assumption|cbn; auto].
            - exists (d, a, b, c). split; [repeat split; assumption|cbn; auto]. }
          destruct Q as (q' & Q1 & Q2). exists (q' :: qs2). split; now constructor. }
      destruct R1 as (qs2 & R1 & R2). exists qs2. split; [exact R1|]. exact (Forall2_same_trans _ _ _ S R2).
  Qed.
  Lemma merged_carried ms qss : Forall2 carried ms qss -> spaced (concat qss) -> concat qss <> [] ->
    exists m, t_merged argsort (Node Plain (map Leaf ms)) = Ok m /\ carried m (concat qss).
  Proof.
    intros H Sp Nq. assert (Lv : leaves (Node Plain (map Leaf ms)) = ms).
    { cbn. rewrite map_map. clear. induction ms as [|m ms IH]; cbn; [reflexivity|]. now f_equal. }
    assert (Fl : filled (Node Plain (map Leaf ms))).
    { constructor; [destruct ms; [inversion H; subst; cbn in Nq; contradiction|discriminate]|]. intros x Hx. apply in_map_iff in Hx. destruct Hx as (m & <- & _). constructor. }
    cbn [t_merged]. rewrite (t_vertices_whole _ Fl), (t_faces_whole _ Fl), Lv. cbn [bind]. cbn [whole m_vertices m_faces].
    destruct (whole_loose_from ms qss H []) as [L U]. cbn [app length] in L, U.
    assert (Vm : valid (Mesh (concat (map m_vertices ms)) (faces_from 0 ms))) by (eapply loose_valid; exact L).
    destruct (build_mesh (concat (map m_vertices ms)) (faces_from 0 ms)) as [m|e] eqn:Em.
    2:{ exfalso. assert (E : build_mesh (concat (map m_vertices ms)) (faces_from 0 ms) = Ok (Mesh (concat (map m_vertices ms)) (faces_from 0 ms))) by (apply build_mesh_ok; split; [reflexivity|exact Vm]). congruence. }
    apply build_mesh_ok in Em. destruct Em as [-> _]. cbn [bind].
    destruct (merge_loose _ _ _ L) as (m & ids & E & C); [|exact Sp| |].
    - intros i Hi. cbn in *. rewrite concat_vertices_length in Hi. exact (U i Hi).
    - intros E. destruct L as (qs' & P & S). destruct qs' as [|q qs']; [inversion S; congruence|]. inversion P as [|f q' fs qs'' C P']; subst. rewrite E in C.
      destruct q as [[[a b] c] d]. destruct C as (A & _). destruct (fa f); discriminate.
    - rewrite E. cbn [bind fst]. exists (heal_triangles m). split; [reflexivity|exact C].
  Qed.
End Merge.
