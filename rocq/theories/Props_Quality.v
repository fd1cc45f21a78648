(** C22 and C29: merging of duplicate vertices and connected components. *)
From Coq Require Import Reals List Bool Arith Permutation Sorted Relation_Operators Lra Lia.
From Verif Require Import Model_Base Model_Geometry Model_Mesh Spec_Mesh Model_Quality Spec_Quality
  Proofs_Geometry Proofs_Mesh Proofs_Mesh2 Proofs_Mesh3 Proofs_Quality Proofs_Components Props_Geometry.
Import ListNotations.
Open Scope R_scope.

(** C22. For every mesh with vertices, every non-negative tolerance and every sorting algorithm.
    Missing: the mesh without vertices, refuted below. *)
Theorem merge_duplicates_keeps_geometry_partial :
  forall argsort, sorts argsort -> forall atol m, 0 <= atol -> valid m -> m_vertices m <> [] ->
  exists m' ids, merge_duplicates argsort atol m = Ok (m', ids)
  /\ valid m' /\ nb_faces m' = nb_faces m
  /\ (forall v, In v (m_vertices m') -> In v (m_vertices m))
  /\ (forall k a b c d, face_is m k a b c d -> exists a' b' c' d', face_is m' k a' b' c' d'
        /\ close atol a a' /\ close atol b b' /\ close atol c c' /\ close atol d d')
  /\ length ids = nb_vertices m
  /\ (forall k f, nth_error (m_faces m) k = Some f -> exists a b c d,
        nth_error ids (fa f) = Some a /\ nth_error ids (fb f) = Some b
        /\ nth_error ids (fc f) = Some c /\ nth_error ids (fd f) = Some d
        /\ nth_error (m_faces m') k = Some (F a b c d))
  /\ (forall i j v, nth_error (m_vertices m) i = Some v -> nth_error (m_vertices m) j = Some v ->
        nth_error ids i = nth_error ids j)
  /\ (all_used m -> all_used m')
  /\ (atol = 0 -> NoDup (m_vertices m') /\ forall k a b c d, face_is m k a b c d -> face_is m' k a b c d).
Proof.
  intros argsort Hs atol m Ha Vm Hv.
  destruct (merge_duplicates_ok argsort Hs atol m Ha Vm Hv) as (m' & ids & E & V' & N & [M1 M2 M3 M4] & Fs).
  assert (Faces : forall k a b c d, face_is m k a b c d -> exists a' b' c' d', face_is m' k a' b' c' d'
        /\ close atol a a' /\ close atol b b' /\ close atol c c' /\ close atol d d').
  { intros k a b c d (f & Ef & A & B & C & D). destruct (Fs k f Ef) as (ka & kb & kc & kd & Ia & Ib & Ic & Id & Ef').
    destruct (M3 _ _ A) as (k1 & a' & A1 & A2 & A3). destruct (M3 _ _ B) as (k2 & b' & B1 & B2 & B3).
    destruct (M3 _ _ C) as (k3 & c' & C1 & C2 & C3). destruct (M3 _ _ D) as (k4 & d' & D1 & D2 & D3).
    exists a', b', c', d'. split; [|auto]. exists (F ka kb kc kd). cbn. split; [exact Ef'|].
    split; [congruence|]. split; [congruence|]. split; congruence. }
  exists m', ids. split; [exact E|]. split; [exact V'|]. split; [exact N|].
  split; [intros v H; apply In_nth_error in H; destruct H as [k Hk]; destruct (M2 k v Hk) as (i & A & _); now apply nth_error_In in A|].
  split; [exact Faces|]. split; [exact M1|]. split; [exact Fs|]. split; [exact M4|]. split.
  - intros U k Hk. apply nth_error_Some in Hk. destruct (nth_error (m_vertices m') k) as [v|] eqn:Ev; [|contradiction].
    destruct (M2 k v Ev) as (i & A & B). destruct (U i) as (f & Hf & Hi); [apply nth_error_Some; congruence|].
    apply In_nth_error in Hf. destruct Hf as [j Hj]. destruct (Fs j f Hj) as (ka & kb & kc & kd & Ia & Ib & Ic & Id & Ef').
    exists (F ka kb kc kd). split; [now apply nth_error_In in Ef'|]. cbn.
    destruct Hi as [<-|[<-|[<-|[<-|[]]]]]; [left|right; left|do 2 right; left|do 3 right; left]; congruence.
  - intros ->. split.
    + apply NoDup_nth_error. intros i j Hi Heq. destruct (nth_error (m_vertices m') i) as [v|] eqn:Ev.
      * destruct (M2 i v Ev) as (i0 & A & B). symmetry in Heq. destruct (M2 j v Heq) as (j0 & C & D).
        pose proof (M4 i0 j0 v A C). congruence.
      * apply nth_error_Some in Hi. congruence.
    + intros k a b c d H. destruct (Faces k a b c d H) as (a' & b' & c' & d' & H' & A & B & C & D).
      apply close_zero in A. apply close_zero in B. apply close_zero in C. apply close_zero in D. now subst.
Qed.
Print Assumptions merge_duplicates_keeps_geometry_partial.

(** There is such a sorting algorithm (insertion), and meshes with vertices. *)
Fixpoint insert_index (l : list R) (i : nat) (s : list nat) : list nat :=
  match s with
  | [] => [i]
  | j :: s' => if Rleb (nth i l 0) (nth j l 0) then i :: s else j :: insert_index l i s'
  end.
Definition insertion_argsort (l : list R) : list nat := fold_right (insert_index l) [] (seq 0 (length l)).
Lemma insertion_sorts : sorts insertion_argsort.
Proof.
  intros l. unfold insertion_argsort. generalize (seq 0 (length l)) as ks. induction ks as [|k ks [P So]].
  - split; [constructor|constructor].
  - cbn [fold_right]. set (s := fold_right (insert_index l) [] ks) in *.
    assert (G : forall s, Permutation (insert_index l k s) (k :: s)).
    { clear. induction s as [|j s IH]; cbn; [reflexivity|]. destruct (Rleb _ _); [reflexivity|]. rewrite IH. apply perm_swap. }
    split; [now rewrite G, P|]. clearbody s. clear P. induction s as [|j s IH]; cbn [insert_index].
    + repeat constructor.
    + cbn in So. pose proof So as So'. apply StronglySorted_inv in So. destruct So as [So Ff]. rewrite Forall_forall in Ff.
      destruct (Rleb (nth k l 0) (nth j l 0)) eqn:T.
      * cbn. constructor; [exact So'|]. apply Rleb_true in T. constructor; [exact T|].
        rewrite Forall_forall. intros x Hx. specialize (Ff x Hx). lra.
      * cbn. constructor; [now apply IH|]. rewrite Forall_forall. intros x Hx. apply in_map_iff in Hx. destruct Hx as (i & <- & Hi).
        apply (Permutation_in _ (G s)) in Hi. destruct Hi as [<-|Hi].
        -- destruct (Rle_dec (nth j l 0) (nth k l 0)) as [H|H]; [exact H|]. assert (nth k l 0 <= nth j l 0) by lra.
           apply Rleb_true in H0. congruence.
        -- apply Ff. now apply (in_map (fun k => nth k l 0)).
Qed.
Example merge_duplicates_ex : sorts insertion_argsort /\ valid ex_mesh /\ m_vertices ex_mesh <> [] /\ all_used ex_mesh.
Proof.
  split; [exact insertion_sorts|]. split; [exact ex_mesh_valid|]. split; [discriminate|].
  intros i Hi. cbn in Hi. destruct (Nat.eq_dec i 4) as [->|H].
  - exists (F 0 3 4 0). cbn. auto.
  - exists (F 0 1 2 3). cbn. split; [auto|lia].
Qed.

(** With a positive tolerance, the remaining vertices may be closer to each other than the tolerance:
    merging again merges more. For every sorting algorithm. *)
Definition chain_mesh : mesh := Mesh [V 0 (1/2) (1/2); V (3/5) 0 0; V (6/5) 0 0] [F 0 1 2 0].
Theorem merge_leaves_close_vertices_refuted :
  forall argsort, sorts argsort ->
  exists m' ids, merge_duplicates argsort 1 chain_mesh = Ok (m', ids)
    /\ m_vertices m' = [V (3/5) 0 0; V (6/5) 0 0] /\ close 1 (V (3/5) 0 0) (V (6/5) 0 0).
Proof.
  intros argsort Hs. unfold merge_duplicates, merge_duplicate_rows, merge_levels, chain_mesh. cbn [m_vertices m_faces length seq].
  set (vs := [_; _; _]).
  assert (C1 : coord vx vs 0 = 0 /\ coord vx vs 1 = 3/5 /\ coord vx vs 2 = 6/5) by (repeat split; reflexivity).
  assert (C2 : coord vy vs 0 = 1/2 /\ coord vy vs 1 = 0) by (repeat split; reflexivity).
  assert (C3 : coord vz vs 0 = 1/2 /\ coord vz vs 1 = 0) by (repeat split; reflexivity).
  destruct C1 as (X0 & X1 & X2), C2 as (Y0 & Y1), C3 as (Z0 & Z1).
  assert (T : forall x, Rabs x <= 1 -> Rltb 1 (Rabs x) = false) by (intros x Hx; now apply Rltb_false).
  assert (R1 : refine argsort 1 (coord vx vs) [[0; 1; 2]%nat] = Ok [[0; 1]; [2]]%nat).
  { unfold refine. cbn [mapM refine_level]. rewrite (sort_level_unique argsort _ _ [0; 1; 2]%nat Hs).
    - cbn [bind split_level app]. rewrite X0, X1, X2.
      rewrite (T (0 - 0)) by (rewrite Rabs_pos_eq; lra). rewrite (T (3/5 - 0)) by (rewrite Rabs_pos_eq; lra).
      replace (Rltb 1 (Rabs (6/5 - 0))) with true; [reflexivity|]. symmetry. apply Rltb_true. rewrite Rabs_pos_eq; lra.
    - intros i j [<-|[<-|[<-|[]]]] [<-|[<-|[<-|[]]]] E; try reflexivity; exfalso; rewrite ?X0, ?X1, ?X2 in E; lra.
    - reflexivity.
    - repeat constructor; unfold by_val; rewrite ?X0, ?X1, ?X2; lra. }
  assert (R2 : forall val, val 0%nat = 1/2 -> val 1%nat = 0 -> forall l, Permutation l [1; 0]%nat -> (2 <= length l)%nat ->
     refine argsort 1 val [l; [2]]%nat = Ok [[1; 0]; [2]]%nat).
  { intros val E0 E1 l P L. destruct l as [|a [|b l]]; [cbn in L; lia|cbn in L; lia|]. unfold refine. cbn [mapM refine_level].
    rewrite (sort_level_unique argsort _ _ [1; 0]%nat Hs).
    - cbn [bind split_level app]. rewrite E0, E1.
      rewrite (T (0 - 0)) by (rewrite Rabs_pos_eq; lra). rewrite (T (1/2 - 0)) by (rewrite Rabs_pos_eq; lra). reflexivity.
    - intros i j Hi Hj E. apply (Permutation_in _ P) in Hi. apply (Permutation_in _ P) in Hj.
      destruct Hi as [<-|[<-|[]]], Hj as [<-|[<-|[]]]; try reflexivity; exfalso; rewrite ?E0, ?E1 in E; lra.
    - now symmetry.
    - repeat constructor; unfold by_val; rewrite ?E0, ?E1; lra. }
  rewrite R1. cbn [bind]. rewrite (R2 _ Y0 Y1) by (cbn; auto; apply perm_swap). cbn [bind].
  rewrite (R2 _ Z0 Z1) by (cbn; auto). do 2 eexists. split; [reflexivity|]. split; [reflexivity|].
  unfold close. cbn [vx vy vz]. rewrite Rabs_left, Rabs_pos_eq by lra. lra.
Qed.
Print Assumptions merge_leaves_close_vertices_refuted.

(** A mesh without vertices cannot be merged. *)
Theorem merge_empty_mesh_refuted :
  forall argsort atol, merge_duplicates argsort atol (Mesh [] []) = Err IndexError.
Proof. reflexivity. Qed.
Print Assumptions merge_empty_mesh_refuted.

(** C29. The loops end, the check never fails, and the components share out the faces of the mesh: two
    faces are in the same component exactly when a chain of faces, each one sharing a vertex with the next one,
    links them. *)
Theorem components_partition_faces :
  forall m, valid m -> exists parts ids, connected_components m = Some (Ok parts)
  /\ length parts = length ids
  /\ (forall k l, nth_error ids k = Some l -> l <> [] /\ exists p, nth_error parts k = Some p /\ selects m l p)
  /\ Permutation (concat ids) (seq 0 (nb_faces m))
  /\ (forall i j, (i < nb_faces m)%nat -> (j < nb_faces m)%nat ->
        (exists l, In l ids /\ In i l /\ In j l) <-> connected (m_faces m) i j).
Proof. exact components_ok. Qed.
Print Assumptions components_partition_faces.
Definition two_triangles : mesh :=
  Mesh [V 0 0 0; V 1 0 0; V 0 1 0; V 5 0 0; V 6 0 0; V 5 1 0] [F 0 1 2 0; F 3 4 5 3; F 0 1 2 0].
Example components_ex : valid two_triangles /\ ~ connected (m_faces two_triangles) 0 1
  /\ exists p q, connected_components two_triangles = Some (Ok [p; q]) /\ nb_faces p = 2%nat /\ nb_faces q = 1%nat.
Proof.
  assert (Vm : valid two_triangles).
  { intros f i Hf Hi. cbn in *. repeat match goal with H : _ \/ _ |- _ => destruct H as [H|H] end; subst; cbn in *;
      repeat match goal with H : _ \/ _ |- _ => destruct H as [H|H] end; lia. }
  split; [exact Vm|]. split.
  - intros H. apply (connected_chain _ 0 1 (F 0 1 2 0) (F 3 4 5 3)) in H; [|reflexivity|reflexivity].
    assert (G : forall f h, chain (m_faces two_triangles) f h -> f = F 0 1 2 0 -> h = F 0 1 2 0).
    { induction 1 as [f Hf|f h k C IH Hk (v & A & B)]; [auto|]. intros E. specialize (IH E). subst h.
      cbn in Hk, A. destruct Hk as [<-|[<-|[<-|[]]]]; auto. exfalso. cbn in B. lia. }
    specialize (G _ _ H eq_refl). discriminate.
  - do 2 eexists. split; [reflexivity|]. split; reflexivity.
Qed.
