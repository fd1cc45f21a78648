(** Arrays of bodies. *)
From Coq Require Import Reals String Ascii List Bool Arith ZArith Lra Lia DecimalString DecimalNat.
From Verif Require Import Model_Base Model_Geometry Model_Mesh Spec_Mesh Model_Quality Spec_Quality Model_Tree Spec_Tree
  Proofs_Geometry Proofs_Mesh Proofs_Mesh2 Proofs_Mesh3 Proofs_Quality Proofs_Tree Proofs_Tree2 Proofs_Symmetry
  Spec_Clip Proofs_Clip4 Proofs_Clip5 Proofs_Clip6 Model_Integrals Spec_Integrals Proofs_Integrals Proofs_Integrals2
  Model_Body Spec_Body Proofs_Body Proofs_Body2 Proofs_Body3 Proofs_Body4.
Import ListNotations.
Open Scope R_scope.

(** ** The names of the copies *)
Fixpoint no_underscore (s : string) : Prop :=
  match s with EmptyString => True | String c s' => c <> "_"%char /\ no_underscore s' end.
Lemma uint_no_underscore u : no_underscore (NilEmpty.string_of_uint u).
Proof. induction u; cbn; auto; (split; [discriminate|exact IHu]). Qed.
Lemma str_nat_clean n : no_underscore (str_nat n).
Proof. unfold str_nat, NilZero.string_of_uint. destruct (Nat.to_uint n) eqn:E; [cbn; split; [discriminate|exact I]|rewrite <- E; apply uint_no_underscore..]. Qed.
Lemma to_uint_nonnil n : Nat.to_uint n <> Decimal.Nil.
Proof. intros E. pose proof (Unsigned.of_to n) as H. rewrite E in H. cbn in H. subst n. discriminate. Qed.
Lemma str_nat_inj n m : str_nat n = str_nat m -> n = m.
Proof.
  unfold str_nat. intros H. apply (f_equal NilZero.uint_of_string) in H. rewrite !NilZero.usu in H by apply to_uint_nonnil.
  injection H as H. now apply Unsigned.to_uint_inj.
Qed.
Lemma split_underscore s : forall s' t t', no_underscore s -> no_underscore s' -> (s ++ "_" ++ t = s' ++ "_" ++ t')%string -> s = s' /\ t = t'.
Proof.
  induction s as [|c s IH]; intros [|c' s'] t t' N N' E; cbn in E.
  - injection E as ->. auto.
  - injection E as <- _. exfalso. now apply N'.
  - injection E as -> _. exfalso. now apply N.
  - injection E as -> E. destruct N as [_ N], N' as [_ N']. destruct (IH s' t t' N N' E) as [-> ->]. auto.
Qed.
Definition copy_name (ij : nat * nat) : string := (str_nat (fst ij) ++ "_" ++ str_nat (snd ij))%string.
Lemma copy_names ij ij' n n' : (copy_name ij ++ "__" ++ n = copy_name ij' ++ "__" ++ n')%string -> ij = ij' /\ n = n'.
Proof.
  unfold copy_name. intros E. change ("__" ++ n)%string with ("_" ++ "_" ++ n)%string in E. change ("__" ++ n')%string with ("_" ++ "_" ++ n')%string in E.
  rewrite !append_assoc in E. apply split_underscore in E; try apply str_nat_clean. destruct E as [E1 E].
  apply split_underscore in E; try apply str_nat_clean. destruct E as [E2 E]. injection E as ->. apply str_nat_inj in E1, E2.
  destruct ij, ij'. cbn in *. subst. auto.
Qed.

(** ** The indices of the copies *)
Lemma NoDup_app_intro {A} (l l' : list A) : NoDup l -> NoDup l' -> (forall x, In x l -> ~ In x l') -> NoDup (l ++ l').
Proof.
  intros N N' H. induction l as [|a l IH]; [exact N'|]. apply NoDup_cons_iff in N. destruct N as [Na N]. cbn. constructor.
  - rewrite in_app_iff. intros [X|X]; [contradiction|]. exact (H a (or_introl eq_refl) X).
  - apply IH; [exact N|]. intros x Hx. apply H. now right.
Qed.
Lemma nth_error_seq : forall n s k, (k < n)%nat -> nth_error (seq s n) k = Some (s + k)%nat.
Proof. induction n as [|n IH]; intros s [|k] H; try lia; cbn; [f_equal; lia|]. rewrite IH by lia. f_equal. lia. Qed.
Lemma indices_length nx ny : length (array_indices (Z.of_nat nx) (Z.of_nat ny)) = (nx * ny)%nat.
Proof.
  unfold array_indices, zrange. rewrite !Nat2Z.id. rewrite Nat.mul_comm. rewrite <- (seq_length ny 0) at 2. induction (seq 0 ny) as [|j l IH]; [reflexivity|].
  cbn [map concat length]. rewrite app_length, map_length, seq_length, IH. reflexivity.
Qed.
Lemma indices_from nx : forall ny j0 i j, (i < nx)%nat -> (j < ny)%nat ->
  nth_error (concat (map (fun j => map (fun i => (i, j)) (seq 0 nx)) (seq j0 ny))) (j * nx + i) = Some (i, j0 + j)%nat.
Proof.
  induction ny as [|ny IH]; intros j0 i j Hi Hj; [lia|]. cbn [seq map concat]. destruct j as [|j].
  - rewrite nth_error_app1 by (rewrite map_length, seq_length; lia). cbn [Nat.mul Nat.add]. rewrite nth_error_map, nth_error_seq by lia. cbn. do 2 f_equal. lia.
  - rewrite nth_error_app2 by (rewrite map_length, seq_length; lia). rewrite map_length, seq_length.
    replace (S j * nx + i - nx)%nat with (j * nx + i)%nat by lia. rewrite IH by lia. do 2 f_equal. lia.
Qed.
Lemma indices_nth nx ny i j : (i < nx)%nat -> (j < ny)%nat -> nth_error (array_indices (Z.of_nat nx) (Z.of_nat ny)) (j * nx + i) = Some (i, j).
Proof. intros Hi Hj. unfold array_indices, zrange. rewrite !Nat2Z.id. exact (indices_from nx ny 0 i j Hi Hj). Qed.
Lemma indices_nodup nx ny : NoDup (array_indices (Z.of_nat nx) (Z.of_nat ny)).
Proof.
  unfold array_indices, zrange. rewrite !Nat2Z.id. generalize (seq_NoDup ny 0). induction (seq 0 ny) as [|j l IH]; intros N; [constructor|].
  apply NoDup_cons_iff in N. destruct N as [Nj N]. cbn [map concat]. apply NoDup_app_intro.
  - apply FinFun.Injective_map_NoDup; [|apply seq_NoDup]. intros a b H. now injection H.
  - auto.
  - intros x Hx Hy. apply in_map_iff in Hx. destruct Hx as (i & <- & _). apply in_concat in Hy. destruct Hy as (r & Hr & Hy). apply in_map_iff in Hr.
    destruct Hr as (j' & <- & Hj'). apply in_map_iff in Hy. destruct Hy as (i' & E & _). injection E as _ ->. contradiction.
Qed.

(** ** Translations of tidy bodies *)
Lemma tri_area_translate v a b c : tri_area (vadd a v) (vadd b v) (vadd c v) = tri_area a b c.
Proof. unfold tri_area. do 2 f_equal. f_equal; vring. Qed.
Lemma well_sized_translate v A q : well_sized A q -> well_sized A (move_polygon v q).
Proof.
  destruct q as [[[a b] c] d]. cbn [move_polygon]. unfold well_sized. rewrite !tri_area_translate.
  replace (area_vector (vadd a v) (vadd b v) (vadd c v) (vadd d v)) with (area_vector a b c d); [auto|]. unfold area_vector. vring.
Qed.
Lemma translated_face_inv m v k a b c d : face_is (translate m v) k a b c d -> face_is m k (vsub a v) (vsub b v) (vsub c v) (vsub d v).
Proof.
  intros H. pose proof (transformed_face_is (fun p => vsub p v) _ k a b c d H) as H'. cbn in H'. rewrite map_map in H'.
  rewrite (map_ext _ (fun x => x)) in H' by (intros; vring). rewrite map_id in H'. destruct m. exact H'.
Qed.
Lemma tidy_translate m v : tidy m -> tidy (translate m v).
Proof.
  intros (Vm & Au & Ne & Sp & Nd & A & Sz). split; [now apply transformed_valid|]. split.
  { intros i Hi. cbn in Hi. rewrite map_length in Hi. exact (Au i Hi). }
  split; [exact Ne|]. split.
  { intros i j x y Hx Hy N. cbn in Hx, Hy. rewrite nth_error_map in Hx, Hy. destruct (nth_error (m_vertices m) i) as [x0|] eqn:E1; [|discriminate].
    destruct (nth_error (m_vertices m) j) as [y0|] eqn:E2; [|discriminate]. cbn in Hx, Hy. injection Hx as <-. injection Hy as <-.
    apply (Sp i j x0 y0 E1 E2). unfold near in *. destruct x0 as [a1 a2 a3], y0 as [b1 b2 b3]. cbn in *. 
    replace (a1 + vx v - (b1 + vx v)) with (a1 - b1) in N by ring. replace (a2 + vy v - (b2 + vy v)) with (a2 - b2) in N by ring.
    replace (a3 + vz v - (b3 + vz v)) with (a3 - b3) in N by ring. exact N. }
  split; [exact Nd|]. exists A. intros k a b c d H. apply translated_face_inv in H. apply Sz in H.
  apply (well_sized_translate v) in H. cbn [move_polygon] in H.
  replace a with (vadd (vsub a v) v) by vring. replace b with (vadd (vsub b v) v) by vring. replace c with (vadd (vsub c v) v) by vring.
  replace d with (vadd (vsub d v) v) by vring. exact H.
Qed.
Lemma tidy_tree_translate t v : tidy_tree t -> tidy_tree (t_translate t v).
Proof.
  intros [F T]. split; [now apply filled_translate|]. intros m Hm. rewrite leaves_translate in Hm. apply in_map_iff in Hm.
  destruct Hm as (m0 & <- & Hm). apply tidy_translate. now apply T.
Qed.
Lemma faces_translate t v : t_nb_faces (t_translate t v) = t_nb_faces t.
Proof.
  rewrite !nb_faces_leaves, leaves_translate. induction (leaves t) as [|m l IH]; [reflexivity|]. cbn [map]. rewrite !total_faces_cons, IH. reflexivity.
Qed.
Definition moved_copy (b : fbody) (n : string) (v : vec) : fbody := fb_translate (set_name b n) v.
Lemma translated_ok b v n : joinable b -> fb_translated b v (Some n) = Ok (moved_copy b n v).
Proof.
  intros (S & T & W & L & _ & _). unfold fb_translated, fb_copy, fb_check.
  assert (E : forallb (fun d => Nat.eqb (length (snd d)) (fb_nb_faces b)) (fb_dofs b) = true).
  { apply forallb_forall. intros [k r] H. apply Nat.eqb_eq. exact (W k r H). }
  rewrite E. cbn [bind]. rewrite (copy_ok _ S). cbn [bind]. unfold moved_copy, fb_translate, set_name. cbn [fb_lid].
  destruct (fb_lid b) as [l|] eqn:El; [|reflexivity]. unfold option_bind. rewrite (copy_ok l) by (now apply (L l)). reflexivity.
Qed.
Lemma moved_joinable b n v : joinable b -> movable b v -> joinable (moved_copy b n v).
Proof.
  intros (S & T & W & L & Q1 & Q2) [M1 M2]. split; [exact M1|]. split; [now apply tidy_tree_translate|]. split.
  { intros k r H. unfold fb_nb_faces. cbn [moved_copy fb_translate fb_mesh]. rewrite faces_translate. exact (W k r H). }
  split; [|split; [exact Q1|exact Q2]].
  intros l E. cbn [moved_copy fb_translate fb_lid set_name] in E. destruct (fb_lid b) as [l0|] eqn:El; [|discriminate]. cbn in E. injection E as <-.
  destruct (L l0 eq_refl) as (_ & Av & Pos). split; [now apply M2|]. split; [|now rewrite faces_translate].
  intros m Hm. rewrite leaves_translate in Hm. apply in_map_iff in Hm. destruct Hm as (m0 & <- & Hm). apply transformed_valid. now apply Av.
Qed.

(** ** Regular arrays *)
Section Arrays.
  Variable argsort : list R -> list nat.
  Hypothesis Hs : sorts argsort.
  Variable heal_normals : mesh -> result mesh.
  Definition array_shift (d : R) (ij : nat * nat) : vec := V (INR (fst ij) * d) (INR (snd ij) * d) 0.
  Definition array_copies (b : fbody) (d : R) (ids : list (nat * nat)) : list fbody :=
    map (fun ij => moved_copy b (copy_name ij) (array_shift d ij)) ids.
  Lemma copies_faces b d ids : map fb_nb_faces (array_copies b d ids) = repeat (fb_nb_faces b) (length ids).
  Proof. induction ids as [|ij ids IH]; [reflexivity|]. cbn. f_equal; [|exact IH]. unfold fb_nb_faces. cbn. apply faces_translate. Qed.
  Lemma sum_repeat n k : list_sum (repeat n k) = (k * n)%nat.
  Proof. induction k as [|k IH]; [reflexivity|]. cbn [repeat]. change (list_sum (n :: repeat n k)) with (n + list_sum (repeat n k))%nat. rewrite IH. lia. Qed.
  Lemma firstn_repeat {A} (x : A) n k : (k <= n)%nat -> firstn k (repeat x n) = repeat x k.
  Proof. revert k. induction n as [|n IH]; intros [|k] H; try lia; [reflexivity..|]. cbn. f_equal. apply IH. lia. Qed.
  Lemma copies_previous b d ids k : (k <= length ids)%nat -> faces_of_previous (array_copies b d ids) k = (k * fb_nb_faces b)%nat.
  Proof. intros H. unfold faces_of_previous. rewrite <- firstn_map, copies_faces, firstn_repeat by exact H. apply sum_repeat. Qed.
  Lemma copies_names b d ids : (forall n r, In (n, r) (fb_dofs b) -> has_dunder n = false) ->
    names_in_assembly (array_copies b d ids) = concat (map (fun ij => map (fun x => (copy_name ij ++ "__" ++ fst x)%string) (fb_dofs b)) ids).
  Proof.
    intros N. unfold names_in_assembly, array_copies. rewrite map_map. f_equal. apply map_ext. intros ij. apply map_ext_in. intros [n r] H.
    unfold name_in_assembly. cbn [fst]. rewrite (N n r H). reflexivity.
  Qed.
  Lemma copies_nodup b ids : NoDup (map fst (fb_dofs b)) -> NoDup ids ->
    NoDup (concat (map (fun ij => map (fun x => (copy_name ij ++ "__" ++ fst x)%string) (fb_dofs b)) ids)).
  Proof.
    intros N M. induction ids as [|ij ids IH]; [constructor|]. apply NoDup_cons_iff in M. destruct M as [Mi M]. cbn [map concat]. apply NoDup_app_intro.
    - rewrite <- (map_map fst (fun n => (copy_name ij ++ "__" ++ n)%string)). apply FinFun.Injective_map_NoDup; [|exact N].
      intros x y E. now apply copy_names in E.
    - auto.
    - intros s H1 H2. apply in_map_iff in H1. destruct H1 as (x & <- & _). apply in_concat in H2. destruct H2 as (r & Hr & H2).
      apply in_map_iff in Hr. destruct Hr as (ij' & <- & Hij). apply in_map_iff in H2. destruct H2 as (y & E & _). apply copy_names in E. destruct E as [-> _]. contradiction.
  Qed.
  Lemma mass_repeat m ids : Rsum (map (fun _ : nat * nat => m) ids) = INR (length ids) * m.
  Proof. induction ids as [|i ids IH]; [cbn; ring|]. cbn [map length]. rewrite Rsum_cons, IH, S_INR. ring. Qed.
  Lemma all_set_map {A B} (f : A -> option B) (g : nat * nat -> A) y ids : (forall x, f (g x) = Some y) -> all_set f (map g ids) = Some (map (fun _ => y) ids).
  Proof. intros H. induction ids as [|i ids IH]; [reflexivity|]. cbn. now rewrite H, IH. Qed.
  Lemma copies_mass b d ids : (forall m, fb_mass b = Some m -> m <> 0) -> (0 < length ids)%nat ->
    forall ms, all_set fb_mass (array_copies b d ids) = Some ms -> Rsum ms <> 0.
  Proof.
    intros H L ms E. destruct (fb_mass b) as [m|] eqn:Em.
    - unfold array_copies in E. rewrite (all_set_map _ _ m) in E by (intros; exact Em). assert (ms = map (fun _ => m) ids) as -> by congruence.
      rewrite mass_repeat. apply Rmult_integral_contrapositive_currified; [apply not_0_INR; lia|now apply H].
    - destruct ids as [|i ids]; [cbn in L; lia|]. cbn in E. rewrite Em in E. discriminate.
  Qed.
  Lemma moved_polygons t v qs : tree_polygons t qs -> tree_polygons (t_translate t v) (map (move_polygon v) qs).
  Proof.
    apply (polygons_leaves (fun m => translate m v) t (t_translate t v) qs (leaves_translate t v)). intros m q H.
    exact (leaf_polygons (fun x => vadd x v) m q H).
  Qed.
  Lemma concat_nth {A} n : forall (ls : list (list A)) k i l, (forall l, In l ls -> length l = n) -> nth_error ls k = Some l -> (i < n)%nat ->
    nth_error (concat ls) (k * n + i) = nth_error l i.
  Proof.
    induction ls as [|l0 ls IH]; intros k i l H E Hi; [now destruct k|]. cbn [concat]. pose proof (H l0 (or_introl eq_refl)) as L0.
    destruct k as [|k]; cbn in E.
    - injection E as ->. apply nth_error_app1. lia.
    - rewrite nth_error_app2 by lia. replace (S k * n + i - length l0)%nat with (k * n + i)%nat by lia. apply IH; [|exact E|exact Hi].
      intros l' Hl'. apply H. now right.
  Qed.
  Lemma concat_length' {A} n : forall ls : list (list A), (forall l, In l ls -> length l = n) -> length (concat ls) = (length ls * n)%nat.
  Proof. induction ls as [|l ls IH]; intros H; [reflexivity|]. cbn [concat length]. rewrite app_length, IH, (H l (or_introl eq_refl)); [lia|]. intros; apply H; now right. Qed.
  Lemma leaves_array base d nx ny :
    concat (map (fun j => concat (map (fun i => leaves (t_translate base (V (INR i * d) (INR j * d) 0))) (seq 0 nx))) (seq 0 ny))
    = concat (map (fun ij => leaves (t_translate base (array_shift d ij))) (array_indices (Z.of_nat nx) (Z.of_nat ny))).
  Proof.
    unfold array_indices, zrange. rewrite !Nat2Z.id. induction (seq 0 ny) as [|j l IH]; [reflexivity|]. cbn [map concat]. rewrite map_app, List.concat_app, IH, map_map.
    reflexivity.
  Qed.

  Lemma array_ok b d nx ny : joinable b -> (1 <= nx)%nat -> (1 <= ny)%nat ->
    (forall i j, (i < nx)%nat -> (j < ny)%nat -> movable b (V (INR i * d) (INR j * d) 0)) ->
    NoDup (map fst (fb_dofs b)) -> (forall n r, In (n, r) (fb_dofs b) -> has_dunder n = false) -> (forall m, fb_mass b = Some m -> m <> 0) ->
    let nf := fb_nb_faces b in
    exists a, assemble_regular_array argsort heal_normals b d (Z.of_nat nx) (Z.of_nat ny) = Ok a
    /\ fb_name a = ("array_of_" ++ fb_name b)%string
    /\ map fst (fb_dofs a) = concat (map (fun j => concat (map (fun i => map (fun x => (str_nat i ++ "_" ++ str_nat j ++ "__" ++ fst x)%string) (fb_dofs b)) (seq 0 nx))) (seq 0 ny))
    /\ (forall i j name rows, (i < nx)%nat -> (j < ny)%nat -> In (name, rows) (fb_dofs b) ->
        exists rows', In ((str_nat i ++ "_" ++ str_nat j ++ "__" ++ name)%string, rows') (fb_dofs a) /\ length rows' = (nx * ny * nf)%nat
        /\ (forall k, (k < nf)%nat -> nth_error rows' ((j * nx + i) * nf + k) = nth_error rows k)
        /\ (forall k, (k < nx * ny * nf)%nat -> (k < (j * nx + i) * nf \/ (j * nx + i + 1) * nf <= k)%nat -> nth_error rows' k = Some (V 0 0 0)))
    /\ (forall qs, tree_polygons (fb_mesh b) qs -> exists qs', tree_polygons (fb_mesh a) qs' /\ length qs' = (nx * ny * nf)%nat
        /\ forall i j k q, (i < nx)%nat -> (j < ny)%nat -> nth_error qs k = Some q ->
           nth_error qs' ((j * nx + i) * nf + k) = Some (move_polygon (V (INR i * d) (INR j * d) 0) q)).
  Proof.
    intros J Hx Hy Mv Nd Du Ms nf. set (ids := array_indices (Z.of_nat nx) (Z.of_nat ny)).
    assert (Li : length ids = (nx * ny)%nat) by apply indices_length.
    assert (Ei : mapM (fun ij => fb_translated b (V (INR (fst ij) * d) (INR (snd ij) * d) 0) (Some (str_nat (fst ij) ++ "_" ++ str_nat (snd ij))%string)) ids
                 = Ok (array_copies b d ids)).
    { unfold array_copies. clear - J. induction ids as [|ij ids IH]; [reflexivity|]. cbn [mapM map]. rewrite (translated_ok b _ _ J). cbn [bind]. rewrite IH. reflexivity. }
    assert (In_ids : forall ij, In ij ids -> (fst ij < nx)%nat /\ (snd ij < ny)%nat).
    { intros ij H. unfold ids, array_indices, zrange in H. rewrite !Nat2Z.id in H. apply in_concat in H. destruct H as (l & Hl & H). apply in_map_iff in Hl.
      destruct Hl as (j & <- & Hj). apply in_map_iff in H. destruct H as (i & <- & Hi'). apply in_seq in Hj, Hi'. cbn. lia. }
    assert (Jc : forall x, In x (array_copies b d ids) -> joinable x).
    { intros x H. apply in_map_iff in H. destruct H as (ij & <- & Hij). destruct (In_ids ij Hij). apply moved_joinable; [exact J|]. now apply Mv. }
    assert (Ne : array_copies b d ids <> []).
    { intros E. apply (f_equal (@length fbody)) in E. unfold array_copies in E. rewrite map_length, Li in E. cbn in E. nia. }
    assert (Na : NoDup (names_in_assembly (array_copies b d ids))).
    { rewrite copies_names by exact Du. apply copies_nodup; [exact Nd|apply indices_nodup]. }
    destruct (join_ok argsort Hs heal_normals (array_copies b d ids) None Ne Jc Na) as (t0 & lid & Ej & _).
    { apply copies_mass; [exact Ms|]. rewrite Li. nia. }
    destruct (regular_array_spec (fb_mesh b) d nx ny (proj1 J) Hx Hy) as (t & Et & _ & Lt).
    eexists. split; [unfold assemble_regular_array; fold ids; rewrite Ei; cbn [bind]; rewrite Ej; cbn [bind]; rewrite Et; cbn [bind]; reflexivity|].
    cbn [set_name set_mesh fb_name fb_dofs fb_mesh]. split; [reflexivity|]. split; [|split].
    - rewrite flat_names, copies_names by exact Du. unfold ids, array_indices, zrange. rewrite !Nat2Z.id. clear.
      induction (seq 0 ny) as [|j l IH]; [reflexivity|]. cbn [map concat]. rewrite map_app, List.concat_app, IH. f_equal. rewrite map_map. f_equal. apply map_ext. intros i.
      apply map_ext. intros x. unfold copy_name. cbn [fst snd]. now rewrite !append_assoc.
    - intros i j name rows Hi Hj Hr. pose proof (indices_nth nx ny i j Hi Hj) as Hk. fold ids in Hk.
      assert (Hb : nth_error (array_copies b d ids) (j * nx + i) = Some (moved_copy b (copy_name (i, j)) (array_shift d (i, j)))).
      { unfold array_copies. now rewrite nth_error_map, Hk. }
      destruct (flat_assembled (array_copies b d ids) (fun x H => proj1 (proj2 (proj2 (Jc x H))))) as [_ Fa].
      destruct (Fa _ _ name rows Hb Hr) as (rows' & Hin & Hl & Hin1 & Hout).
      assert (Lk : (j * nx + i <= length ids)%nat) by (apply Nat.lt_le_incl, nth_error_Some; congruence).
      rewrite copies_previous in Hin1, Hout by exact Lk. rewrite copies_faces, sum_repeat, Li in Hl, Hout.
      unfold fb_nb_faces at 1 in Hin1. unfold fb_nb_faces at 4 in Hout. cbn [moved_copy fb_translate fb_mesh set_name] in Hin1, Hout. rewrite faces_translate in Hin1, Hout.
      exists rows'. split.
      { unfold name_in_assembly in Hin. rewrite (Du name rows Hr) in Hin. cbn [moved_copy fb_translate set_name fb_name] in Hin. unfold copy_name in Hin.
        cbn [fst snd] in Hin. rewrite !append_assoc in Hin. rewrite copies_faces, sum_repeat in Hin. rewrite copies_faces, sum_repeat. exact Hin. }
      split; [exact Hl|]. split; [exact Hin1|]. intros k H1 H2. apply Hout; [exact H1|]. fold (fb_nb_faces b). fold nf. lia.
    - intros qs P. exists (concat (map (fun ij => map (move_polygon (array_shift d ij)) qs) ids)).
      pose proof (polygons_total qs _ P) as Lq.
      assert (Lr : forall l, In l (map (fun ij => map (move_polygon (array_shift d ij)) qs) ids) -> length l = nf).
      { intros l Hl. apply in_map_iff in Hl. destruct Hl as (ij & <- & _). now rewrite map_length. }
      split; [|split].
      + unfold tree_polygons. rewrite Lt, leaves_array. fold ids. clear - P. induction ids as [|ij ids IH].
        * exists []. split; [constructor|reflexivity].
        * destruct IH as (qss & F & E). destruct (moved_polygons _ (array_shift d ij) _ P) as (q1 & F1 & E1). exists (q1 ++ qss). split.
          -- cbn [map concat]. now apply Forall2_app.
          -- cbn [map concat]. now rewrite List.concat_app, E, E1.
      + rewrite (concat_length' nf) by exact Lr. rewrite map_length, Li. reflexivity.
      + intros i j k q Hi Hj Hq. pose proof (indices_nth nx ny i j Hi Hj) as Hk. fold ids in Hk.
        rewrite (concat_nth nf _ _ _ (map (move_polygon (array_shift d (i, j))) qs)); [now rewrite nth_error_map, Hq|exact Lr|now rewrite nth_error_map, Hk|].
        assert (Lq' : length qs = nf) by exact Lq. rewrite <- Lq'. apply nth_error_Some. congruence.
  Qed.
End Arrays.
