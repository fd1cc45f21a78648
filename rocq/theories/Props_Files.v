(** Properties C40 and C41: writing meshes in files and loading them back. *)
From Coq Require Import Reals String Ascii.
From Coq Require Import List Bool ZArith Arith Lia Lra.
From Verif Require Import Model_Base Model_Geometry Model_Mesh Model_Tree Model_Text Model_Files Spec_Files Spec_RoundTrip
  Proofs_Problem Proofs_Geometry Proofs_Text Proofs_Files Proofs_Files2 Proofs_Files3 Proofs_Files4 Proofs_Files5.
Import ListNotations.
Open Scope Z_scope.

Lemma plain_one_line date : plain_date date -> one_line date.
Proof.
  intros H. apply Forall_forall. intros c I. unfold is_char. apply Nat.eqb_neq. intros E. apply H.
  replace newline with c; [assumption|]. unfold newline. rewrite <- E. symmetry. apply ascii_nat_embedding.
Qed.

Lemma reflection_leaf m p : vz (pl_normal p) = 0%R -> ReflectionSymmetricMesh (Leaf m) p = Ok (Node (Reflection p) [Leaf m; Leaf (mirror m p)]).
Proof. intros H. unfold ReflectionSymmetricMesh, make_reflection. rewrite H, Reqb_refl. reflexivity. Qed.

(** C40 for the format NEM: every mesh. *)
Theorem nem_files date m : valid m -> round_trips date NEM m (same_mesh six_decimals).
Proof. intros V. destruct (nem_round_trip m V) as (m' & E & S). exists (write_NEM m), m'. cbn [write_mesh fst load_mesh]. rewrite E. auto. Qed.
(** C40 for the format HST: every mesh that is not huge. *)
Theorem hst_files date m : valid m -> Z.of_nat (nb_vertices m) < 10 ^ 9 -> coordinates_are float_range m ->
  round_trips date HST m (same_mesh seven_digits).
Proof. intros V N C. destruct (hst_round_trip m V N C) as (m' & E & S). exists (write_HST m), m'. cbn [write_mesh fst load_mesh]. rewrite E. auto. Qed.
(** C40 for the format MAR. Missing: the meshes without faces, and large coordinates. *)
Theorem mar_files_partial date m : valid m -> Z.of_nat (nb_vertices m) < 10 ^ 9 -> m_faces m <> [] -> coordinates_are (at_most 9999999) m ->
  round_trips date MAR m (same_mesh six_decimals).
Proof. intros V N F C. destruct (mar_round_trip m V F N C) as (m' & E & S). exists (write_MAR m), m'. cbn [write_mesh fst load_mesh]. rewrite E. auto. Qed.
Theorem mar_files_no_faces_refuted date m : m_faces m = [] -> coordinates_are (at_most 9999999) m -> not_loaded date MAR m IndexError.
Proof. intros F C. exists (write_MAR m). cbn [write_mesh fst load_mesh]. rewrite (mar_no_faces m F C). auto. Qed.
Theorem mar_files_large_coordinate_refuted date m v vs : m_vertices m = v :: vs -> vs <> [] -> m_faces m <> [] ->
  (1000000000 <= Rabs (vx v))%R -> at_most 9999999 (vy v) -> at_most 9999999 (vz v) -> coordinates_are (at_most 9999999) (Mesh vs []) ->
  not_loaded date MAR m ValueError.
Proof. intros E N F X Y Z C. exists (write_MAR m). cbn [write_mesh fst load_mesh]. rewrite (mar_large_coordinate m v vs E N F X Y Z C). auto. Qed.
(** C40 for the format NAT. Missing: less than four faces, and a hundred thousand faces or more. *)
Theorem nat_files_partial date m : valid m -> Z.of_nat (nb_vertices m) < 10 ^ 9 -> coordinates_are float_range m ->
  (3 <= nb_vertices m)%nat -> (4 <= nb_faces m)%nat -> Z.of_nat (nb_faces m) < 10 ^ 5 -> round_trips date NAT m (same_mesh seven_digits).
Proof. intros V N C V3 F4 F5. destruct (nat_round_trip m V V3 F4 F5 N C) as (m' & E & S). exists (write_NAT m), m'. cbn [write_mesh fst load_mesh]. rewrite E. auto. Qed.
Theorem nat_files_few_faces_refuted date m : valid m -> Z.of_nat (nb_vertices m) < 10 ^ 9 -> coordinates_are float_range m ->
  (3 <= nb_vertices m)%nat -> (1 <= nb_faces m < 4)%nat -> not_loaded date NAT m ValueError.
Proof. intros V N C V3 F. exists (write_NAT m). cbn [write_mesh fst load_mesh]. rewrite (nat_few_faces m V V3 F N C). auto. Qed.
Theorem nat_files_many_faces_refuted date m : 10 ^ 5 <= Z.of_nat (nb_faces m) -> not_loaded date NAT m ValueError.
Proof. intros F. exists (write_NAT m). cbn [write_mesh fst load_mesh]. rewrite (nat_many_faces m F). auto. Qed.
(** C40 for the format PNL. Missing: a single vertex, and large coordinates. *)
Theorem pnl_files_partial date m : valid m -> Z.of_nat (nb_vertices m) < 10 ^ 9 -> nb_vertices m <> 1%nat -> coordinates_are (at_most 999999999) m ->
  round_trips date PNL m (same_mesh six_decimals).
Proof. intros V N N1 C. destruct (pnl_round_trip m V N1 N C) as (m' & E & S). exists (write_PNL m), m'. cbn [write_mesh fst load_mesh]. rewrite E. auto. Qed.
Theorem pnl_files_single_vertex_refuted date m : valid m -> nb_vertices m = 1%nat -> coordinates_are (at_most 999999999) m -> not_loaded date PNL m IndexError.
Proof. intros V N C. exists (write_PNL m). cbn [write_mesh fst load_mesh]. rewrite (pnl_single_vertex m V N C). auto. Qed.
(** C40 for the format GDF, where the corners of each face are written: the same polygons are found, with shared vertices. Missing: less
    than four faces. *)
Theorem gdf_files_partial date m : plain_date date -> valid m -> coordinates_are float_range m -> (4 <= nb_faces m)%nat ->
  round_trips date GDF m (same_merged seven_digits).
Proof.
  intros D V C F. destruct (gdf_round_trip date 100 (981 / 100) 0 0 m V (plain_one_line _ D)) as (t & m' & E & L & S); auto.
  { unfold at_most. rewrite Rabs_right by lra. lra. }
  exists t, m'. cbn [write_mesh fst load_mesh]. rewrite E, L. auto.
Qed.
Theorem gdf_files_few_faces_refuted date m : plain_date date -> valid m -> coordinates_are float_range m -> (nb_faces m < 4)%nat ->
  not_loaded date GDF m ValueError.
Proof.
  intros D V C F. destruct (gdf_few_faces date 100 (981 / 100) 0 0 m V (plain_one_line _ D)) as (t & E & L); auto.
  { unfold at_most. rewrite Rabs_right by lra. lra. }
  exists t. cbn [write_mesh fst load_mesh]. rewrite E, L. auto.
Qed.
(** C40: when the file announces symmetries, the loader builds the symmetric mesh from these polygons. *)
Theorem gdf_symmetric_files_partial date ulen gravity isx isy m : plain_date date -> at_most 9999999 gravity -> isx = 0 \/ isx = 1 -> isy = 0 \/ isy = 1 ->
  valid m -> coordinates_are float_range m -> (4 <= nb_faces m)%nat ->
  exists t m', write_GDF date ulen gravity isx isy m = Ok t /\ same_merged seven_digits m m' /\
  (isx = 0 -> isy = 0 -> load_GDF t = Ok (Leaf m')) /\
  (isx = 1 -> isy = 0 -> load_GDF t = Ok (Node (Reflection yOz_Plane) [Leaf m'; Leaf (mirror m' yOz_Plane)])) /\
  (isx = 0 -> isy = 1 -> load_GDF t = Ok (Node (Reflection xOz_Plane) [Leaf m'; Leaf (mirror m' xOz_Plane)])) /\
  (isx = 1 -> isy = 1 -> load_GDF t = ReflectionSymmetricMesh (Node (Reflection yOz_Plane) [Leaf m'; Leaf (mirror m' yOz_Plane)]) xOz_Plane).
Proof.
  intros D G X Y V C F. destruct (gdf_round_trip date ulen gravity isx isy m V (plain_one_line _ D) G X Y C F) as (t & m' & E & L & S).
  exists t, m'. refine (conj E (conj S _)). rewrite L. refine (conj _ (conj _ (conj _ _))); intros -> ->; unfold gdf_symmetry; cbn [Z.eqb Pos.eqb andb].
  - reflexivity.
  - apply reflection_leaf. reflexivity.
  - apply reflection_leaf. reflexivity.
  - rewrite reflection_leaf by reflexivity. reflexivity.
Qed.

(** C41. Missing: the STL format for a mesh that has a quadrangle. *)
Theorem writing_keeps_mesh_partial date w m : w <> STL \/ (forall f, In f (m_faces m) -> fa f = fd f) -> snd (write_mesh date w m) = m.
Proof.
  intros [H|H]; destruct w; try reflexivity; try contradiction. cbn [write_mesh write_STL snd]. rewrite stl_after_id by exact H. now destruct m.
Qed.
(** C41: every mesh with a quadrangle is modified by its export in STL: half of the quadrangle is lost. *)
Theorem stl_keeps_mesh_refuted date m k a b c d : nth_error (m_faces m) k = Some (F a b c d) -> a <> d ->
  snd (write_mesh date STL m) <> m /\ nth_error (m_faces (snd (write_mesh date STL m))) k = Some (F a c d a).
Proof.
  intros H N. cbn [write_mesh write_STL snd m_faces]. split.
  - intros E. apply (f_equal m_faces) in E. cbn [m_faces] in E. exact (stl_after_changed _ _ (nth_error_In _ _ H) N E).
  - unfold stl_faces_after. rewrite nth_error_map, H. cbn [option_map]. unfold is_quad. cbn [fa fd]. rewrite (proj2 (Nat.eqb_neq _ _) N). reflexivity.
Qed.
(** C41: a second export of the same mesh gives a shorter file. *)
Theorem stl_second_export_refuted date m : valid m -> (exists f, In f (m_faces m) /\ fa f <> fd f) -> exists t t',
  fst (write_mesh date STL m) = Ok t /\ fst (write_mesh date STL (snd (write_mesh date STL m))) = Ok t' /\
  (List.length (readlines t') < List.length (readlines t))%nat.
Proof. exact (stl_second m). Qed.

(** Two triangles, two quadrangles and six vertices. *)
Definition sheet_vertices : list vec := [V 0 0 0; V 1 0 0; V 1 1 0; V 0 1 0; V 2 0 (-1); V 2 1 (-1)].
Definition sheet : mesh := Mesh sheet_vertices [F 0 1 2 3; F 1 4 5 2; F 0 1 2 0; F 1 4 5 5].
Definition flap : mesh := Mesh sheet_vertices [F 0 1 2 3].
Lemma sheet_valid : valid sheet.
Proof. intros f i Hf Hi. cbn in Hf. repeat (destruct Hf as [<-|Hf]; [cbn in Hi; unfold nb_vertices; cbn; lia|]). destruct Hf. Qed.
Lemma flap_valid : valid flap.
Proof. intros f i Hf Hi. cbn in Hf. destruct Hf as [<-|Hf]; [cbn in Hi; unfold nb_vertices; cbn; lia|destruct Hf]. Qed.
Lemma small_range x : x = 0%R \/ (1 <= Rabs x <= 2)%R -> float_range x.
Proof.
  intros [H|H]; [left; assumption|right]. assert (P : (10 <= 10 ^ 400)%R) by (rewrite <- (pow_1 10) at 1; apply Rle_pow; [lra|lia]).
  split; [|lra]. apply Rle_trans with (/ 1)%R; [apply Rinv_le_contravar; lra|lra].
Qed.
Lemma sheet_coordinates (P : R -> Prop) : P 0%R -> P 1%R -> P 2%R -> P (-1)%R -> forall fs, coordinates_are P (Mesh sheet_vertices fs).
Proof. intros P0 P1 P2 Pm fs v H. cbn in H. repeat (destruct H as [<-|H]; [cbn; auto|]). destruct H. Qed.
Lemma sheet_range fs : coordinates_are float_range (Mesh sheet_vertices fs).
Proof.
  apply sheet_coordinates; apply small_range; [auto| | |]; right.
  - rewrite Rabs_right by lra. lra.
  - rewrite Rabs_right by lra. lra.
  - rewrite Rabs_left by lra. lra.
Qed.
Lemma sheet_small b fs : (2 <= b)%R -> coordinates_are (at_most b) (Mesh sheet_vertices fs).
Proof. intros H. apply sheet_coordinates; unfold at_most; unfold Rabs; destruct (Rcase_abs _); lra. Qed.

Example sheet_in_files date : plain_date date ->
  round_trips date NEM sheet (same_mesh six_decimals) /\ round_trips date HST sheet (same_mesh seven_digits) /\
  round_trips date MAR sheet (same_mesh six_decimals) /\ round_trips date NAT sheet (same_mesh seven_digits) /\
  round_trips date PNL sheet (same_mesh six_decimals) /\ round_trips date GDF sheet (same_merged seven_digits).
Proof.
  intros D.
  refine (conj (nem_files date sheet sheet_valid) (conj (hst_files date sheet sheet_valid _ (sheet_range _)) (conj (mar_files_partial date sheet sheet_valid _ _ (sheet_small _ _ _))
    (conj (nat_files_partial date sheet sheet_valid _ (sheet_range _) _ _ _) (conj (pnl_files_partial date sheet sheet_valid _ _ (sheet_small _ _ _)) (gdf_files_partial date sheet D sheet_valid (sheet_range _) _)))))).
  all: try (unfold nb_vertices, nb_faces; cbn; lia). all: try lra. discriminate.
Qed.
Example sheet_with_symmetry : exists t m', write_GDF (lit "today") 100 (981 / 100) 1 0 sheet = Ok t /\ same_merged seven_digits sheet m' /\
  load_GDF t = Ok (Node (Reflection yOz_Plane) [Leaf m'; Leaf (mirror m' yOz_Plane)]).
Proof.
  assert (D : plain_date (lit "today")) by (unfold plain_date; cbn; intuition discriminate).
  assert (G : at_most 9999999 (981 / 100)) by (unfold at_most; rewrite Rabs_right by lra; lra).
  assert (N : (4 <= nb_faces sheet)%nat) by (unfold nb_faces; cbn; lia).
  destruct (gdf_symmetric_files_partial (lit "today") 100 (981 / 100) 1 0 sheet D G (or_intror eq_refl) (or_introl eq_refl) sheet_valid (sheet_range _) N) as (t & m' & E & S & _ & H & _).
  exists t, m'. refine (conj E (conj S _)). exact (H eq_refl eq_refl).
Qed.
Example a_date : plain_date (lit "2025/01/01 00:00"). Proof. unfold plain_date. cbn. intuition discriminate. Qed.
Example flap_not_loaded date : plain_date date -> not_loaded date NAT flap ValueError /\ not_loaded date GDF flap ValueError.
Proof.
  intros D. split.
  - apply nat_files_few_faces_refuted; [apply flap_valid| |apply sheet_range| |]; unfold nb_vertices, nb_faces; cbn; lia.
  - apply gdf_files_few_faces_refuted; [assumption|apply flap_valid|apply sheet_range|unfold nb_faces; cbn; lia].
Qed.
Example many_faces_not_loaded date : not_loaded date NAT (Mesh sheet_vertices (repeat (F 0 1 2 3) (Z.to_nat (10 ^ 5)))) ValueError.
Proof. apply nat_files_many_faces_refuted. unfold nb_faces. cbn [m_faces]. rewrite repeat_length. rewrite Z2Nat.id by lia. lia. Qed.
Example points_not_loaded date : not_loaded date MAR (Mesh sheet_vertices []) IndexError.
Proof. apply mar_files_no_faces_refuted; [reflexivity|apply sheet_small; lra]. Qed.
Example far_not_loaded date : not_loaded date MAR (Mesh [V 1000000000 0 0; V 1 0 0; V 1 1 0] [F 0 1 2 0]) ValueError.
Proof.
  apply (mar_files_large_coordinate_refuted date _ (V 1000000000 0 0) [V 1 0 0; V 1 1 0]); try reflexivity; try discriminate; cbn [vx vy vz].
  - rewrite Rabs_right by lra. lra.
  - unfold at_most. rewrite Rabs_R0. lra.
  - unfold at_most. rewrite Rabs_R0. lra.
  - intros v H. cbn in H. unfold at_most. destruct H as [<-|[<-|[]]]; cbn [vx vy vz]; rewrite ?Rabs_R0, ?Rabs_R1; lra.
Qed.
Example single_vertex_not_loaded date : not_loaded date PNL (Mesh [V 1 0 0] [F 0 0 0 0]) IndexError.
Proof.
  apply pnl_files_single_vertex_refuted; [|reflexivity|].
  - intros f i [<-|[]] Hi. cbn in Hi. unfold nb_vertices. cbn. lia.
  - intros v [<-|[]]. unfold at_most. cbn [vx vy vz]. rewrite Rabs_R0, Rabs_R1. lra.
Qed.
Example sheet_after_stl date : m_faces (snd (write_mesh date STL sheet)) = [F 0 2 3 0; F 1 5 2 1; F 0 1 2 0; F 1 5 5 1] /\
  snd (write_mesh date PNL sheet) = sheet /\ snd (write_mesh date STL (Mesh sheet_vertices [F 0 1 2 0])) = Mesh sheet_vertices [F 0 1 2 0].
Proof. repeat split. Qed.
Example sheet_second_export date : exists t t', fst (write_mesh date STL sheet) = Ok t /\
  fst (write_mesh date STL (snd (write_mesh date STL sheet))) = Ok t' /\ (List.length (readlines t') < List.length (readlines t))%nat.
Proof. apply stl_second_export_refuted; [exact sheet_valid|]. exists (F 0 1 2 3). cbn. split; [auto|discriminate]. Qed.

Print Assumptions nem_files.
Print Assumptions hst_files.
Print Assumptions mar_files_partial.
Print Assumptions mar_files_no_faces_refuted.
Print Assumptions mar_files_large_coordinate_refuted.
Print Assumptions nat_files_partial.
Print Assumptions nat_files_few_faces_refuted.
Print Assumptions nat_files_many_faces_refuted.
Print Assumptions pnl_files_partial.
Print Assumptions pnl_files_single_vertex_refuted.
Print Assumptions gdf_files_partial.
Print Assumptions gdf_files_few_faces_refuted.
Print Assumptions gdf_symmetric_files_partial.
Print Assumptions writing_keeps_mesh_partial.
Print Assumptions stl_keeps_mesh_refuted.
Print Assumptions stl_second_export_refuted.
