(** The format GDF. *)
From Coq Require Import Reals String Ascii.
From Coq Require Import List Bool ZArith Arith Lia Lra.
From Verif Require Import Model_Base Model_Geometry Model_Mesh Model_Tree Model_Text Spec_Files Proofs_Problem Proofs_Geometry Proofs_Mesh Proofs_Text Proofs_Text2 Model_Files Proofs_Files Proofs_Files2 Proofs_Files3 Proofs_Files4.
Import ListNotations.
Open Scope Z_scope.

(** ** The distinct rows, in order *)

Lemma row_eqb_refl r : row_eqb r r = true.
Proof. induction r as [|x r IH]; cbn [row_eqb]; [reflexivity|]. rewrite Reqb_refl, IH. reflexivity. Qed.
Lemma row_eqb_true a : forall b, row_eqb a b = true -> a = b.
Proof.
  induction a as [|x a IH]; intros [|y b]; cbn [row_eqb]; try discriminate; [reflexivity|].
  intros H. apply andb_prop in H. destruct H as [H K]. apply Reqb_true in H. apply IH in K. congruence.
Qed.
Lemma row_ltb_neq a : forall b, row_ltb a b = true -> a <> b.
Proof.
  induction a as [|x a IH]; intros [|y b]; cbn [row_ltb]; try discriminate. intros H E. injection E as -> ->.
  apply orb_prop in H. destruct H as [H|H].
  - apply Rltb_true in H. lra.
  - apply andb_prop in H. destruct H as [_ H]. exact (IH _ H eq_refl).
Qed.
Lemma row_ltb_trans a : forall b c, row_ltb a b = true -> row_ltb b c = true -> row_ltb a c = true.
Proof.
  induction a as [|x a IH]; intros [|y b] [|z c]; cbn [row_ltb]; try discriminate. intros H K.
  apply orb_prop in H. apply orb_prop in K. apply orb_true_iff. destruct H as [H|H], K as [K|K].
  - left. apply Rltb_true in H, K. apply Rltb_true. lra.
  - apply andb_prop in K. destruct K as [K _]. apply Reqb_true in K. subst. left. assumption.
  - apply andb_prop in H. destruct H as [H _]. apply Reqb_true in H. subst. left. assumption.
  - apply andb_prop in H. apply andb_prop in K. destruct H as [H H'], K as [K K']. apply Reqb_true in H, K. subst.
    right. rewrite Reqb_refl. cbn [andb]. eapply IH; eassumption.
Qed.
Lemma row_total a : forall b, length a = length b -> row_eqb a b = false -> row_ltb a b = false -> row_ltb b a = true.
Proof.
  induction a as [|x a IH]; intros [|y b]; cbn [row_ltb row_eqb length]; try discriminate. intros L E H.
  apply orb_false_elim in H. destruct H as [H K]. apply Rltb_false in H. apply orb_true_iff.
  destruct (Reqb_spec x y) as [->|N].
  - right. rewrite Reqb_refl. cbn [andb] in *. apply IH; [lia|assumption|assumption].
  - left. apply Rltb_true. lra.
Qed.

Fixpoint increasing (l : list (list R)) : Prop :=
  match l with [] => True | x :: l' => (forall y, In y l' -> row_ltb x y = true) /\ increasing l' end.
Lemma increasing_NoDup l : increasing l -> NoDup l.
Proof.
  induction l as [|x l IH]; cbn [increasing]; [constructor|]. intros [A B]. constructor; [|auto].
  intros I. exact (row_ltb_neq _ _ (A x I) eq_refl).
Qed.
Lemma in_insert_row r l x : In x (insert_row r l) <-> x = r \/ In x l.
Proof.
  induction l as [|y l IH]; cbn [insert_row].
  - cbn. intuition congruence.
  - destruct (row_eqb r y) eqn:E; [apply row_eqb_true in E; subst; cbn; intuition congruence|].
    destruct (row_ltb r y); cbn [In]; [intuition congruence|]. rewrite IH. intuition congruence.
Qed.
Lemma insert_row_increasing n r l : length r = n -> (forall x, In x l -> length x = n) -> increasing l -> increasing (insert_row r l).
Proof.
  intros R. induction l as [|y l IH]; intros L I; cbn [insert_row].
  - cbn. intuition.
  - destruct (row_eqb r y) eqn:E; [assumption|]. destruct I as [A B]. destruct (row_ltb r y) eqn:K.
    + cbn [increasing]. refine (conj _ (conj A B)). intros z [->|Hz]; [assumption|]. eapply row_ltb_trans; [exact K|auto].
    + cbn [increasing]. split; [|apply IH; [intros; apply L; right; assumption|assumption]].
      intros z Hz. apply in_insert_row in Hz. destruct Hz as [->|Hz]; [|auto].
      apply row_total; [rewrite R; symmetry; apply L; left; reflexivity|assumption|assumption].
Qed.
Lemma in_unique_rows l x : In x (unique_rows l) <-> In x l.
Proof.
  unfold unique_rows. induction l as [|y l IH]; cbn [fold_right]; [reflexivity|]. rewrite in_insert_row, IH. cbn. intuition congruence.
Qed.
Lemma unique_rows_increasing n l : (forall x, In x l -> length x = n) -> increasing (unique_rows l).
Proof.
  induction l as [|y l IH]; intros L; cbn [unique_rows fold_right]; [exact I|].
  apply (insert_row_increasing n); [apply L; left; reflexivity| |apply IH; intros; apply L; right; assumption].
  intros x H. apply (in_unique_rows l x) in H. apply L. right. assumption.
Qed.
Lemma find_row_nth r l : In r l -> nth_error l (find_row r l) = Some r.
Proof.
  induction l as [|x l IH]; intros H; [destruct H|]. cbn [find_row]. destruct (row_eqb r x) eqn:E.
  - apply row_eqb_true in E. subst. reflexivity.
  - cbn [nth_error]. apply IH. destruct H as [->|H]; [rewrite row_eqb_refl in E; discriminate|assumption].
Qed.

(** ** Cutting a list in rows *)

Lemma group_concat {A} n (ls : list (list A)) : (1 <= n)%nat -> (forall l, In l ls -> length l = n) -> forall fuel,
  (length ls <= fuel)%nat -> group n fuel (concat ls) = ls.
Proof.
  intros N. induction ls as [|l ls IH]; intros H fuel F; cbn [concat].
  - destruct fuel; reflexivity.
  - destruct fuel as [|fuel]; [cbn in F; lia|]. pose proof (H l (or_introl eq_refl)) as L.
    destruct l as [|x l]; [cbn in L; lia|]. cbn [app group].
    change (x :: l ++ concat ls) with ((x :: l) ++ concat ls).
    rewrite firstn_block, skipn_block by exact L. f_equal. apply IH; [intros; apply H; right; assumption|cbn in F; lia].
Qed.
Lemma concat_length_rows {A} n (ls : list (list A)) : (forall l, In l ls -> length l = n) -> length (concat ls) = (length ls * n)%nat.
Proof. induction ls as [|l ls IH]; intros H; cbn [concat length]; [reflexivity|]. rewrite app_length, IH, (H l) by (intros; try apply H; cbn; auto). lia. Qed.
Lemma reshape_concat {A} n (ls : list (list A)) : (1 <= n)%nat -> (forall l, In l ls -> length l = n) -> reshape_rows n (concat ls) = Ok ls.
Proof.
  intros N H. unfold reshape_rows. rewrite (concat_length_rows n) by assumption. rewrite Nat.mod_mul by lia. cbn [Nat.eqb].
  rewrite group_concat; [reflexivity|assumption|assumption|]. nia.
Qed.
Lemma f2_concat {A B} (P : A -> B -> Prop) ls : forall l, Forall2 P (concat ls) l -> exists lls, l = concat lls /\ Forall2 (Forall2 P) ls lls.
Proof.
  induction ls as [|x ls IH]; intros l H; cbn [concat] in H.
  - inversion H; subst. exists []. split; [reflexivity|constructor].
  - apply Forall2_app_inv_l in H. destruct H as (a & b & Ha & Hb & ->). destruct (IH b Hb) as (lls & -> & N).
    exists (a :: lls). split; [reflexivity|constructor; assumption].
Qed.

(** ** The lines *)

Lemma sci_line_no_hash width v : no_hash (line (concat (map (fmt_sci "E" width) (coordinates v)))).
Proof.
  apply line_no_hash. rewrite map_fmt_sci. apply pad_words_no_hash. apply Forall_map. apply Forall_forall. intros; apply sci_word_no_hash.
Qed.
Definition in_range (v : vec) : Prop := float_range (vx v) /\ float_range (vy v) /\ float_range (vz v).
Lemma genfromtxt_gdf vs : Forall in_range vs ->
  exists ws, genfromtxt (map (fun v => line (concat (map (fmt_sci "E" 16) (coordinates v)))) vs) = Ok (map coordinates ws) /\ Forall2 (close seven_digits) vs ws.
Proof.
  intros H. unfold genfromtxt. cbv zeta. rewrite map_map.
  assert (E : filter (fun ws : list text => match ws with [] => false | _ => true end)
    (map (fun x => split (before_hash (line (concat (map (fmt_sci "E" 16) (coordinates x)))))) vs) = map (fun v => map (sci_word "E") (coordinates v)) vs).
  { induction H as [|v vs Hv Hvs IH]; [reflexivity|]. cbn [map]. rewrite before_hash_none by apply sci_line_no_hash.
    rewrite sci_row_split by (try lia; exact Hv). unfold coordinates at 1. cbn [map filter]. f_equal. exact IH. }
  rewrite E. rewrite (same_lengths_forall 3).
  - apply mapM_mapM_sci.
  - intros r Hr. apply in_map_iff in Hr. destruct Hr as (v & <- & _). reflexivity.
Qed.

Definition corner_points (m : mesh) (f : face) : list vec := match mapM (get (m_vertices m)) (face_ids f) with Ok l => l | Err _ => [] end.
Lemma corner_points_ok m f : valid m -> In f (m_faces m) ->
  mapM (fun i => get (m_vertices m) i) (face_ids f) = Ok (corner_points m f) /\ length (corner_points m f) = 4%nat /\
  Forall2 (fun i v => nth_error (m_vertices m) i = Some v) (face_ids f) (corner_points m f).
Proof.
  intros Va Hf. unfold corner_points.
  assert (G : forall i, In i (face_ids f) -> exists v, nth_error (m_vertices m) i = Some v).
  { intros i Hi. specialize (Va f i Hf Hi). unfold nb_vertices in Va. apply nth_error_Some in Va. destruct (nth_error (m_vertices m) i) as [v|]; [eauto|contradiction]. }
  destruct f as [a b c d].
  destruct (G a) as [va Ea]; [cbn; auto|]. destruct (G b) as [vb Eb]; [cbn; auto|]. destruct (G c) as [vc Ec]; [cbn; auto|]. destruct (G d) as [vd Ed]; [cbn; auto|].
  assert (M : mapM (get (m_vertices m)) (face_ids (F a b c d)) = Ok [va; vb; vc; vd]).
  { cbn [face_ids fa fb fc fd mapM]. unfold get. rewrite Ea, Eb, Ec, Ed. reflexivity. }
  rewrite M. refine (conj M (conj eq_refl _)). repeat constructor; assumption.
Qed.
Lemma mapM_total {A B} (f : A -> result B) (g : A -> B) l : (forall x, In x l -> f x = Ok (g x)) -> mapM f l = Ok (map g l).
Proof.
  induction l as [|x l IH]; intros H; cbn [mapM map]; [reflexivity|]. rewrite (H x) by (left; reflexivity). cbn [bind].
  rewrite IH by (intros; apply H; right; assumption). reflexivity.
Qed.

Lemma gdf_text date ulen gravity isx isy m : valid m -> write_GDF date ulen gravity isx isy m =
  Ok (line (lit "GDF file generated by meshmagick on " ++ date) ++ line (fmt_fixed 16 ulen ++ fmt_fixed 16 gravity) ++
      line (fmt_int 12 isx ++ fmt_int 12 isy) ++ line (fmt_int 12 (max_shape 4 (m_faces m))) ++
      concat (map (fun v => line (concat (map (fmt_sci "E" 16) (coordinates v)))) (concat (map (corner_points m) (m_faces m))))).
Proof.
  intros Va. unfold write_GDF. rewrite (mapM_total _ (corner_points m)) by (intros f Hf; apply corner_points_ok; assumption). cbn [bind].
  do 5 f_equal. generalize (map (corner_points m) (m_faces m)). intros l. induction l as [|x l IH]; cbn [map concat]; [reflexivity|].
  rewrite map_app, concat_app, IH. reflexivity.
Qed.

Lemma gdf_two_floats a b : at_most 9999999 b -> exists r, two float_of (line (fmt_fixed 16 a ++ fmt_fixed 16 b)) = Ok r.
Proof.
  intros H. unfold two. rewrite !fmt_fixed_word.
  replace (pad 16 (fixed_word a) ++ pad 16 (fixed_word b)) with (concat (map (pad 16) [fixed_word a; fixed_word b])) by (cbn [map concat]; rewrite app_nil_r; reflexivity).
  rewrite split_padded.
  - destruct (fixed_near a) as (x & -> & _). destruct (fixed_near b) as (y & -> & _). cbn [bind]. eauto.
  - repeat (apply Forall_cons || apply Forall_nil); apply fixed_word_is_word.
  - cbn [tl]. apply Forall_cons; [|constructor]. apply Nat.lt_succ_r. apply (fixed_word_length 7); [lia|exact H].
Qed.
Lemma gdf_two_ints a b : 0 <= a -> 0 <= b < 10 -> two int_of (line (fmt_int 12 a ++ fmt_int 12 b)) = Ok (a, b).
Proof.
  intros A B. unfold two.
  replace (fmt_int 12 a ++ fmt_int 12 b) with (concat (map (pad 12) [dec a; dec b])) by (cbn [map concat]; rewrite app_nil_r; reflexivity).
  rewrite split_padded.
  - rewrite !int_of_dec by lia. reflexivity.
  - repeat (apply Forall_cons || apply Forall_nil); apply dec_word; lia.
  - cbn [tl]. apply Forall_cons; [|constructor]. apply (Nat.le_lt_trans _ 1); [|lia]. apply dec_length; [exact B|lia].
Qed.
Lemma gdf_one_int a : 0 <= a -> split (line (fmt_int 12 a)) = [dec a].
Proof.
  intros A. replace (fmt_int 12 a) with (concat (map (pad 12) [dec a])) by (cbn [map concat]; rewrite app_nil_r; reflexivity).
  apply split_padded; [|constructor]. apply Forall_cons; [apply dec_word; assumption|constructor].
Qed.

(** What the loader returns for the symmetries announced in the file. *)
Definition gdf_symmetry (isx isy : Z) (m : mesh) : result tree :=
  if (isx =? 1) && (isy =? 1)
  then bind (ReflectionSymmetricMesh (Leaf m) yOz_Plane) (fun half => ReflectionSymmetricMesh half xOz_Plane)
  else if isx =? 1 then ReflectionSymmetricMesh (Leaf m) yOz_Plane
  else if isy =? 1 then ReflectionSymmetricMesh (Leaf m) xOz_Plane
  else Ok (Leaf m).

Lemma new_mesh_table (U : list (list R)) (faces : list (list nat)) : (forall r, In r U -> length r = 3%nat) ->
  (forall f, In f faces -> length f = 4%nat) -> (forall f i, In f faces -> In i f -> (i < length U)%nat) ->
  new_mesh U (map (map Z.of_nat) faces) = Ok (Mesh (map row_vec U) (map (fun f => row_face (map Z.of_nat f)) faces)).
Proof.
  intros HU H4 HI. unfold new_mesh. rewrite (same_lengths_forall 3), (all_length_forall 3) by assumption. cbn [negb].
  assert (L4 : forall r, In r (map (map Z.of_nat) faces) -> length r = 4%nat).
  { intros r Hr. apply in_map_iff in Hr. destruct Hr as (f & <- & Hf). rewrite map_length. auto. }
  rewrite (same_lengths_forall 4), (all_length_forall 4) by assumption. cbn [negb].
  replace (forallb (forallb (fun z => 0 <=? z)) (map (map Z.of_nat) faces)) with true.
  2: { symmetry. apply forallb_forall. intros r Hr. apply in_map_iff in Hr. destruct Hr as (f & <- & Hf). apply forallb_forall.
       intros z Hz. apply in_map_iff in Hz. destruct Hz as (i & <- & _). apply Z.leb_le. lia. }
  replace (forallb (forallb (fun z => z + 1 <=? Z.of_nat (length U))) (map (map Z.of_nat) faces)) with true.
  2: { symmetry. apply forallb_forall. intros r Hr. apply in_map_iff in Hr. destruct Hr as (f & <- & Hf). apply forallb_forall.
       intros z Hz. apply in_map_iff in Hz. destruct Hz as (i & <- & Hi). apply Z.leb_le. specialize (HI f i Hf Hi). lia. }
  cbn [negb]. rewrite map_map. reflexivity.
Qed.

Lemma row_vec_inj l : (forall r, In r l -> length r = 3%nat) -> NoDup l -> NoDup (map row_vec l).
Proof.
  intros H N. induction N as [|x l Nx N IH]; cbn [map]; constructor.
  - intros I. apply in_map_iff in I. destruct I as (y & E & I). apply Nx.
    pose proof (H x (or_introl eq_refl)) as X. pose proof (H y (or_intror I)) as Y.
    destruct x as [|x0 [|x1 [|x2 [|]]]]; try discriminate. destruct y as [|y0 [|y1 [|y2 [|]]]]; try discriminate.
    unfold row_vec in E. cbn in E. injection E as -> -> ->. assumption.
  - apply IH. intros; apply H; right; assumption.
Qed.

Lemma polygons_of m m' (idx : vec -> nat) fs wss : valid m -> (forall f, In f fs -> In f (m_faces m)) ->
  Forall2 (Forall2 (close seven_digits)) (map (corner_points m) fs) wss ->
  (forall l w, In l wss -> In w l -> nth_error (m_vertices m') (idx w) = Some w) ->
  Forall2 (fun f g => Forall2 (same_corner seven_digits m m') (face_ids f) (face_ids g)) fs (map (fun x => row_face (map Z.of_nat (map idx x))) wss).
Proof.
  intros Va. revert wss. induction fs as [|f fs IH]; intros wss K N H; inversion N as [|? l ? lls Nl Nls]; subst; cbn [map]; [constructor|].
  constructor; [|apply IH; [intros; apply K; right; assumption|assumption|intros; eapply H; [right; eassumption|assumption]]].
  destruct (corner_points_ok m f Va (K f (or_introl eq_refl))) as (_ & L4 & C). destruct (corner_points m f) as [|v0 [|v1 [|v2 [|v3 [|]]]]]; try discriminate.
  assert (Hw : forall w, In w l -> nth_error (m_vertices m') (idx w) = Some w) by (intros w; apply H; left; reflexivity). clear H N Nls IH K L4.
  inversion Nl as [|? w0 ? l1 C0 Nl1]; subst. inversion Nl1 as [|? w1 ? l2 C1 Nl2]; subst. inversion Nl2 as [|? w2 ? l3 C2 Nl3]; subst.
  inversion Nl3 as [|? w3 ? l4 C3 Nl4]; subst. inversion Nl4; subst. clear Nl Nl1 Nl2 Nl3 Nl4.
  unfold row_face. cbn [map nth]. rewrite !Nat2Z.id. destruct f as [a b c d]. cbn [face_ids fa fb fc fd] in *.
  inversion C as [|? ? ? ? A0 D1]; subst. inversion D1 as [|? ? ? ? A1 D2]; subst. inversion D2 as [|? ? ? ? A2 D3]; subst. inversion D3 as [|? ? ? ? A3 D4]; subst.
  repeat (apply Forall2_cons || apply Forall2_nil).
  - exists v0, w0. refine (conj A0 (conj _ C0)). apply Hw. cbn; auto.
  - exists v1, w1. refine (conj A1 (conj _ C1)). apply Hw. cbn; auto.
  - exists v2, w2. refine (conj A2 (conj _ C2)). apply Hw. cbn; auto.
  - exists v3, w3. refine (conj A3 (conj _ C3)). apply Hw. cbn; auto.
Qed.

(** The part of the loader that follows the header. *)
Section Tail.
  Variable m : mesh.
  Hypothesis Va : valid m.
  Hypothesis Co : coordinates_are float_range m.
  Let points := concat (map (corner_points m) (m_faces m)).

  Lemma points_in_range : Forall in_range points.
  Proof.
    apply Forall_forall. intros v H. unfold points in H. apply in_concat in H. destruct H as (l & Hl & Hv).
    apply in_map_iff in Hl. destruct Hl as (f & <- & Hf). destruct (corner_points_ok m f Va Hf) as (_ & _ & N).
    apply Co. clear -N Hv. induction N as [|i x li lv E N IH]; [destruct Hv|]. destruct Hv as [->|Hv]; [eapply nth_error_In; exact E|auto].
  Qed.

  Lemma gdf_tail : exists rows m',
    genfromtxt (map (fun v => line (concat (map (fmt_sci "E" 16) (coordinates v)))) points) = Ok rows /\
    reshape_rows 3 (concat rows) = Ok rows /\
    exists faces, reshape_rows 4 (map (fun r => Z.of_nat (find_row r (unique_rows rows))) rows) = Ok faces /\ length faces = nb_faces m /\
    new_mesh (unique_rows rows) faces = Ok m' /\ same_polygons seven_digits m m' /\ NoDup (m_vertices m').
  Proof.
    destruct (genfromtxt_gdf points points_in_range) as (ws & E & N). exists (map coordinates ws).
    destruct (f2_concat _ _ _ N) as (wss & -> & NN). set (ws := concat wss) in *. set (U := unique_rows (map coordinates ws)).
    assert (L3 : forall r, In r (map coordinates ws) -> length r = 3%nat) by (intros r Hr; apply in_map_iff in Hr; destruct Hr as (w & <- & _); reflexivity).
    assert (U3 : forall r, In r U -> length r = 3%nat) by (intros r Hr; apply L3; apply (proj1 (in_unique_rows _ _)); exact Hr).
    set (idx := fun w => find_row (coordinates w) U).
    assert (I : forall w, In w ws -> nth_error U (idx w) = Some (coordinates w)).
    { intros w Hw. apply find_row_nth. apply in_unique_rows. apply in_map. assumption. }
    assert (W4 : forall l, In l wss -> length l = 4%nat).
    { clear -NN Va. assert (K : forall l, In l (map (corner_points m) (m_faces m)) -> length l = 4%nat).
      { intros l Hl. apply in_map_iff in Hl. destruct Hl as (f & <- & Hf). apply (corner_points_ok m f Va Hf). }
      induction NN as [|x y lx ly H NN IH]; intros l Hl; [destruct Hl|]. destruct Hl as [->|Hl].
      - rewrite <- (f2_len _ _ _ H). apply K. left. reflexivity.
      - apply IH; [|assumption]. intros; apply K; right; assumption. }
    eexists. split; [exact E|]. split; [apply reshape_concat; [lia|exact L3]|].
    exists (map (map Z.of_nat) (map (map idx) wss)). split; [|split; [|split]].
    - rewrite map_map. change (fun x => Z.of_nat (find_row (coordinates x) (unique_rows (map coordinates ws)))) with (fun x => Z.of_nat (idx x)).
      unfold ws. rewrite concat_map. rewrite reshape_concat; [|lia|].
      + f_equal. rewrite map_map. apply map_ext. intros l. rewrite map_map. reflexivity.
      + intros l Hl. apply in_map_iff in Hl. destruct Hl as (k & <- & Hk). rewrite map_length. auto.
    - rewrite !map_length. rewrite <- (f2_len _ _ _ NN). apply map_length.
    - apply (new_mesh_table U (map (map idx) wss)); [exact U3| |].
      + intros f Hf. apply in_map_iff in Hf. destruct Hf as (l & <- & Hl). rewrite map_length. auto.
      + intros f i Hf Hi. apply in_map_iff in Hf. destruct Hf as (l & <- & Hl). apply in_map_iff in Hi. destruct Hi as (w & <- & Hw).
        apply nth_error_Some. rewrite I; [discriminate|]. apply in_concat. eauto.
    - split; [|cbn [m_vertices]; apply row_vec_inj; [exact U3|apply increasing_NoDup, (unique_rows_increasing 3); exact L3]].
      unfold same_polygons. cbn [m_faces]. rewrite map_map. apply polygons_of; [exact Va|auto|exact NN|].
      intros l w Hl Hw. cbn [m_vertices]. rewrite nth_error_map, I by (apply in_concat; eauto). cbn [option_map]. rewrite row_vec_coordinates. reflexivity.
  Qed.
End Tail.

Lemma gdf_readlines date ulen gravity isx isy m t : valid m -> one_line date -> 0 <= isx -> 0 <= isy ->
  write_GDF date ulen gravity isx isy m = Ok t ->
  readlines t = line (lit "GDF file generated by meshmagick on " ++ date) :: line (fmt_fixed 16 ulen ++ fmt_fixed 16 gravity) ::
    line (fmt_int 12 isx ++ fmt_int 12 isy) :: line (fmt_int 12 (max_shape 4 (m_faces m))) ::
    map (fun v => line (concat (map (fmt_sci "E" 16) (coordinates v)))) (concat (map (corner_points m) (m_faces m))).
Proof.
  intros Va D X Y H. rewrite gdf_text in H by assumption. apply Ok_inj' in H. subst t.
  rewrite readlines_one by (apply one_line_app; [apply lit_one_line; reflexivity|assumption]).
  rewrite readlines_one by (rewrite !fmt_fixed_word; apply one_line_app; apply pad_one_line, word_one_line, fixed_word_is_word).
  rewrite readlines_one by (apply one_line_app; apply pad_one_line, dec_line_one_line; assumption).
  rewrite readlines_one by (apply pad_one_line, dec_line_one_line, max_shape_nonneg).
  rewrite <- (app_nil_r (concat (map (fun v => line _) _))). rewrite readlines_block by (intros; apply sci_row_line).
  rewrite readlines_nil, app_nil_r. reflexivity.
Qed.

Lemma gdf_load date ulen gravity isx isy m : valid m -> one_line date -> at_most 9999999 gravity ->
  isx = 0 \/ isx = 1 -> isy = 0 \/ isy = 1 -> coordinates_are float_range m ->
  exists t m', write_GDF date ulen gravity isx isy m = Ok t /\
    load_GDF t = (if Z.of_nat (nb_faces m) =? max_shape 4 (m_faces m) then gdf_symmetry isx isy m' else Err ValueError) /\
    same_polygons seven_digits m m' /\ NoDup (m_vertices m').
Proof.
  intros Va D G X Y Co. destruct (gdf_tail m Va Co) as (rows & m' & E1 & E2 & faces & E3 & L & E4 & P & ND).
  eexists. exists m'. split; [apply gdf_text; assumption|]. split; [|split; assumption].
  unfold load_GDF. rewrite (gdf_readlines date ulen gravity isx isy m) by (try assumption; try lia; apply gdf_text; assumption).
  cbn [readline]. destruct (gdf_two_floats ulen gravity G) as (r & ->). cbn [bind]. rewrite gdf_two_ints by lia. cbn [bind].
  rewrite gdf_one_int by apply max_shape_nonneg. rewrite int_of_dec by apply max_shape_nonneg. cbn [bind].
  rewrite E1. cbn [bind]. rewrite E2. cbn [bind]. rewrite E3. cbn [bind]. rewrite L.
  destruct (Z.of_nat (nb_faces m) =? max_shape 4 (m_faces m)); cbn [negb]; [|reflexivity]. rewrite E4. reflexivity.
Qed.

Lemma gdf_round_trip date ulen gravity isx isy m : valid m -> one_line date -> at_most 9999999 gravity ->
  isx = 0 \/ isx = 1 -> isy = 0 \/ isy = 1 -> coordinates_are float_range m -> (4 <= nb_faces m)%nat ->
  exists t m', write_GDF date ulen gravity isx isy m = Ok t /\ load_GDF t = gdf_symmetry isx isy m' /\
    same_polygons seven_digits m m' /\ NoDup (m_vertices m').
Proof.
  intros Va D G X Y Co N. destruct (gdf_load date ulen gravity isx isy m Va D G X Y Co) as (t & m' & E & L & P).
  exists t, m'. refine (conj E (conj _ P)). rewrite L. replace (_ =? _) with true; [reflexivity|]. symmetry. apply Z.eqb_eq. unfold max_shape, nb_faces in *. lia.
Qed.
Lemma gdf_few_faces date ulen gravity isx isy m : valid m -> one_line date -> at_most 9999999 gravity ->
  isx = 0 \/ isx = 1 -> isy = 0 \/ isy = 1 -> coordinates_are float_range m -> (nb_faces m < 4)%nat ->
  exists t, write_GDF date ulen gravity isx isy m = Ok t /\ load_GDF t = Err ValueError.
Proof.
  intros Va D G X Y Co N. destruct (gdf_load date ulen gravity isx isy m Va D G X Y Co) as (t & m' & E & L & P).
  exists t. refine (conj E _). rewrite L. replace (_ =? _) with false; [reflexivity|]. symmetry. apply Z.eqb_neq. unfold max_shape, nb_faces in *. lia.
Qed.

(** ** The writers and the mesh they are given *)

Lemma stl_after_id fs : (forall f, In f fs -> fa f = fd f) -> stl_faces_after fs = fs.
Proof.
  intros H. unfold stl_faces_after. rewrite <- (map_id fs) at 2. apply map_ext_in. intros f Hf. unfold is_quad.
  rewrite (proj2 (Nat.eqb_eq _ _) (H f Hf)). reflexivity.
Qed.
Lemma stl_after_changed fs f : In f fs -> fa f <> fd f -> stl_faces_after fs <> fs.
Proof.
  intros Hf N E. apply In_nth_error in Hf. destruct Hf as (k & Hk). pose proof Hk as Hk'. rewrite <- E in Hk'. unfold stl_faces_after in Hk'.
  rewrite nth_error_map, Hk in Hk'. cbn [option_map] in Hk'. unfold is_quad in Hk'. rewrite (proj2 (Nat.eqb_neq _ _) N) in Hk'. cbn [negb] in Hk'.
  unfold second_half in Hk'. apply N. injection Hk' as E'. apply (f_equal fd) in E'. cbn in E'. exact E'.
Qed.
Lemma stl_after_triangles fs f : In f (stl_faces_after fs) -> fa f = fd f.
Proof.
  unfold stl_faces_after. intros H. apply in_map_iff in H. destruct H as (g & <- & _). unfold is_quad. destruct (Nat.eqb_spec (fa g) (fd g)); cbn [negb]; [assumption|reflexivity].
Qed.
Lemma stl_faces_triangles fs f : In f (stl_faces fs) -> fa f = fd f.
Proof.
  unfold stl_faces. intros H. apply in_app_iff in H. destruct H as [H|H]; [eapply stl_after_triangles; eassumption|].
  apply in_map_iff in H. destruct H as (g & <- & _). reflexivity.
Qed.
(** The number of facets written. *)
Lemma stl_faces_length fs : length (stl_faces fs) = (length fs + length (filter is_quad fs))%nat.
Proof. unfold stl_faces, stl_faces_after. rewrite app_length, !map_length. reflexivity. Qed.

Lemma fmt_normal_one_line n : one_line (fmt_normal n).
Proof.
  unfold fmt_normal. apply concat_one_line. apply Forall_map. apply Forall_forall. intros x _. destruct (Reqb (norm n) 0).
  - apply pad_one_line, lit_one_line. reflexivity.
  - rewrite fmt_sci_word. apply pad_one_line, word_one_line, sci_word_is_word. auto.
Qed.
Lemma stl_vertex_one_line v : one_line (lit "      vertex" ++ concat (map (fmt_sci "e" 15) (coordinates v))).
Proof.
  apply one_line_app; [apply lit_one_line; reflexivity|]. apply concat_one_line. apply Forall_map. apply Forall_forall. intros x _.
  rewrite fmt_sci_word. apply pad_one_line, word_one_line, sci_word_is_word. auto.
Qed.
Lemma stl_facet_lines vs f t rest : stl_facet vs f = Ok t -> length (readlines (t ++ rest)) = (7 + length (readlines rest))%nat.
Proof.
  unfold stl_facet. destruct (negb _); [discriminate|]. destruct (get vs (fa f)) as [v0|]; [|discriminate]. cbn [bind].
  destruct (get vs (fb f)) as [v1|]; [|discriminate]. cbn [bind]. destruct (get vs (fc f)) as [v2|]; [|discriminate]. cbn [bind].
  intros H. apply Ok_inj' in H. subst t. rewrite <- !app_assoc.
  rewrite readlines_one by (apply one_line_app; [apply lit_one_line; reflexivity|apply fmt_normal_one_line]).
  rewrite readlines_one by (apply lit_one_line; reflexivity).
  rewrite (readlines_block (fun v => lit "      vertex" ++ concat (map (fmt_sci "e" 15) (coordinates v)))) by (intros; apply stl_vertex_one_line).
  do 2 (rewrite readlines_one by (apply lit_one_line; reflexivity)). reflexivity.
Qed.
Lemma stl_facets_lines vs fs : forall facets rest, mapM (stl_facet vs) fs = Ok facets ->
  length (readlines (concat facets ++ rest)) = (7 * length fs + length (readlines rest))%nat.
Proof.
  induction fs as [|f fs IH]; intros facets rest H; cbn [mapM] in H.
  - apply Ok_inj' in H. subst. reflexivity.
  - destruct (stl_facet vs f) as [t|e] eqn:E; [|discriminate]. cbn [bind] in H. destruct (mapM (stl_facet vs) fs) as [ts|e] eqn:E'; [|discriminate].
    cbn [bind] in H. apply Ok_inj' in H. subst. cbn [concat]. rewrite <- app_assoc. rewrite (stl_facet_lines vs f) by exact E. rewrite (IH ts) by reflexivity.
    cbn [length]. lia.
Qed.
Lemma in_stl_faces fs g i : In g (stl_faces fs) -> In i (face_ids g) -> exists f, In f fs /\ In i (face_ids f).
Proof.
  unfold stl_faces, stl_faces_after. intros H I. apply in_app_iff in H. destruct H as [H|H]; apply in_map_iff in H; destruct H as (f & <- & H).
  - exists f. split; [assumption|]. destruct (is_quad f); [|assumption]. unfold second_half in I. cbn [face_ids fa fb fc fd] in *. cbn in I |- *. tauto.
  - apply filter_In in H. exists f. split; [tauto|]. unfold first_half in I. cbn [face_ids fa fb fc fd] in *. cbn in I |- *. tauto.
Qed.
Lemma stl_facet_ok m g : valid m -> In g (stl_faces (m_faces m)) -> exists t, stl_facet (m_vertices m) g = Ok t.
Proof.
  intros Va H. unfold stl_facet. rewrite (proj2 (Nat.eqb_eq _ _) (stl_faces_triangles _ _ H)). cbn [negb].
  assert (G : forall i, In i (face_ids g) -> exists v, get (m_vertices m) i = Ok v).
  { intros i Hi. destruct (in_stl_faces _ _ _ H Hi) as (f & Hf & Hi'). specialize (Va f i Hf Hi'). unfold get, nb_vertices in *.
    apply nth_error_Some in Va. destruct (nth_error (m_vertices m) i); [eauto|contradiction]. }
  destruct (G (fa g)) as [a ->]; [cbn; auto|]. destruct (G (fb g)) as [b ->]; [cbn; auto|]. destruct (G (fc g)) as [c ->]; [cbn; auto|]. cbn [bind]. eauto.
Qed.
Lemma mapM_exists {A B} (f : A -> result B) l : (forall x, In x l -> exists y, f x = Ok y) -> exists ys, mapM f l = Ok ys.
Proof.
  induction l as [|x l IH]; intros H; cbn [mapM]; [eauto|]. destruct (H x (or_introl eq_refl)) as [y ->]. cbn [bind].
  destruct IH as [ys ->]; [intros; apply H; right; assumption|]. cbn [bind]. eauto.
Qed.
Lemma stl_written m : valid m -> exists t, fst (write_STL m) = Ok t /\
  length (readlines t) = (2 + 7 * (nb_faces m + length (filter is_quad (m_faces m))))%nat.
Proof.
  intros Va. unfold write_STL. cbn [fst]. destruct (mapM_exists (stl_facet (m_vertices m)) (stl_faces (m_faces m))) as [facets E].
  { intros g Hg. apply stl_facet_ok; assumption. }
  rewrite E. cbn [bind]. eexists. split; [reflexivity|]. rewrite readlines_one by (apply lit_one_line; reflexivity). cbn [length].
  rewrite (stl_facets_lines _ _ _ _ E). rewrite <- (app_nil_r (line (lit "endsolid meshmagick"))).
  rewrite readlines_one by (apply lit_one_line; reflexivity). rewrite readlines_nil. cbn [length]. rewrite stl_faces_length. unfold nb_faces. lia.
Qed.
Lemma stl_after_valid m : valid m -> valid (snd (write_STL m)).
Proof.
  intros Va g i Hg Hi. cbn [write_STL snd m_faces m_vertices nb_vertices] in *.
  destruct (in_stl_faces (m_faces m) g i) as (f & Hf & Hi'); [apply in_app_iff; left; exact Hg|exact Hi|]. exact (Va f i Hf Hi').
Qed.
Lemma filter_quads_after fs : filter is_quad (stl_faces_after fs) = [].
Proof.
  destruct (filter is_quad (stl_faces_after fs)) as [|f l] eqn:E; [reflexivity|]. exfalso.
  assert (H : In f (filter is_quad (stl_faces_after fs))) by (rewrite E; left; reflexivity). apply filter_In in H. destruct H as [H K].
  apply stl_after_triangles in H. unfold is_quad in K. rewrite (proj2 (Nat.eqb_eq _ _) H) in K. discriminate.
Qed.
Lemma stl_second m : valid m -> (exists f, In f (m_faces m) /\ fa f <> fd f) -> exists t t',
  fst (write_STL m) = Ok t /\ fst (write_STL (snd (write_STL m))) = Ok t' /\ (length (readlines t') < length (readlines t))%nat.
Proof.
  intros Va (f & Hf & N). destruct (stl_written m Va) as (t & E & L). destruct (stl_written _ (stl_after_valid m Va)) as (t' & E' & L').
  exists t, t'. refine (conj E (conj E' _)). rewrite L, L'. unfold nb_faces. cbn [write_STL snd m_faces]. rewrite filter_quads_after.
  unfold stl_faces_after. rewrite map_length. cbn [length].
  assert (1 <= length (filter is_quad (m_faces m)))%nat; [|lia].
  assert (K : In f (filter is_quad (m_faces m))) by (apply filter_In; split; [assumption|]; unfold is_quad; rewrite (proj2 (Nat.eqb_neq _ _) N); reflexivity).
  destruct (filter is_quad (m_faces m)); [destruct K|cbn; lia].
Qed.
