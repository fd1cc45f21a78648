(** Proofs about the orientation of the faces: the healed mesh. *)
From Coq Require Import Reals List Bool Arith Permutation Lra Lia.
From Verif Require Import Model_Base Model_Geometry Model_Mesh Model_Tree Model_Integrals Spec_Mesh Spec_Tree Spec_Clip Spec_Integrals
  Proofs_Geometry Proofs_Mesh Proofs_Mesh2 Proofs_Clip4 Proofs_Clip5 Proofs_Integrals
  Model_Normals Spec_Normals Proofs_Normals Proofs_Normals2 Proofs_Normals3.
Import ListNotations.
Open Scope nat_scope.

Lemma orientation fs fs' : Forall2 same_or_reversed fs fs' ->
  exists o : nat -> bool, forall k f, nth_error fs k = Some f -> nth_error fs' k = Some (flipif (o k) f).
Proof.
  induction 1 as [|f g fs fs' R H (o & IH)].
  - exists (fun _ => false). intros [|k] f E; discriminate.
  - assert (exists b, g = flipif b f) as (b & ->) by (destruct R as [->| ->]; [now exists false|now exists true]).
    exists (fun k => match k with O => b | S k' => o k' end). intros [|k] f' E; [cbn in *; congruence|]. exact (IH k f' E).
Qed.
Lemma flip_consistent fs : consistent fs -> consistent (map flip_face fs).
Proof.
  intros C i j f g a b Ef Eg N. rewrite nth_error_map in Ef, Eg.
  destruct (nth_error fs i) as [f0|] eqn:Ef0; [|discriminate]. destruct (nth_error fs j) as [g0|] eqn:Eg0; [|discriminate].
  injection Ef as <-. injection Eg as <-. rewrite !sides_flip. exact (C i j f0 g0 b a Ef0 Eg0 N).
Qed.

Section Healed.
  Variable set_order : list nat -> list nat.
  Hypothesis order_perm : forall l, Permutation l (set_order l).

  (** The faces after the flooding. *)
  Lemma flooded m : valid m -> m_faces m <> [] -> conformal (m_faces m) -> orientable (m_faces m) ->
    exists fs', (heal_normals set_order m = Ok (Mesh (m_vertices m) fs') \/ heal_normals set_order m = outwards (Mesh (m_vertices m) fs'))
      /\ (without_boundary (m_faces m) -> heal_normals set_order m = outwards (Mesh (m_vertices m) fs'))
      /\ consistent fs' /\ Forall2 same_or_reversed (m_faces m) fs' /\ (consistent (m_faces m) -> fs' = m_faces m).
  Proof.
    intros Vm Nm Cm (fo & Ro & Co).
    assert (Or : exists o : nat -> bool, (forall i j f g a b, nth_error (m_faces m) i = Some f -> nth_error (m_faces m) j = Some g -> i <> j ->
              In (a, b) (sides (flipif (o i) f)) -> ~ In (a, b) (sides (flipif (o j) g)))).
    { destruct (orientation _ _ Ro) as (o & Ho). exists o. intros i j f g a b Ef Eg N. exact (Co i j _ _ a b (Ho i f Ef) (Ho j g Eg) N). }
    clear fo Ro Co. destruct Or as (o & Ho).
    destruct (connectivity_ok set_order order_perm m Vm Cm) as (ff & bs & Ec & Lff & Hff & Hb).
    assert (Gen : forall o, (forall i j f g a b, nth_error (m_faces m) i = Some f -> nth_error (m_faces m) j = Some g -> i <> j ->
              In (a, b) (sides (flipif (o i) f)) -> ~ In (a, b) (sides (flipif (o j) g))) ->
      exists s' p', flooding set_order (nb_faces m) (Flood (m_faces m) ff (match m_faces m with [] => [] | _ :: fs => true :: map (fun _ => false) fs end) [0]) = Ok s'
        /\ length (fl_faces s') = length (m_faces m)
        /\ (forall k f, nth_error (m_faces m) k = Some f -> nth_error (fl_faces s') k = Some (flipif (p' k) f))
        /\ (forall a b, adjacent (m_faces m) a b -> col o p' a = col o p' b) /\ ((forall k, o k = false) -> forall k, p' k = false)).
    { clear o Ho. intros o Ho.
      destruct (m_faces m) as [|f0 fs] eqn:Ef; [contradiction|].
      set (s := Flood (f0 :: fs) ff (true :: map (fun _ => false) fs) [0]).
      assert (Sn : forall k, seen s k <-> k = 0).
      { intros [|k]; unfold seen; cbn; [tauto|]. rewrite nth_error_map. destruct (nth_error fs k); cbn; split; discriminate. }
      assert (I : inv (f0 :: fs) o (fun _ => false) (fun _ => False) (col o (fun _ => false) 0) s).
      { split; cbn [s fl_faces fl_ff fl_seen fl_stack].
        - intros k f E. exact E.
        - reflexivity.
        - exact Lff.
        - intros a b H. now apply Hff.
        - intros a b H. left. now apply Hff.
        - cbn. now rewrite map_length.
        - intros a [].
        - intros a b [].
        - intros a b [].
        - intros a Ha. apply Sn in Ha. subst a. right. reflexivity.
        - intros a [<-|[]]. split; [now apply Sn|reflexivity].
        - reflexivity. }
      apply (flooding_ok set_order order_perm (f0 :: fs) Cm o Ho _ _ _ _ _ I).
      - intros a Ha. apply Sn in Ha. subst a. right. left. now left.
      - cbn [s fl_stack fl_seen length filter negb]. unfold nb_faces. rewrite Ef. cbn [length].
        assert (forall l : list face, length (filter negb (map (fun _ => false) l)) = length l) as -> by (induction l; cbn; auto). lia. }
    destruct (Gen o Ho) as (s' & p' & Es & L' & Hf' & Hcol & _).
    exists (fl_faces s').
    assert (Eh : heal_normals set_order m = match bs with [] => outwards (Mesh (m_vertices m) (fl_faces s')) | _ => Ok (Mesh (m_vertices m) (fl_faces s')) end).
    { unfold heal_normals. rewrite Ec. cbn [bind fst snd]. destruct (m_faces m) as [|f0 fs] eqn:Ef; [contradiction|].
      rewrite Es. reflexivity. }
    split; [rewrite Eh; destruct bs; auto|]. split; [intros Wb; rewrite Eh, (Hb Wb); reflexivity|]. split; [|split].
    - intros i j f g a b Ei Ej N Hab Hab'.
      destruct (nth_error (m_faces m) i) as [f0|] eqn:E0; [|apply nth_error_None in E0; assert (i < length (fl_faces s')) by (apply nth_error_Some; congruence); lia].
      destruct (nth_error (m_faces m) j) as [g0|] eqn:E1; [|apply nth_error_None in E1; assert (j < length (fl_faces s')) by (apply nth_error_Some; congruence); lia].
      rewrite (Hf' _ _ E0) in Ei. injection Ei as <-. rewrite (Hf' _ _ E1) in Ej. injection Ej as <-.
      destruct (sides_has _ _ _ Hab) as [A1 A2]. destruct (sides_has _ _ _ Hab') as [B1 B2]. rewrite flipif_has in A1, A2, B1, B2.
      assert (W : well_formed f0 /\ well_formed g0) by (destruct Cm as [W _]; split; apply W; eapply nth_error_In; eassumption). destruct W as [Wf Wg].
      assert (Nab : a <> b) by (apply (sides_distinct (flipif (p' i) f0)); [now apply flipif_well_formed|exact Hab]).
      assert (Adj : adjacent (m_faces m) i j) by (split; [exact N|]; exists a, b; split; [exact Nab|]; split; [exists f0|exists g0]; auto).
      assert (Sf : is_side f0 a b) by (apply (flipif_is_side (p' i)); now left).
      assert (Sg : is_side g0 a b) by (apply (flipif_is_side (p' j)); now left).
      pose proof (Hcol i j Adj) as Hx. unfold col in Hx.
      pose proof (Ho i j f0 g0 a b E0 E1 N) as H1. pose proof (Ho i j f0 g0 b a E0 E1 N) as H2.
      apply dir_In in Hab. apply dir_In in Hab'. rewrite dir_flip in Hab, Hab' by assumption.
      rewrite <- !dir_In in H1. rewrite <- !dir_In in H2. rewrite !dir_flip in H1 by assumption. rewrite !dir_flip in H2 by (auto using is_side_sym).
      rewrite (dir_back f0 a b), (dir_back g0 a b) in H2 by assumption.
      destruct (p' i), (p' j), (o i), (o j), (dir f0 a b), (dir g0 a b); cbn in *; try discriminate; first [exact (H1 eq_refl eq_refl)|exact (H2 eq_refl eq_refl)].
    - apply Forall2_nth. split; [now symmetry|]. intros k f g E E'. rewrite (Hf' _ _ E) in E'. injection E' as <-. destruct (p' k); [now right|now left].
    - intros C0. destruct (Gen (fun _ => false)) as (s2 & p2 & E2 & L2 & F2 & _ & Z2).
      { intros i j f g a b Ef Eg N. exact (C0 i j f g a b Ef Eg N). }
      rewrite Es in E2. injection E2 as <-. symmetry. apply nth_ext with (d := F 0 0 0 0) (d' := F 0 0 0 0); [now symmetry|].
      intros k Hk. destruct (nth_error (m_faces m) k) as [f|] eqn:E; [|apply nth_error_None in E; lia].
      pose proof (F2 k f E) as E'. rewrite (Z2 (fun _ => eq_refl) k) in E'. cbn in E'.
      rewrite (nth_error_nth _ _ _ E), (nth_error_nth _ _ _ E'). reflexivity.
  Qed.

  Lemma outwards_ok m : valid m -> m_faces m <> [] -> outwards m = Ok m \/ outwards m = Ok (flip_normals m).
  Proof.
    intros Vm Nm. unfold outwards, highest. destruct (m_vertices m) as [|v vs] eqn:Ev.
    - exfalso. destruct (m_faces m) as [|f fs] eqn:Ef; [contradiction|].
      assert (fa f < length (m_vertices m)) by (apply (Vm f); [rewrite Ef; now left|now left]). rewrite Ev in H. cbn in H. lia.
    - cbn [bind]. destruct (polygons_exist m Vm) as [qs Hq]. rewrite (leaf_props m qs Hq). cbn [bind]. destruct (Rltb _ 0); auto.
  Qed.
  Lemma reversed_valid vs fs fs' : valid (Mesh vs fs) -> Forall2 same_or_reversed fs fs' -> valid (Mesh vs fs').
  Proof.
    intros Vm R g i Hg Hi. cbn in *. apply In_nth_error in Hg. destruct Hg as [k Hk].
    destruct (Forall2_nth_r _ _ _ _ _ R Hk) as (f & Hf & Hr). apply (Vm f); [cbn; now apply nth_error_In in Hf|].
    destruct Hr as [->| ->]; cbn in *; tauto.
  Qed.
  Lemma heal_consistent m : valid m -> m_faces m <> [] -> conformal (m_faces m) -> orientable (m_faces m) ->
    exists m', heal_normals set_order m = Ok m' /\ consistent (m_faces m').
  Proof.
    intros Vm Nm Cm Om. destruct (flooded m Vm Nm Cm Om) as (fs' & H & _ & C & R & _).
    assert (N' : fs' <> []) by (intros ->; inversion R; congruence).
    assert (V' : valid (Mesh (m_vertices m) fs')) by (apply (reversed_valid _ (m_faces m)); [now destruct m|exact R]).
    destruct H as [H|H]; [exists (Mesh (m_vertices m) fs'); auto|].
    destruct (outwards_ok _ V' N') as [E|E]; rewrite H, E; eexists; (split; [reflexivity|]); [exact C|now apply flip_consistent].
  Qed.
  Lemma heal_consistent_already m : valid m -> m_faces m <> [] -> conformal (m_faces m) -> consistent (m_faces m) ->
    heal_normals set_order m = Ok m \/ heal_normals set_order m = outwards m.
  Proof.
    intros Vm Nm Cm Om. destruct (flooded m Vm Nm Cm) as (fs' & H & _ & C & R & K).
    { exists (m_faces m). split; [|exact Om]. clear. induction (m_faces m); constructor; auto. now left. }
    rewrite (K Om) in H. now destruct m.
  Qed.
End Healed.

(** ** Closed surfaces *)

Section Closed.
  Variable m : mesh.
  Hypothesis Vm : valid m.
  Hypothesis Cm : conformal (m_faces m).
  Hypothesis Om : consistent (m_faces m).
  Hypothesis Bm : without_boundary (m_faces m).

  Definition swap_ids (e : nat * nat) : nat * nat := (snd e, fst e).
  Lemma sides_nodup f : well_formed f -> NoDup (sides f).
  Proof.
    intros W. unfold sides. destruct (Nat.eqb_spec (fa f) (fd f)) as [E|E]; wf W; try contradiction;
      repeat constructor; cbn; intuition congruence.
  Qed.
  Lemma all_sides_nodup fs : (forall f, In f fs -> well_formed f) -> consistent fs -> NoDup (flat_map sides fs).
  Proof.
    induction fs as [|f fs IH]; intros W C; [constructor|]. cbn [flat_map].
    assert (ND : NoDup (flat_map sides fs)).
    { apply IH; [intros; apply W; now right|]. intros i j g h a b Eg Eh N. apply (C (S i) (S j)); auto. }
    assert (D : forall e, In e (sides f) -> ~ In e (flat_map sides fs)).
    { intros [a b] He H. apply in_flat_map in H. destruct H as (g & Hg & H). apply In_nth_error in Hg. destruct Hg as [k Hk].
      exact (C 0 (S k) f g a b eq_refl Hk ltac:(discriminate) He H). }
    revert D. assert (S0 : NoDup (sides f)) by (apply sides_nodup, W; now left). revert S0. generalize (sides f).
    induction l as [|e l IHl]; intros Nl D; [exact ND|]. apply NoDup_cons_iff in Nl. destruct Nl as [He Nl]. cbn. constructor.
    - rewrite in_app_iff. intros [H|H]; [contradiction|]. apply (D e); [now left|exact H].
    - apply IHl; [exact Nl|]. intros e' He'. apply D. now right.
  Qed.
  Lemma sides_swap : Permutation (flat_map sides (m_faces m)) (map swap_ids (flat_map sides (m_faces m))).
  Proof.
    assert (ND : NoDup (flat_map sides (m_faces m))) by (apply all_sides_nodup; [apply Cm|exact Om]).
    assert (Sw : forall a b, In (a, b) (flat_map sides (m_faces m)) -> In (b, a) (flat_map sides (m_faces m))).
    { intros a b H. apply in_flat_map in H. destruct H as (f & Hf & H). apply In_nth_error in Hf. destruct Hf as [k Hk].
      destruct (Bm k f a b Hk H) as (j & g & Nj & Eg & [S|S]).
      - exfalso. exact (Om k j f g a b Hk Eg (not_eq_sym Nj) H S).
      - apply in_flat_map. exists g. split; [now apply nth_error_In in Eg|exact S]. }
    apply NoDup_Permutation; [exact ND| |].
    - apply FinFun.Injective_map_NoDup; [|exact ND]. intros [a b] [c d] E. unfold swap_ids in E. cbn in E. congruence.
    - intros [a b]. rewrite in_map_iff. split.
      + intros H. exists (b, a). split; [reflexivity|now apply Sw].
      + intros ([c d] & E & H). injection E as <- <-. now apply Sw.
  Qed.

  Definition at_ (i : nat) : vec := nth i (m_vertices m) v0.
  Definition edge_at (e : nat * nat) : vec * vec := (at_ (fst e), at_ (snd e)).
  Definition no_edge (f : face) : list (vec * vec) := if Nat.eqb (fa f) (fd f) then [(at_ (fa f), at_ (fa f))] else [].
  Lemma edges_sides f q : corners_at (m_vertices m) f q -> edges q = map edge_at (sides f) ++ no_edge f.
  Proof.
    destruct q as [[[a b] c] d]. intros (Ha & Hb & Hc & Hd).
    assert (A : forall i x, nth_error (m_vertices m) i = Some x -> at_ i = x) by (intros i x E; unfold at_; now apply nth_error_nth).
    unfold edges, sides, no_edge, edge_at. destruct (Nat.eqb_spec (fa f) (fd f)) as [E|E]; cbn;
      rewrite (A _ _ Ha), (A _ _ Hb), (A _ _ Hc), ?(A _ _ Hd); [|reflexivity].
    rewrite E in Ha. rewrite Hd in Ha. injection Ha as ->. reflexivity.
  Qed.
  Lemma all_edges qs : polygons_of m qs ->
    Permutation (flat_map edges qs) (map edge_at (flat_map sides (m_faces m)) ++ flat_map no_edge (m_faces m)).
  Proof.
    clear Cm Om Bm. unfold polygons_of. induction 1 as [|f q fs qs' Hq H IH]; [constructor|]. cbn [flat_map].
    rewrite (edges_sides f q Hq), map_app, <- !app_assoc. apply Permutation_app_head.
    apply Permutation_trans with (no_edge f ++ map edge_at (flat_map sides fs) ++ flat_map no_edge fs).
    - apply Permutation_app_head. exact IH.
    - apply Permutation_app_swap_app.
  Qed.
  Lemma closed_watertight qs : polygons_of m qs -> watertight qs.
  Proof.
    intros P. unfold watertight. apply all_edges in P.
    apply (Permutation_trans P). apply Permutation_sym. apply (Permutation_trans (Permutation_map swap P)). apply Permutation_sym.
    rewrite map_app. apply Permutation_app.
    - apply (Permutation_trans (Permutation_map edge_at sides_swap)). rewrite !map_map. apply Permutation_refl.
    - assert (E : map swap (flat_map no_edge (m_faces m)) = flat_map no_edge (m_faces m)); [|rewrite E; apply Permutation_refl].
      generalize (m_faces m). intros fs. induction fs as [|f fs IH]; [reflexivity|]. cbn [flat_map]. rewrite map_app, IH. f_equal.
      unfold no_edge. now destruct (Nat.eqb (fa f) (fd f)).
  Qed.
End Closed.

Open Scope R_scope.
Lemma flux_value m qs zmax : polygons_of m qs -> Forall proper_face qs -> watertight qs ->
  vertical_flux zmax (map face_of qs) = Rsum (map signed_volume qs).
Proof.
  intros P G W. unfold vertical_flux. rewrite map_map.
  transitivity (Rsum (map (fun q => vz (flux q) + - zmax * vz (area_of q)) qs)).
  - apply Rsum_ext. intros q Hq. assert (Hp : proper_face q) by now apply (proj1 (Forall_forall _ _) G).
    destruct (face_flux q Hp) as (_ & _ & E1 & E2). fold (flux q) in E2. rewrite <- E1, <- E2. cbn. ring.
  - rewrite Rsum_plus, Rsum_scal. pose proof (closed_area qs W) as A. destruct (closed_flux qs W) as [C1 C2]. pose proof (flux_total qs) as T.
    assert (Z : Rsum (map (fun q => vz (area_of q)) qs) = 0).
    { transitivity (vz (vsum (map area_of qs))); [|now rewrite A]. clear. induction qs as [|q qs IH]; [reflexivity|].
      rewrite !map_cons, Rsum_cons, vsum_cons, IH. reflexivity. }
    rewrite Z. lra.
Qed.

Lemma reversed_polygons vs fs fs' qs : Forall2 same_or_reversed fs fs' -> Forall2 (corners_at vs) fs qs ->
  exists qs', Forall2 (corners_at vs) fs' qs' /\ Forall2 (fun q q' => q' = q \/ q' = poly_flip q) qs qs'.
Proof.
  intros R. revert qs. induction R as [|f g fs fs' Rf R IH]; intros qs H; inversion H; subst.
  - exists []. split; constructor.
  - destruct (IH _ H4) as (qs' & A & B). destruct y as [[[a b] c] d]. destruct Rf as [->| ->].
    + exists ((a, b, c, d) :: qs'). split; constructor; auto.
    + exists ((d, c, b, a) :: qs'). split; constructor; auto. destruct H2 as (? & ? & ? & ?). cbn. auto.
Qed.

Section Outward.
  Variable set_order : list nat -> list nat.
  Hypothesis order_perm : forall l, Permutation l (set_order l).

  Lemma reversed_has f g v : same_or_reversed f g -> (has g v <-> has f v).
  Proof. intros [->| ->]; [reflexivity|]. exact (flip_has f v). Qed.
  Lemma reversed_side f g a b : same_or_reversed f g -> (is_side g a b <-> is_side f a b).
  Proof. intros [->| ->]; [reflexivity|]. exact (is_side_flip f a b). Qed.
  Lemma reversed_wf f g : same_or_reversed f g -> well_formed f -> well_formed g.
  Proof. intros [->| ->] W; [exact W|]. exact (flip_well_formed f W). Qed.
  Lemma reversed_conformal fs fs' : Forall2 same_or_reversed fs fs' -> conformal fs -> conformal fs'.
  Proof.
    intros R (W & P2 & P3).
    assert (B : forall k g, nth_error fs' k = Some g -> exists f, nth_error fs k = Some f /\ same_or_reversed f g)
      by (intros k g E; destruct (Forall2_nth_r _ _ _ _ _ R E) as (f & Ef & Rf); eauto).
    split; [|split].
    - intros g Hg. apply In_nth_error in Hg. destruct Hg as [k Hk]. destruct (B k g Hk) as (f & Ef & Rf).
      apply (reversed_wf f); [exact Rf|]. apply W. now apply nth_error_In in Ef.
    - intros i j f g a b Ef Eg N Nab. destruct (B i f Ef) as (f0 & Ef0 & Rf). destruct (B j g Eg) as (g0 & Eg0 & Rg).
      rewrite !(reversed_has f0 f) by exact Rf. rewrite !(reversed_has g0 g) by exact Rg.
      rewrite !(reversed_side f0 f) by exact Rf. rewrite !(reversed_side g0 g) by exact Rg. intros H1 H2 H3 H4.
      destruct (P2 i j f0 g0 a b Ef0 Eg0 N Nab H1 H2 H3 H4) as (S1 & S2 & U). split; [exact S1|]. split; [exact S2|].
      intros c. rewrite (reversed_has f0 f), (reversed_has g0 g) by assumption. apply U.
    - intros i j k f g h a b Ef Eg Eh Nab. destruct (B i f Ef) as (f0 & Ef0 & Rf). destruct (B j g Eg) as (g0 & Eg0 & Rg). destruct (B k h Eh) as (h0 & Eh0 & Rh).
      rewrite !(reversed_has f0 f) by exact Rf. rewrite !(reversed_has g0 g) by exact Rg. rewrite !(reversed_has h0 h) by exact Rh.
      exact (P3 i j k f0 g0 h0 a b Ef0 Eg0 Eh0 Nab).
  Qed.
  Lemma reversed_sides_either f g a b : same_or_reversed f g -> In (a, b) (sides g) -> is_side f a b.
  Proof. intros R H. apply (reversed_side f g a b R). now left. Qed.
  Lemma reversed_without_boundary fs fs' : Forall2 same_or_reversed fs fs' -> without_boundary fs -> without_boundary fs'.
  Proof.
    intros R Wb i g a b Eg H. destruct (Forall2_nth_r _ _ _ _ _ R Eg) as (f & Ef & Rf).
    assert (G : exists j g', j <> i /\ nth_error fs j = Some g' /\ is_side g' a b).
    { destruct (reversed_sides_either f g a b Rf H) as [S|S].
      - exact (Wb i f a b Ef S).
      - destruct (Wb i f b a Ef S) as (j & g' & N & E & S'). exists j, g'. auto using is_side_sym. }
    destruct G as (j & g' & N & E & S). destruct (Forall2_nth_l _ _ _ _ _ R E) as (g2 & E2 & R2).
    exists j, g2. split; [exact N|]. split; [exact E2|]. now apply (reversed_side g' g2).
  Qed.

  Lemma heal_closed m qs : m_faces m <> [] -> conformal (m_faces m) -> orientable (m_faces m) -> without_boundary (m_faces m) ->
    polygons_of m qs -> Forall proper_face qs ->
    exists m' qs', heal_normals set_order m = Ok m' /\ polygons_of m' qs' /\ Forall proper_face qs' /\ watertight qs'
      /\ 0 <= Rsum (map signed_volume qs').
  Proof.
    intros Nm Cm Om Bm Pm Gm. pose proof (polygons_valid m qs Pm) as Vm.
    destruct (flooded set_order order_perm m Vm Nm Cm Om) as (fs' & _ & H & C' & R & _). specialize (H Bm).
    destruct (reversed_polygons _ _ _ _ R Pm) as (qs' & P' & Rq).
    set (m1 := Mesh (m_vertices m) fs') in *.
    assert (P1 : polygons_of m1 qs') by exact P'.
    assert (G1 : Forall proper_face qs').
    { clear - Rq Gm. induction Rq as [|q q' qs qs' Rq H IH]; [constructor|]. inversion Gm; subst. constructor; [|now apply IH].
      destruct Rq as [->| ->]; [assumption|]. now apply flip_proper. }
    assert (C1 : conformal fs') by now apply (reversed_conformal (m_faces m)).
    assert (B1 : without_boundary fs') by now apply (reversed_without_boundary (m_faces m)).
    assert (N1 : fs' <> []) by (intros ->; inversion R; congruence).
    pose proof (polygons_valid m1 qs' P1) as V1.
    assert (W1 : watertight qs') by now apply (closed_watertight m1 C1 C' B1).
    unfold outwards in H.
    assert (exists z, highest m1 = Ok z) as [z Ez].
    { unfold highest. destruct (m_vertices m1) eqn:Ev; [|eauto]. exfalso. destruct fs' as [|f fs'']; [contradiction|].
      assert (fa f < length (m_vertices m1))%nat by (apply (V1 f); [now left|now left]). rewrite Ev in H0. cbn in H0. lia. }
    rewrite Ez in H. cbn [bind] in H. rewrite (leaf_props m1 qs' P1) in H. cbn [bind] in H.
    rewrite (flux_value m1 qs' z P1 G1 W1) in H.
    destruct (Rltb (Rsum (map signed_volume qs')) 0) eqn:El.
    - exists (flip_normals m1), (map poly_flip qs'). split; [exact H|].
      split; [now apply leaf_polygons_flip|]. split; [|split].
      + apply Forall_forall. intros q Hq. apply in_map_iff in Hq. destruct Hq as (q0 & <- & Hq). apply flip_proper. now apply (proj1 (Forall_forall _ _) G1).
      + apply (closed_watertight (flip_normals m1)).
        * cbn. apply (reversed_conformal fs'); [|exact C1]. clear. induction fs'; constructor; auto. now right.
        * cbn. now apply flip_consistent.
        * cbn. apply (reversed_without_boundary fs'); [|exact B1]. clear. induction fs'; constructor; auto. now right.
        * now apply leaf_polygons_flip.
      + apply Rltb_true in El. rewrite map_map.
        assert (E : Rsum (map (fun q => signed_volume (poly_flip q)) qs') = - Rsum (map signed_volume qs')).
        { clear - G1. induction qs' as [|q qs IH]; [cbn; ring|]. inversion G1; subst. rewrite !map_cons, !Rsum_cons, IH by assumption.
          destruct (flip_proper q H1) as [_ ->]. ring. }
        rewrite E. lra.
    - exists m1, qs'. split; [exact H|]. split; [exact P1|]. split; [exact G1|]. split; [exact W1|]. now apply Rltb_false in El.
  Qed.
End Outward.
