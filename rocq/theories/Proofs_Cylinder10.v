(** The meshes of vertical cylinders. *)
From Coq Require Import Reals List Bool Arith Lia Lra Permutation ZArith.
From Verif Require Import Model_Base Model_Geometry Model_Mesh Model_Clip Spec_Mesh Spec_Tree Spec_Clip Model_Tree Model_Body Spec_Body
  Proofs_Geometry Proofs_Mesh Proofs_Mesh2 Proofs_Mesh3 Proofs_Clip4 Proofs_Clip5 Proofs_Clip7 Model_Integrals Spec_Integrals Proofs_Integrals Proofs_Tree Proofs_Tree2 Proofs_Body Proofs_Body2 Proofs_Body5
  Model_Quality Spec_Quality Proofs_Quality Model_Normals Spec_Normals Proofs_Normals4 Spec_Grid Model_Grid Proofs_Grid Proofs_Grid2 Proofs_Grid3 Proofs_Grid4 Proofs_Grid5 Proofs_Grid6
  Proofs_Dataset Proofs_Problem Model_Box Proofs_Box3 Proofs_Box4 Proofs_Box5 Proofs_Box6 Model_Cylinder Spec_Cylinder Proofs_Cylinder Proofs_Cylinder2 Proofs_Cylinder3 Proofs_Cylinder4 Proofs_Cylinder5 Proofs_Cylinder6 Proofs_Cylinder7 Proofs_Cylinder8 Proofs_Cylinder9.
Import ListNotations.
Open Scope R_scope.

Lemma corners_valid vs fs qs : Forall2 (corners_at vs) fs qs -> build_mesh vs fs = Ok (Mesh vs fs).
Proof.
  intros H. apply build_mesh_ok. split; [reflexivity|]. intros f i Hf Hi. cbn [m_faces m_vertices] in *. apply In_nth_error in Hf. destruct Hf as [k Hf]. destruct (Forall2_nth_l _ _ _ _ _ H Hf) as (q & _ & C).
  destruct q as [[[a b] c] d]. destruct C as (A & B & C & D). apply nth_error_Some. cbn in Hi. destruct Hi as [<-|[<-|[<-|[<-|[]]]]]; congruence.
Qed.

Section Cylinder.
  Variable argsort : list R -> list nat.
  Hypothesis Hs : sorts argsort.
  Variable set_order : list nat -> list nat.
  Hypothesis Ho : forall l, Permutation l (set_order l).
  Variables (len rad : R) (nr nz T : nat).
  Hypotheses (Hl : 0 < len) (Hr : 0 < rad) (HT : (3 <= T)%nat) (Hside : (0 < nr \/ 0 < nz)%nat).
  Let nz' := Nat.max 1 nz.
  Let n := (nr + nz' + nr)%nat.
  Let prof := cylinder_profile len rad nr nz'.
  Hypothesis Hsz : visible_strips prof n T.
  Hypothesis Hcmp : comparable_strips prof n T.
  Hypothesis Hspread : spread_nodes (node v0 prof T 0) n T.
  Notation P c := (node c prof T 0).
  Let Hz : (0 < nz')%nat. Proof. unfold nz'. lia. Qed.
  Let Hn : (0 < n)%nat. Proof. unfold n. lia. Qed.
  Let Hpos := prof_pos len rad nr nz' Hr Hz : forall i, (i <= n)%nat -> 0 <= fst (prof i).
  Let Hmid := prof_mid len rad nr nz' Hr Hz : forall i, (0 < i < n)%nat -> 0 < fst (prof i).
  Let Hinj := prof_inj len rad nr nz' Hl Hr Hz : forall i i', (i <= n)%nat -> (i' <= n)%nat -> prof i = prof i' -> i = i'.
  Let Hpoles := prof_poles len rad nr nz' Hr Hz : n = 1%nat -> ~ (fst (prof 0) = 0 /\ fst (prof n) = 0).
  Let Hup := prof_up len rad nr nz' Hl Hz : forall i, (i < n)%nat -> snd (prof i) <= snd (prof (S i)).
  Let Hlow := prof_low len rad nr nz' Hr Hz : forall i, (i <= n)%nat -> fst (prof 0) <= fst (prof i).
  Lemma grid_ok N th : (0 < N <= T)%nat -> th = 2 * PI * INR N / INR T ->
    exists m0 m, grid_cylinder len rad th nr N nz = Ok m0 /\ heal_leaf argsort (heal_normals set_order) true m0 = Ok m
      /\ carried m (strips (P v0) n (seq 0 N)) /\ (forall f, In f (m_faces m) -> closes f).
  Proof.
    intros HN ->. unfold grid_cylinder. rewrite angles_are by lia. rewrite (rows_are len rad nr nz Hside). fold (rows_number nr nz). fold nz'. fold prof.
    set (vs := flat_map _ _).
    assert (Rc := raw_corners prof n T N Hn HT HN Hpoles (row_of nr nz) (rows_number nr nz) (row_first nr nz Hside) (row_last nr nz Hside)). fold vs in Rc.
    rewrite (corners_valid _ _ _ Rc). eexists. 
    destruct (grid_healed argsort Hs set_order Ho prof n T N Hn HT HN Hpos Hmid Hinj Hpoles Hup Hlow Hsz Hcmp (row_of nr nz) (rows_number nr nz)) as (m & E & C & Cl).
    - exact (row_first nr nz Hside).
    - exact (row_last nr nz Hside).
    - exact (row_step nr nz Hside).
    - exact (row_near nr nz Hside).
    - intros i j i' j' A B C D. apply (spread_all prof n T 0 Hn HT Hpoles Hspread); lia.
    - exists m. split; [reflexivity|]. split; [exact E|]. split; [|exact Cl]. exact C.
  Qed.
  Lemma simple_ok N th nr0 nt0 nz0 : (0 < N <= T)%nat -> th = 2 * PI * INR N / INR T -> nr0 = Z.of_nat nr -> nt0 = Z.of_nat N -> nz0 = Z.of_nat nz ->
    exists m, simple_cylinder argsort set_order len rad th nr0 nt0 nz0 = Ok (Leaf m) /\ carried m (strips (P v0) n (seq 0 N)) /\ (forall f, In f (m_faces m) -> closes f).
  Proof.
    intros HN E -> -> ->. destruct (grid_ok N th HN E) as (m0 & m & E0 & E1 & C & Cl). unfold simple_cylinder.
    assert (Ck : cylinder_checks len rad (Z.of_nat nr) (Z.of_nat N) (Z.of_nat nz) = true).
    { unfold cylinder_checks. rewrite !(proj2 (Rltb_true 0 _)) by assumption. rewrite !(proj2 (Z.leb_le 0 _)) by lia. reflexivity. }
    rewrite Ck, !Nat2Z.id, E0. cbn [negb bind]. unfold healed_at. cbn [t_heal]. rewrite E1. cbn [bind t_translate]. exists (translate m v0). split; [reflexivity|]. split; [now apply piece_moved|exact Cl].
  Qed.
  Notation is_made c t := (made_of_strips prof n T 0 c t).
  Lemma plain_ok c : exists t, mesh_vertical_cylinder argsort set_order len rad c (Z.of_nat nr) (Z.of_nat T) (Z.of_nat nz) None false false = Ok t /\ is_made c t /\ length (leaves t) = 1%nat.
  Proof.
    assert (IT : INR T <> 0) by (apply not_0_INR; lia).
    destruct (grid_ok T (2 * PI)) as (m0 & m & E0 & E1 & C & Cl); [lia|field; exact IT|].
    assert (Ck : cylinder_checks len rad (Z.of_nat nr) (Z.of_nat T) (Z.of_nat nz) = true).
    { unfold cylinder_checks. rewrite !(proj2 (Rltb_true 0 _)) by assumption. rewrite !(proj2 (Z.leb_le 0 _)) by lia. reflexivity. }
    unfold mesh_vertical_cylinder. rewrite Ck. cbn [negb refined_cylinder bind andb]. rewrite !Nat2Z.id, E0. cbn [bind]. unfold healed_at. cbn [t_heal]. rewrite E1. cbn [bind t_translate].
    exists (Leaf (translate m c)). split; [reflexivity|]. split; [|reflexivity]. apply (pieces_made prof n T 0 c (Leaf (translate m c)) [seq 0 T]); [constructor| |cbn; now rewrite app_nil_r].
    cbn. constructor; [|constructor]. now apply piece_moved.
  Qed.
  (** ** With a vertical plane of symmetry *)
  Lemma mirrored_node i j : (j <= T)%nat -> mirror_point yOz_Plane (P v0 i j) = P v0 i (T - j).
  Proof.
    intros H. assert (IT : INR T <> 0) by (apply not_0_INR; lia). rewrite !spec_node, yOz_point. unfold revolved_node. rewrite minus_INR by exact H.
    replace (2 * PI * (INR T - INR j) / INR T) with (- (2 * PI * INR j / INR T) + 2 * PI) by (field; exact IT).
    rewrite sin_plus, cos_plus, sin_2PI, cos_2PI, sin_neg, cos_neg. apply vec_ext; cbn [vadd vx vy vz v0]; ring.
  Qed.
  Lemma reflection_ok c : Nat.even T = true ->
    exists t, mesh_vertical_cylinder argsort set_order len rad c (Z.of_nat nr) (Z.of_nat T) (Z.of_nat nz) None false true = Ok t /\ is_made c t /\ length (leaves t) = 2%nat.
  Proof.
    intros Ev. apply Nat.even_spec in Ev. destruct Ev as [h Eh]. assert (IT : INR T <> 0) by (apply not_0_INR; lia). assert (Ih : INR T = 2 * INR h) by (rewrite Eh, mult_INR; reflexivity).
    assert (Ck : cylinder_checks len rad (Z.of_nat nr) (Z.of_nat T) (Z.of_nat nz) = true).
    { unfold cylinder_checks. rewrite !(proj2 (Rltb_true 0 _)) by assumption. rewrite !(proj2 (Z.leb_le 0 _)) by lia. reflexivity. }
    assert (Z2 : Z.of_nat T = (2 * Z.of_nat h)%Z) by lia.
    assert (Zm : (Z.of_nat T mod 2)%Z = 0%Z) by (rewrite Z2, Z.mul_comm; apply Z_mod_mult).
    assert (Zd : (Z.of_nat T / 2)%Z = Z.of_nat h) by (rewrite Z2, Z.mul_comm; apply Z.div_mul; lia).
    unfold mesh_vertical_cylinder. rewrite Ck. cbn [negb refined_cylinder bind andb]. rewrite Zm, Zd. change (0 =? 1)%Z with false. cbv iota.
    destruct (simple_ok h (2 * PI / 2) (Z.of_nat nr) (Z.of_nat h) (Z.of_nat nz)) as (m & -> & C & Cl); try reflexivity; [lia|rewrite Ih; field; rewrite Ih in IT; lra|].
    cbn [bind]. unfold ReflectionSymmetricMesh, make_reflection. cbn [pl_normal yOz_Plane vz]. rewrite Reqb_refl. cbn [negb bind copy depth copy_within t_mirror].
    assert (U : unit_vector (pl_normal yOz_Plane)) by (apply unit_dot; cbn; vring).
    assert (Cm : carried (mirror m yOz_Plane) (strips (P v0) n (map (fun j => (T - 1 - j)%nat) (seq 0 h)))).
    { pose proof (carried_mirror yOz_Plane m _ U C) as C'. rewrite map_map in C'. rewrite (strips_map (P v0) (P v0) _ n (seq 0 h) (fun j => (T - 1 - j)%nat)) in C'; [exact C'|].
      intros i j Hi Hj. apply in_seq in Hj. unfold revolved_panel. cbn [poly_map poly_flip]. rewrite !mirrored_node by lia. replace (T - S j)%nat with (T - 1 - j)%nat by lia. replace (S (T - 1 - j)) with (T - j)%nat by lia. reflexivity. }
    destruct (pieces_healed argsort Hs set_order prof n T 0 Hn HT Hpos Hmid Hpoles Hsz Hcmp Hspread (Node (Reflection yOz_Plane) [Leaf m; Leaf (mirror m yOz_Plane)])
      [seq 0 h; map (fun j => (T - 1 - j)%nat) (seq 0 h)] c) as (t & Et & Mt & Lt).
    - constructor; [discriminate|]. intros x [<-|[<-|[]]]; constructor.
    - eauto.
    - cbn. repeat (constructor; [assumption|]). constructor.
    - intros l [<-|[<-|[]]]; split; try (intros E; apply (f_equal (@length nat)) in E; rewrite ?map_length, seq_length in E; cbn in E; lia).
      + intros j Hj. apply in_seq in Hj. lia.
      + intros j Hj. apply in_map_iff in Hj. destruct Hj as (k & <- & Hk). lia.
    - intros m' f [<-|[<-|[]]] Hf; [now apply Cl|]. cbn in Hf. apply in_map_iff in Hf. destruct Hf as (f0 & <- & Hf). apply closes_flip. now apply Cl.
    - cbn [concat]. rewrite app_nil_r. replace T with (h + h)%nat at 1 by lia. rewrite seq_app. apply Permutation_app_head. cbn [plus].
      apply NoDup_Permutation; [apply seq_NoDup|apply NoDup_map_in; [|apply seq_NoDup]; intros x y Hx Hy E; apply in_seq in Hx, Hy; lia|]. intros x. rewrite in_map_iff, in_seq. split.
      + intros Hx. exists (T - 1 - x)%nat. rewrite in_seq. lia.
      + intros (k & <- & Hk). apply in_seq in Hk. lia.
    - exists t. auto.
  Qed.
  (** ** With an axial symmetry *)
  Lemma axial_ok c :
    exists t, mesh_vertical_cylinder argsort set_order len rad c (Z.of_nat nr) (Z.of_nat T) (Z.of_nat nz) None true false = Ok t /\ is_made c t /\ length (leaves t) = T.
  Proof.
    assert (IT : INR T <> 0) by (apply not_0_INR; lia).
    assert (Ck : cylinder_checks len rad (Z.of_nat nr) (Z.of_nat T) (Z.of_nat nz) = true).
    { unfold cylinder_checks. rewrite !(proj2 (Rltb_true 0 _)) by assumption. rewrite !(proj2 (Z.leb_le 0 _)) by lia. reflexivity. }
    unfold mesh_vertical_cylinder. rewrite Ck. cbn [negb refined_cylinder bind andb]. rewrite (proj2 (Z.eqb_neq (Z.of_nat T) 0)) by lia.
    replace (Z.to_nat (Z.of_nat T - 1)) with (T - 1)%nat by lia.
    destruct (simple_ok 1 (2 * PI / IZR (Z.of_nat T)) (Z.of_nat nr) 1%Z (Z.of_nat nz)) as (m & -> & C & Cl); try reflexivity; [lia|rewrite <- INR_IZR_INZ; change (INR 1) with 1; field; exact IT|].
    cbn [bind]. unfold AxialSymmetricMesh, make_axial. replace (Nat.ltb (T - 1) 1) with false by (symmetry; apply Nat.ltb_ge; lia). cbn [copy depth copy_within bind t_rotate].
    rewrite (mapM_map _ (fun i => Leaf (rotate m Oz_axis (2 * INR i * PI / (INR (T - 1) + 1))))) by reflexivity. cbn [bind].
    assert (ET : INR (T - 1) + 1 = INR T) by (rewrite minus_INR by lia; change (INR 1) with 1; ring).
    assert (LL : leaves (Node (Axial Oz_axis) (Leaf m :: map (fun i => Leaf (rotate m Oz_axis (2 * INR i * PI / (INR (T - 1) + 1)))) (seq 1 (T - 1))))
      = m :: map (fun i => rotate m Oz_axis (2 * INR i * PI / (INR (T - 1) + 1))) (seq 1 (T - 1))).
    { cbn [leaves map]. cbn [concat app]. f_equal. rewrite map_map. cbn [leaves]. now rewrite <- flat_map_concat_map, flat_single. }
    destruct (pieces_healed argsort Hs set_order prof n T 0 Hn HT Hpos Hmid Hpoles Hsz Hcmp Hspread
      (Node (Axial Oz_axis) (Leaf m :: map (fun i => Leaf (rotate m Oz_axis (2 * INR i * PI / (INR (T - 1) + 1)))) (seq 1 (T - 1))))
      ([0%nat] :: map (fun k => [(T - k)%nat]) (seq 1 (T - 1))) c) as (t & Et & Mt & Lt).
    - constructor; [discriminate|]. intros x [<-|Hx]; [constructor|]. apply in_map_iff in Hx. destruct Hx as (k & <- & _). constructor.
    - eauto.
    - rewrite LL. cbn [map]. constructor; [exact C|]. rewrite map_map. apply f2_map. intros k Hk. apply in_seq in Hk.
      replace [(T - k)%nat] with (map (fun j => (T - k + j)%nat) (seq 0 1)) by (cbn; now rewrite Nat.add_0_r).
      rewrite <- (strips_map (P v0) (P v0) (poly_map (rotate_point Oz_axis (2 * INR k * PI / (INR (T - 1) + 1))))).
      + apply (carried_moved (rotate_point Oz_axis _)); [|exact C]. intros x y. apply (motion_inj _ _ x y (motion_rotate Oz_axis _ Oz_proper)).
      + intros i j _ _. unfold revolved_panel. cbn [poly_map]. rewrite ET, !turned_node by lia. now rewrite Nat.add_succ_r.
    - intros l [<-|Hl']; [split; [discriminate|]; intros j [<-|[]]; lia|]. apply in_map_iff in Hl'. destruct Hl' as (k & <- & Hk). apply in_seq in Hk. split; [discriminate|]. intros j [<-|[]]. lia.
    - intros m' f Hm Hf. assert (E : m_faces m' = m_faces m).
      { rewrite LL in Hm. destruct Hm as [<-|Hm]; [reflexivity|]. apply in_map_iff in Hm. destruct Hm as (k & <- & _). reflexivity. }
      rewrite E in Hf. now apply Cl.
    - cbn [concat app]. replace T with (S (T - 1)) at 1 by lia. cbn [seq]. constructor. rewrite <- flat_map_concat_map, flat_single.
      apply NoDup_Permutation; [apply seq_NoDup|apply NoDup_map_in; [|apply seq_NoDup]; intros x y Hx Hy E; apply in_seq in Hx, Hy; lia|]. intros x. rewrite in_map_iff, in_seq. split.
      + intros Hx. exists (T - x)%nat. rewrite in_seq. lia.
      + intros (k & <- & Hk). apply in_seq in Hk. lia.
    - exists t. split; [exact Et|]. split; [exact Mt|]. rewrite Lt, LL. cbn [length]. rewrite map_length, seq_length. lia.
  Qed.
  (** ** Volume *)
  Lemma cylinder_solid : (0 < nr)%nat -> solid prof n T = sin (2 * PI / INR T) / 2 * (rad * rad * len).
  Proof.
    intros H. unfold solid, width. f_equal.
    assert (Er := rstep_all rad nr nz' Hz H).
    rewrite (Rsum_ext _ (fun i => rad * rad * (snd (prof (S i)) - snd (prof i)))).
    - rewrite Rsum_scal, (telescope (fun i => snd (prof i)) n). unfold prof. rewrite !(prof_is len rad nr nz' Hz) by (unfold n; lia). cbn [snd]. unfold zcount.
      replace (Nat.min (n - nr) nz') with nz' by (unfold n; lia). replace (Nat.min (0 - nr) nz') with 0%nat by lia. rewrite (zstep_all len nr nz' Hz). cbn [INR]. ring.
    - intros i Hi. apply in_seq in Hi. unfold prof. rewrite !(prof_is len rad nr nz' Hz) by (fold n; lia). cbn [fst snd]. unfold rcount, zcount. replace (Nat.eqb nr 0) with false by (symmetry; apply Nat.eqb_neq; lia). fold n.
      destruct (Nat.eq_dec (Nat.min (S i - nr) nz') (Nat.min (i - nr) nz')) as [E|E]; [rewrite E; field|].
      replace (Nat.min (Nat.min i nr) (n - i)) with nr by (unfold n; lia). replace (Nat.min (Nat.min (S i) nr) (n - S i)) with nr by (unfold n; lia). rewrite Er. field.
  Qed.
  Lemma cylinder_closed c t : (0 < nr)%nat -> is_made c t -> exists qs, proper_surface t qs /\ watertight qs /\ volume t = Ok (INR T / 2 * sin (2 * PI / INR T) * (rad * rad) * len).
  Proof.
    intros H M. assert (E0 : forall i, i = 0%nat \/ i = n -> fst (prof i) = 0).
    { intros i Hi. unfold prof. rewrite (prof_is len rad nr nz' Hz) by (fold n; lia). cbn [fst]. unfold rcount. replace (Nat.eqb nr 0) with false by (symmetry; apply Nat.eqb_neq; lia). fold n.
      replace (Nat.min (Nat.min i nr) (n - i)) with 0%nat by lia. cbn [INR]. ring. }
    destruct (surface_closed prof n T 0 Hn HT Hpos Hmid Hinj Hpoles Hsz c t) as (qs & A & B & Vol); [apply E0; auto|apply E0; auto|exact M|].
    exists qs. split; [exact A|]. split; [exact B|]. rewrite Vol. f_equal. rewrite cylinder_solid by exact H. field.
  Qed.
End Cylinder.
