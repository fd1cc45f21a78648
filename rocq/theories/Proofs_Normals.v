(** Proofs about the connectivities and the orientation of the faces: the adjacent faces. *)
From Coq Require Import Reals List Bool Arith Permutation Lia.
From Verif Require Import Model_Base Model_Geometry Model_Mesh Spec_Mesh Proofs_Mesh Proofs_Mesh2 Model_Normals Spec_Normals.
Import ListNotations.
Open Scope nat_scope.

(** ** Faces *)

Lemma outline_has f v : In v (outline f) <-> has f v.
Proof.
  unfold outline, has, is_tri, face_ids. destruct (Nat.eqb_spec (fa f) (fd f)) as [E|E]; [|reflexivity].
  cbn. rewrite E. tauto.
Qed.
Lemma sides_has f a b : In (a, b) (sides f) -> has f a /\ has f b.
Proof.
  unfold sides, has. destruct (Nat.eqb_spec (fa f) (fd f)) as [E|E]; cbn; intros H;
    repeat destruct H as [H|H]; try contradiction; injection H as <- <-; tauto.
Qed.
Lemma is_side_has f a b : is_side f a b -> has f a /\ has f b.
Proof. intros [H|H]; apply sides_has in H; tauto. Qed.
Lemma is_side_sym f a b : is_side f a b -> is_side f b a.
Proof. unfold is_side. tauto. Qed.
Ltac nd := repeat match goal with N : NoDup (_ :: _) |- _ => apply NoDup_cons_iff in N; destruct N end; cbn [In] in *.
Ltac wf H := destruct H as [[?E H]|H]; nd.
Lemma well_formed_tri f : well_formed f -> fa f <> fd f -> NoDup [fa f; fb f; fc f; fd f].
Proof. intros [[E _]|H] N; [contradiction|exact H]. Qed.
Lemma sides_distinct f a b : well_formed f -> In (a, b) (sides f) -> a <> b.
Proof.
  intros W. unfold sides. destruct (Nat.eqb_spec (fa f) (fd f)) as [E|E]; cbn; intros H; wf W;
    repeat destruct H as [H|H]; try contradiction; injection H as <- <-; intuition congruence.
Qed.
Lemma is_side_distinct f a b : well_formed f -> is_side f a b -> a <> b.
Proof. intros W [H|H]; [exact (sides_distinct f a b W H)|apply not_eq_sym; exact (sides_distinct f b a W H)]. Qed.
Lemma sides_one_way f a b : well_formed f -> In (a, b) (sides f) -> ~ In (b, a) (sides f).
Proof.
  intros W. unfold sides. destruct (Nat.eqb_spec (fa f) (fd f)) as [E|E]; cbn; intros H H'; wf W;
    repeat destruct H as [H|H]; try contradiction; repeat destruct H' as [H'|H']; try contradiction;
    injection H as <- <-; intuition congruence.
Qed.
Lemma sides_flip f a b : In (a, b) (sides (flip_face f)) <-> In (b, a) (sides f).
Proof.
  unfold sides, flip_face. cbn [fa fb fc fd]. rewrite Nat.eqb_sym. destruct (Nat.eqb_spec (fa f) (fd f)) as [E|E]; cbn [In].
  - rewrite E. split; intros H; repeat destruct H as [H|H]; try contradiction; injection H as <- <-; tauto.
  - split; intros H; repeat destruct H as [H|H]; try contradiction; injection H as <- <-; tauto.
Qed.
Lemma flip_has f v : has (flip_face f) v <-> has f v.
Proof. unfold has. cbn. tauto. Qed.
Lemma flip_flip f : flip_face (flip_face f) = f.
Proof. now destruct f. Qed.
Lemma flip_well_formed f : well_formed f -> well_formed (flip_face f).
Proof.
  intros W. destruct W as [[E W]|W].
  - left. cbn. split; [now symmetry|]. nd. repeat constructor; cbn; intuition congruence.
  - right. apply (Permutation_NoDup (l := [fa f; fb f; fc f; fd f])); [|exact W].
    cbn. change [fd f; fc f; fb f; fa f] with (rev [fa f; fb f; fc f; fd f]). apply Permutation_rev.
Qed.
Lemma is_side_flip f a b : is_side (flip_face f) a b <-> is_side f a b.
Proof. unfold is_side. rewrite !sides_flip. tauto. Qed.

Lemma links_side f i j : In (i, j) (links (outline f)) <-> is_side f i j.
Proof.
  unfold links, outline, is_side, sides, is_tri, face_ids. destruct (Nat.eqb_spec (fa f) (fd f)) as [E|E]; cbn; split; intros H.
  - repeat destruct H as [H|H]; try contradiction; injection H as <- <-; tauto.
  - destruct H as [H|H]; repeat destruct H as [H|H]; try contradiction; injection H as <- <-; tauto.
  - repeat destruct H as [H|H]; try contradiction; injection H as <- <-; tauto.
  - destruct H as [H|H]; repeat destruct H as [H|H]; try contradiction; injection H as <- <-; tauto.
Qed.

(** ** Sets *)

Lemma set_add_In x s y : In y (set_add x s) <-> y = x \/ In y s.
Proof.
  unfold set_add. destruct (memb x s) eqn:E.
  - apply memb_In in E. split; [tauto|]. intros [->|H]; assumption.
  - rewrite in_app_iff. cbn. intuition.
Qed.
Lemma set_add_NoDup x s : NoDup s -> NoDup (set_add x s).
Proof.
  intros H. unfold set_add. destruct (memb x s) eqn:E; [exact H|].
  apply NoDup_Add with (a := x) (l := s); [|split; [exact H|]].
  - rewrite <- (app_nil_r s) at 1. apply Add_app.
  - intros I. apply memb_In in I. congruence.
Qed.
Lemma set_inter_In s1 s2 x : In x (set_inter s1 s2) <-> In x s1 /\ In x s2.
Proof. unfold set_inter. now rewrite filter_In, memb_In. Qed.
Lemma set_nth_length {A} i (x : A) l : length (set_nth i x l) = length l.
Proof. revert i. induction l as [|y l IH]; intros [|i]; cbn; auto. Qed.
Lemma set_nth_same {A} i (x : A) l : i < length l -> nth_error (set_nth i x l) i = Some x.
Proof. revert i. induction l as [|y l IH]; intros [|i] H; cbn in *; [lia|lia|reflexivity|apply IH; lia]. Qed.
Lemma set_nth_other {A} i j (x : A) l : j <> i -> nth_error (set_nth i x l) j = nth_error l j.
Proof. revert i j. induction l as [|y l IH]; intros [|i] [|j] H; cbn; auto; try congruence. Qed.

Lemma faces_around_In fs i k : In k (faces_around fs i) <-> exists f, nth_error fs k = Some f /\ has f i.
Proof.
  unfold faces_around. rewrite positions_In. split; intros (f & E & H); exists f; (split; [exact E|]).
  - now apply outline_has, memb_In.
  - now apply memb_In, outline_has.
Qed.
Lemma vertices_around_gen ps i j s :
  In j (fold_left (fun s p => if Nat.eqb (fst p) i then set_add (snd p) s else s) ps s) <-> In j s \/ In (i, j) ps.
Proof.
  revert s. induction ps as [|[a b] ps IH]; intros s; cbn [fold_left fst snd]; [cbn; tauto|].
  rewrite IH. destruct (Nat.eqb_spec a i) as [->|N]; [rewrite set_add_In|]; cbn; intuition congruence.
Qed.
Lemma vertices_around_In fs i j : In j (vertices_around fs i) <-> exists f, In f fs /\ is_side f i j.
Proof.
  unfold vertices_around. rewrite vertices_around_gen, in_flat_map. cbn. split.
  - intros [[]|(f & Hf & H)]. exists f. split; [exact Hf|]. now apply links_side.
  - intros (f & Hf & H). right. exists f. split; [exact Hf|]. now apply links_side.
Qed.

(** ** The table of the adjacent faces *)

Definition linked (t : list (list nat)) (a b : nat) : Prop := exists s, nth_error t a = Some s /\ In b s.
Definition common (fs : list face) (k i j : nat) : Prop := exists f, nth_error fs k = Some f /\ has f i /\ has f j.
Definition adjacent (fs : list face) (a b : nat) : Prop :=
  a <> b /\ exists i j, i <> j /\ common fs a i j /\ common fs b i j.

Lemma adjacent_sym fs a b : adjacent fs a b -> adjacent fs b a.
Proof. intros (N & i & j & M & A & B). split; [congruence|]. exists i, j. auto. Qed.

Lemma linked_set t k s a b : k < length t ->
  (linked (set_nth k s t) a b <-> (a = k /\ In b s) \/ (a <> k /\ linked t a b)).
Proof.
  intros Hk. unfold linked. destruct (Nat.eq_dec a k) as [->|N].
  - rewrite set_nth_same by exact Hk. split.
    + intros (s' & E & H). injection E as <-. auto.
    + intros [[_ H]|[H _]]; [eauto|contradiction].
  - rewrite set_nth_other by exact N. split.
    + intros H. right. auto.
    + intros [[H _]|[_ H]]; [contradiction|exact H].
Qed.
Lemma linked_add t k s c a b : nth_error t k = Some s ->
  (linked (set_nth k (set_add c s) t) a b <-> linked t a b \/ (a = k /\ b = c)).
Proof.
  intros E. rewrite linked_set by (apply nth_error_Some; congruence). rewrite set_add_In. unfold linked.
  destruct (Nat.eq_dec a k) as [->|N].
  - split.
    + intros [[_ [->|H]]|[H _]]; [auto|left; eauto|contradiction].
    + intros [(s' & E' & H)|[_ ->]]; left; (split; [reflexivity|]); [|auto]. rewrite E in E'. injection E' as <-. auto.
  - split.
    + intros [[H _]|[_ H]]; [contradiction|auto].
    + intros [H|[H _]]; [auto|contradiction].
Qed.

Section Connectivity.
  Variable set_order : list nat -> list nat.
  Hypothesis order_perm : forall l, Permutation l (set_order l).
  Variable fs : list face.
  Hypothesis Hc : conformal fs.

  Lemma order_In l x : In x (set_order l) <-> In x l.
  Proof. split; apply Permutation_in; [apply Permutation_sym|]; apply order_perm. Qed.
  Lemma order_NoDup l : NoDup l -> NoDup (set_order l).
  Proof. apply Permutation_NoDup, order_perm. Qed.

  Lemma boundary_edge_ok f i j : well_formed f -> is_side f i j -> exists e, boundary_edge f i j = Ok e.
  Proof.
    intros W S. pose proof (is_side_distinct f i j W S) as N. unfold boundary_edge, outline, is_tri, face_ids.
    unfold is_side, sides in S. destruct (Nat.eqb_spec (fa f) (fd f)) as [E|E].
    - wf W; [|intuition congruence].
      destruct S as [S|S]; cbn in S; repeat destruct S as [S|S]; try contradiction; injection S as <- <-;
        unfold positions; cbn [length seq combine filter snd map fst];
        repeat match goal with |- context [Nat.eqb ?x ?y] => destruct (Nat.eqb_spec x y); [try (exfalso; intuition congruence)|try (exfalso; intuition congruence)] end;
        cbn [orb map fst nth_error get bind]; eexists; reflexivity.
    - wf W; [contradiction|].
      destruct S as [S|S]; cbn in S; repeat destruct S as [S|S]; try contradiction; injection S as <- <-;
        unfold positions; cbn [length seq combine filter snd map fst];
        repeat match goal with |- context [Nat.eqb ?x ?y] => destruct (Nat.eqb_spec x y); [try (exfalso; intuition congruence)|try (exfalso; intuition congruence)] end;
        cbn [orb map fst nth_error get bind]; eexists; reflexivity.
  Qed.

  Lemma connect_ok st i j f : length (fst st) = length fs -> In f fs -> is_side f i j ->
    exists st', connect set_order fs st i j = Ok st' /\ length (fst st') = length fs
      /\ (forall a b, linked (fst st') a b <-> linked (fst st) a b \/ (a <> b /\ common fs a i j /\ common fs b i j))
      /\ (without_boundary fs -> snd st' = snd st).
  Proof.
    intros L Hf S. destruct Hc as (W & P2 & P3). pose proof (is_side_distinct f i j (W f Hf) S) as N.
    unfold connect. set (l := set_order _).
    assert (Hl : forall k, In k l <-> common fs k i j).
    { intros k. unfold l, common. rewrite order_In, set_inter_In, !faces_around_In. split.
      - intros [(g & E & H) (g' & E' & H')]. exists g. rewrite E in E'. injection E' as <-. auto.
      - intros (g & E & H & H'). split; eauto. }
    assert (ND : NoDup l) by (apply order_NoDup; unfold set_inter; apply NoDup_filter; apply positions_NoDup).
    apply In_nth_error in Hf. destruct Hf as [k Hk]. destruct (is_side_has f i j S) as [Hi Hj].
    assert (Ik : In k l) by (apply Hl; exists f; auto).
    destruct l as [|x [|y [|z l]]].
    - destruct Ik.
    - assert (x = k) as -> by (destruct Ik as [?|[]]; assumption).
      unfold get at 1. rewrite Hk. cbn [bind].
      destruct (boundary_edge_ok f i j (W f (nth_error_In _ _ Hk)) S) as [e ->]. cbn [bind].
      eexists. split; [reflexivity|]. cbn [fst snd]. split; [exact L|]. split.
      + intros a b. split; [auto|]. intros [H|(Nab & A & B)]; [exact H|]. apply Hl in A. apply Hl in B. cbn in A, B. destruct A as [<-|[]], B as [<-|[]]. contradiction.
      + intros Wb. exfalso.
        assert (G : exists k' g, k' <> k /\ nth_error fs k' = Some g /\ is_side g i j).
        { destruct S as [S|S]; destruct (Wb k f _ _ Hk S) as (k' & g & Nk & Eg & Sg); exists k', g; (split; [exact Nk|]; split; [exact Eg|]); [exact Sg|now apply is_side_sym]. }
        destruct G as (k' & g & Nk & Eg & Sg). assert (In k' [k]) by (apply Hl; exists g; split; [exact Eg|now apply is_side_has]).
        cbn in H. intuition congruence.
    - assert (Nxy : x <> y) by (apply NoDup_cons_iff in ND; destruct ND as [ND _]; intros ->; apply ND; now left).
      destruct (proj1 (Hl x) (or_introl eq_refl)) as (fx & Ex & Hx). destruct (proj1 (Hl y) (or_intror (or_introl eq_refl))) as (fy & Ey & Hy).
      assert (Lx : x < length (fst st)) by (rewrite L; apply nth_error_Some; congruence).
      assert (Ly : y < length (fst st)) by (rewrite L; apply nth_error_Some; congruence).
      destruct (nth_error (fst st) x) as [sx|] eqn:Sx; [|apply nth_error_None in Sx; lia].
      unfold get at 1. rewrite Sx. cbn [bind]. set (t := set_nth x (set_add y sx) (fst st)).
      assert (Lt : length t = length fs) by (unfold t; now rewrite set_nth_length).
      destruct (nth_error t y) as [sy|] eqn:Sy; [|apply nth_error_None in Sy; lia].
      unfold get at 1. rewrite Sy. cbn [bind]. eexists. split; [reflexivity|]. cbn [fst snd].
      split; [now rewrite set_nth_length|]. split; [|reflexivity].
      intros a b. rewrite (linked_add t y sy x a b Sy). unfold t. rewrite (linked_add (fst st) x sx y a b Sx). split.
      + intros [[H|[-> ->]]|[-> ->]]; [auto| |]; right; (split; [congruence|]); split; apply Hl; cbn; auto.
      + intros [H|(Nab & A & B)]; [auto|]. apply Hl in A. apply Hl in B. cbn in A, B.
        destruct A as [<-|[<-|[]]], B as [<-|[<-|[]]]; try contradiction; auto.
    - exfalso. destruct (proj1 (Hl x) (or_introl eq_refl)) as (fx & Ex & Ax & Bx).
      destruct (proj1 (Hl y) (or_intror (or_introl eq_refl))) as (fy & Ey & Ay & By).
      destruct (proj1 (Hl z) (or_intror (or_intror (or_introl eq_refl)))) as (fz & Ez & Az & Bz).
      pose proof (P3 x y z fx fy fz i j Ex Ey Ez N Ax Bx Ay By Az Bz) as D.
      clear - ND D. nd. destruct D as [<-|[<-|<-]]; tauto.
  Qed.

  Lemma connect_all_ok pairs : forall st, length (fst st) = length fs ->
    (forall i j, In (i, j) pairs -> exists f, In f fs /\ is_side f i j) ->
    exists st', connect_all set_order fs st pairs = Ok st' /\ length (fst st') = length fs
      /\ (forall a b, linked (fst st') a b <-> linked (fst st) a b \/ (a <> b /\ exists i j, In (i, j) pairs /\ common fs a i j /\ common fs b i j))
      /\ (without_boundary fs -> snd st' = snd st).
  Proof.
    induction pairs as [|[i j] pairs IH]; intros st L H.
    - exists st. cbn. split; [reflexivity|]. split; [exact L|]. split; [|reflexivity]. intros a b. split; [auto|].
      intros [G|(_ & i & j & [] & _)]. exact G.
    - destruct (H i j (or_introl eq_refl)) as (f & Hf & S).
      destruct (connect_ok st i j f L Hf S) as (st1 & E1 & L1 & G1 & B1).
      destruct (IH st1 L1) as (st2 & E2 & L2 & G2 & B2); [intros; apply H; now right|].
      exists st2. cbn [connect_all]. rewrite E1. cbn [bind]. split; [exact E2|]. split; [exact L2|]. split.
      + intros a b. rewrite G2, G1. split.
        * intros [[K|(Nab & A & B)]|(Nab & i' & j' & I & AB)]; [auto| |]; right; (split; [exact Nab|]); [exists i, j|exists i', j']; cbn; auto.
        * intros [K|(Nab & i' & j' & [I|I] & A & B)]; [auto| |].
          -- injection I as <- <-. auto.
          -- right. split; [exact Nab|]. exists i', j'. auto.
      + intros Wb. rewrite B2, B1 by exact Wb. reflexivity.
  Qed.
End Connectivity.

Section Mesh.
  Variable set_order : list nat -> list nat.
  Hypothesis order_perm : forall l, Permutation l (set_order l).
  Variable m : mesh.
  Hypothesis Vm : valid m.
  Hypothesis Hc : conformal (m_faces m).

  Lemma connectivity_ok : exists ff bs, compute_connectivity set_order m = Ok (ff, bs) /\ length ff = length (m_faces m)
    /\ (forall a b, linked ff a b <-> adjacent (m_faces m) a b) /\ (without_boundary (m_faces m) -> bs = []).
  Proof.
    unfold compute_connectivity.
    assert (E : forallb (fun f => forallb (fun i => Nat.ltb i (nb_vertices m)) (outline f)) (m_faces m) = true).
    { apply forallb_forall. intros f Hf. apply forallb_forall. intros i Hi. apply Nat.ltb_lt. apply outline_has in Hi. exact (Vm f i Hf Hi). }
    rewrite E. cbn [negb].
    set (pairs := flat_map _ _).
    assert (Hp : forall i j, In (i, j) pairs <-> exists f, In f (m_faces m) /\ is_side f i j).
    { intros i j. unfold pairs. rewrite in_flat_map. split.
      - intros (k & Hk & H). apply in_map_iff in H. destruct H as (j' & Ej & H). injection Ej as -> ->.
        apply (proj1 (order_In set_order order_perm _ _)) in H. now apply vertices_around_In in H.
      - intros (f & Hf & S). exists i. split.
        + apply in_seq. split; [lia|]. apply is_side_has in S. exact (Vm f i Hf (proj1 S)).
        + apply in_map_iff. exists j. split; [reflexivity|]. apply (proj2 (order_In set_order order_perm _ _)), vertices_around_In. eauto. }
    destruct (connect_all_ok set_order order_perm (m_faces m) Hc pairs (map (fun _ => []) (m_faces m), []))
      as (st & -> & L & G & B).
    - cbn. apply map_length.
    - intros i j H. now apply Hp.
    - cbn [bind]. eexists _, _. split; [reflexivity|]. split; [exact L|]. split.
      + intros a b. rewrite G. unfold adjacent. split.
        * intros [(s & Es & Hs)|(N & i & j & I & AB)].
          -- cbn in Es. rewrite nth_error_map in Es. destruct (nth_error (m_faces m) a); [|discriminate]. injection Es as <-. destruct Hs.
          -- split; [exact N|]. exists i, j. split; [|exact AB]. apply Hp in I. destruct I as (f & Hf & S). destruct Hc as [W _].
             exact (is_side_distinct f i j (W f Hf) S).
        * intros (N & i & j & Nij & (f & Ef & Hf1 & Hf2) & (g & Eg & Hg1 & Hg2)). right. split; [exact N|]. exists i, j.
          split; [|split; [exists f|exists g]; auto]. apply Hp. exists f. split; [now apply nth_error_In in Ef|].
          destruct Hc as (_ & P2 & _). now apply (P2 a b f g i j).
      + intros Wb. rewrite (B Wb). reflexivity.
  Qed.
End Mesh.
