(** Properties of clusters of bodies. *)
From Coq Require Import Reals String Ascii List Bool Arith ZArith Lra Lia Permutation.
From Verif Require Import Model_Base Model_Geometry Model_Mesh Spec_Mesh Proofs_Mesh Model_Quality Spec_Quality Model_Tree Spec_Tree Proofs_Tree Proofs_Symmetry
  Spec_Clip Model_Integrals Spec_Integrals Proofs_Integrals Proofs_Integrals2 Model_Body Spec_Body Proofs_Body Proofs_Body2 Proofs_Body3 Proofs_Body7 Props_Quality Proofs_Dataset Proofs_Problem
  Spec_Precond Model_Cluster Spec_Cluster Proofs_Cluster Proofs_Cluster2 Props_Body.
Import ListNotations.
Open Scope nat_scope.

(** ** C77 *)

Lemma positions_ok bodies : forall ps, Forall2 buoy_at bodies ps -> mapM buoy_position bodies = Ok ps.
Proof.
  induction bodies as [|b bodies IH]; intros ps H; inversion H as [|b' p l ps' (c & Ec & ->) Hl]; subst; [reflexivity|].
  cbn [mapM]. unfold buoy_position at 1. rewrite Ec. cbn [bind]. rewrite (IH _ Hl). reflexivity.
Qed.
(** The cluster of some bodies is their join, in the order of the leaves of the dendrogram, up to the nesting of the meshes,
    the order of the vertices and the first corners of the faces: the same dofs with the same names, mass, center of mass,
    inertia and stiffness. Missing from the full statement: the meshes must need no healing and have no symmetry, the names
    of the dofs in the assembly must be distinct, and the masses must be positive. *)
Theorem cluster_is_join_partial :
  forall argsort, sorts argsort -> forall heal_normals linkage, links linkage -> forall bodies name positions,
  2 <= List.length bodies -> Forall2 buoy_at bodies positions -> (forall b, In b bodies -> joinable b /\ plain_body b) ->
  NoDup (names_in_assembly bodies) -> (forall b m, In b bodies -> fb_mass b = Some m -> (0 < m)%R) ->
  exists rows a order sorted whole, linkage positions = Ok rows /\ cluster_bodies argsort heal_normals linkage bodies name = Ok a
    /\ fb_name a = match name with Some s => s | None => ("node_" ++ str_nat (2 * List.length bodies - 2))%string end
    /\ dendrogram (List.length bodies) rows (2 * List.length bodies - 2) order /\ Permutation order (seq 0 (List.length bodies))
    /\ Forall2 (fun k b => nth_error bodies k = Some b) order sorted
    /\ join_bodies argsort heal_normals sorted (Some (fb_name a)) = Ok whole /\ same_body a whole /\ assembled_dofs sorted (fb_dofs a).
Proof.
  intros argsort Hs hn linkage [_ HL] bodies name ps two P J Nd M.
  destruct (HL ps) as (rows & El & Hr); [now rewrite <- (f2_length _ _ _ P)|]. rewrite <- (f2_length _ _ _ P) in Hr.
  destruct (cluster_loop argsort Hs hn bodies J Nd M rows Hr two) as (nodes & Em & Ln & x & o & L & z & Ex & Do & Po & Ch & _ & Nx & Ez & Same).
  assert (Ec : cluster_bodies argsort hn linkage bodies name = Ok (match name with Some s => set_name x s | None => x end)).
  { unfold cluster_bodies. destruct bodies as [|b0 bs]; [cbn in two; lia|]. rewrite (positions_ok _ _ P). cbn [bind]. rewrite El. cbn [bind]. rewrite Em. cbn [bind].
    destruct rows as [|row rows']; [destruct Hr as [Hr _]; cbn in Hr, two; lia|]. unfold get. rewrite Ex. reflexivity. }
  assert (Ln' : L <> []). { intros ->. inversion Ch; subst. apply Permutation_nil in Po. destruct bodies; [cbn in two; lia|discriminate]. }
  assert (Pr : Permutation (o ++ []) (seq 0 (List.length bodies))) by now rewrite app_nil_r.
  destruct (part_good bodies J Nd M o [] L Pr Ch Ln') as (G1 & G2 & G3).
  assert (Da : assembled_dofs L (fb_dofs x)).
  { destruct Same as (_ & _ & _ & Ed & _). rewrite Ed.
    destruct (join_kept argsort Hs hn L (node_name (2 * List.length bodies - 2)) Ln' G1 G2 G3) as (z' & Ez' & _ & _ & _ & _ & _ & Dz & _).
    rewrite Ez in Ez'. injection Ez' as <-. rewrite Dz. apply flat_assembled. intros b Hb. apply (G1 b Hb). }
  destruct name as [s|].
  - exists rows, (set_name x s), o, L, (set_name z s). split; [exact El|]. split; [exact Ec|]. split; [reflexivity|]. split; [exact Do|]. split; [exact Po|]. split; [exact Ch|].
    split; [exact (join_name _ _ _ _ s _ Ez)|]. split; [|exact Da]. destruct Same as (_ & S'). split; [reflexivity|exact S'].
  - exists rows, x, o, L, z. split; [exact El|]. split; [exact Ec|]. split; [exact Nx|]. split; [exact Do|]. split; [exact Po|]. split; [exact Ch|].
    split; [rewrite Nx; exact Ez|]. auto.
Qed.
Print Assumptions cluster_is_join_partial.
(** The mesh of the cluster is made of pairs of meshes, as the engine with a preconditioner needs it (see C75). *)
Theorem cluster_mesh_is_clustered :
  forall argsort, sorts argsort -> forall heal_normals linkage, links linkage -> forall bodies name positions,
  2 <= List.length bodies -> Forall2 buoy_at bodies positions -> (forall b, In b bodies -> joinable b /\ plain_body b) ->
  NoDup (names_in_assembly bodies) -> (forall b m, In b bodies -> fb_mass b = Some m -> (0 < m)%R) ->
  (forall b, In b bodies -> exists m, fb_mesh b = Leaf m) ->
  exists a, cluster_bodies argsort heal_normals linkage bodies name = Ok a /\ clustered (fb_mesh a) /\ several (fb_mesh a).
Proof.
  intros argsort Hs hn linkage [_ HL] bodies name ps two P J Nd M Lf.
  destruct (HL ps) as (rows & El & Hr); [now rewrite <- (f2_length _ _ _ P)|]. rewrite <- (f2_length _ _ _ P) in Hr.
  destruct (cluster_loop argsort Hs hn bodies J Nd M rows Hr two) as (nodes & Em & Ln & x & o & L & z & Ex & Do & Po & Ch & Cl & _).
  exists (match name with Some s => set_name x s | None => x end). split.
  - unfold cluster_bodies. destruct bodies as [|b0 bs]; [cbn in two; lia|]. rewrite (positions_ok _ _ P). cbn [bind]. rewrite El. cbn [bind]. rewrite Em. cbn [bind].
    destruct rows as [|row rows']; [destruct Hr as [Hr _]; cbn in Hr, two; lia|]. unfold get. rewrite Ex. reflexivity.
  - assert (Hc : clustered (fb_mesh x) /\ several (fb_mesh x)) by (apply Cl; intros b Hb; destruct (Lf b Hb) as [m ->]; constructor).
    destruct name; exact Hc.
Qed.
Print Assumptions cluster_mesh_is_clustered.
(** One body, or none, cannot be clustered; neither can bodies when one of them has no volume. *)
Theorem cluster_needs_two_bodies :
  forall argsort heal_normals linkage, links linkage -> forall bodies name positions,
  List.length bodies < 2 -> Forall2 buoy_at bodies positions -> cluster_bodies argsort heal_normals linkage bodies name = Err ValueError.
Proof.
  intros argsort hn linkage [HL _] bodies name ps two P. unfold cluster_bodies. destruct bodies as [|b0 bs]; [reflexivity|].
  rewrite (positions_ok _ _ P). cbn [bind]. rewrite HL; [reflexivity|]. now rewrite <- (f2_length _ _ _ P).
Qed.
Print Assumptions cluster_needs_two_bodies.
Theorem cluster_needs_volumes :
  forall argsort heal_normals linkage bodies name, (forall b, In b bodies -> exists c, center_of_buoyancy (fb_mesh b) = Ok c) ->
  (exists b, In b bodies /\ center_of_buoyancy (fb_mesh b) = Ok None) -> cluster_bodies argsort heal_normals linkage bodies name = Err ValueError.
Proof.
  intros argsort hn linkage bodies name All (b & Hb & Eb). unfold cluster_bodies. destruct bodies as [|b0 bs]; [reflexivity|].
  assert (G : mapM buoy_position (b0 :: bs) = Err ValueError); [|now rewrite G].
  clear - All Hb Eb. induction (b0 :: bs) as [|a l IH]; [destruct Hb|]. cbn [mapM]. destruct (All a (or_introl eq_refl)) as [c Ec]. unfold buoy_position at 1. rewrite Ec. cbn [bind].
  destruct c as [c|]; [|reflexivity]. cbn [bind]. rewrite IH; [reflexivity|intros x Hx; apply All; now right|].
  destruct Hb as [->|Hb]; [|exact Hb]. rewrite Ec in Eb. discriminate Eb.
Qed.
Print Assumptions cluster_needs_volumes.

(** The hypotheses are met. *)
(** A matrix that always merges the next body with all the previous ones. *)
Definition chain_row (n i : nat) : nat * nat := (match i with 0 => 0 | S j => n + j end, S i).
Definition chain_linkage (ps : list (R * R)) : result (list (nat * nat)) :=
  if Nat.ltb (List.length ps) 2 then Err ValueError else Ok (map (chain_row (List.length ps)) (seq 0 (List.length ps - 1))).
Example chain_links : links chain_linkage.
Proof.
  split; intros ps H; unfold chain_linkage.
  - apply Nat.ltb_lt in H. now rewrite H.
  - assert (E : Nat.ltb (List.length ps) 2 = false) by (apply Nat.ltb_ge; lia). rewrite E. eexists. split; [reflexivity|].
    set (n := List.length ps) in *. split; [now rewrite map_length, seq_length|].
    assert (G : forall i l r, nth_error (map (chain_row n) (seq 0 (n - 1))) i = Some (l, r) -> i < n - 1 /\ (l, r) = chain_row n i).
    { intros i l r Hi. assert (Li : i < n - 1) by (rewrite <- (seq_length (n - 1) 0), <- (map_length (chain_row n)); apply nth_error_Some; congruence). split; [exact Li|].
      rewrite nth_error_map, (nth_error_nth' _ 0) in Hi by (rewrite seq_length; exact Li). rewrite seq_nth in Hi by exact Li. cbn in Hi. injection Hi as <- <-. reflexivity. }
    intros i l r Hi. destruct (G i l r Hi) as [Li Er]. unfold chain_row in Er. injection Er as -> ->. destruct i as [|i].
    + split; [lia|]. split; [lia|]. split; [lia|]. intros j l' r' Hj. lia.
    + split; [lia|]. split; [lia|]. split; [lia|]. intros j l' r' Hj Ej. destruct (G j l' r' Ej) as [Lj Er]. unfold chain_row in Er. injection Er as -> ->. destruct j as [|j]; lia.
Qed.
Lemma panel_buoy x z name dofs : (z <> 0)%R -> exists p, buoy_at (panel_body name x z dofs) p.
Proof.
  intros Hz. unfold buoy_at, center_of_buoyancy. cbn [panel_body fb_mesh]. pose proof (panel_surface x z) as S. destruct (S) as (F & P & _).
  rewrite (buoyancy_value _ _ F P), (volume_value _ _ S). cbn [bind]. set (w := vsum _). set (v := Rsum _).
  assert (Hv : v <> 0%R).
  { unfold v, panel_polygon, signed_volume, triple. cbn [map]. rewrite Rsum_cons, Rsum_nil. unfold dot, cross. cbn. intros E. apply Hz. lra. }
  rewrite (Reqb_false _ _ Hv). eexists. eexists. split; reflexivity.
Qed.
Definition three_panels : list fbody := two_panels ++ [panel_body "third" 9 (-1) [("Heave"%string, [V 0 0 1])]].
Example cluster_ex : 2 <= List.length three_panels /\ (exists ps, Forall2 buoy_at three_panels ps) /\ (forall b, In b three_panels -> joinable b /\ plain_body b)
  /\ NoDup (names_in_assembly three_panels) /\ (forall b m, In b three_panels -> fb_mass b = Some m -> (0 < m)%R) /\ (forall b, In b three_panels -> exists m, fb_mesh b = Leaf m).
Proof.
  split; [cbn; lia|]. split.
  - destruct (panel_buoy 0 (-1) "left" [("Heave"%string, [V 0 0 1])]) as [p1 H1]; [lra|].
    destruct (panel_buoy 5 (-1) "right" [("Heave"%string, [V 0 0 1]); ("Surge"%string, [V 1 0 0])]) as [p2 H2]; [lra|].
    destruct (panel_buoy 9 (-1) "third" [("Heave"%string, [V 0 0 1])]) as [p3 H3]; [lra|]. exists [p1; p2; p3]. repeat constructor; assumption.
  - destruct join_associative_ex as [A B]. cbn [app] in A, B. split; [exact A|]. split; [exact B|]. split.
    + intros b m [<-|[<-|[<-|[]]]] H; discriminate H.
    + intros b [<-|[<-|[<-|[]]]]; eexists; reflexivity.
Qed.
Example cluster_needs_volumes_ex : center_of_buoyancy (fb_mesh (panel_body "flat" 0 0 [])) = Ok None.
Proof.
  unfold center_of_buoyancy. cbn [panel_body fb_mesh]. pose proof (panel_surface 0 0) as S. destruct (S) as (F & P & _).
  rewrite (buoyancy_value _ _ F P), (volume_value _ _ S). cbn [bind]. set (w := vsum _). set (v := Rsum _).
  assert (Hv : v = 0%R).
  { unfold v, panel_polygon, signed_volume, triple. cbn [map]. rewrite Rsum_cons, Rsum_nil. unfold dot, cross. cbn. lra. }
  rewrite Hv, Reqb_refl. reflexivity.
Qed.
