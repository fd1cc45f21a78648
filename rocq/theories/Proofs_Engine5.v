From Coq Require Import Reals List Bool ZArith Arith Lia Lra.
From Verif Require Import Model_Base Model_Ring Model_Block Spec_Block Proofs_Block Proofs_Block2 Model_Geometry Proofs_Geometry
  Model_Mesh Spec_Mesh Proofs_Mesh Model_Quality Model_Tree Spec_Tree Proofs_Tree Proofs_Symmetry Model_Engine Spec_Engine
  Proofs_Engine Proofs_Engine2 Proofs_Engine3 Proofs_Engine4.
Import ListNotations.
Open Scope nat_scope.

(** ** The faces of a tree are those of its leaves *)
Lemma raw_leaves t : forall r, t_raw t = Ok r -> exists rss, mapM mesh_raw (leaves t) = Ok rss /\ r = concat rss.
Proof.
  induction t as [m|k l IH] using tree_induction; intros r H.
  - cbn [leaves mapM]. cbn [t_raw] in H. rewrite H. cbn [bind]. exists [r]. split; [reflexivity|]. cbn. now rewrite app_nil_r.
  - destruct (raw_node _ _ _ H) as (rs & E & _ & ->). clear H. cbn [leaves]. revert rs E.
    induction l as [|x l IHl]; intros rs E.
    + cbn in E. apply Ok_inj' in E. subst rs. exists []. now split.
    + cbn [mapM] in E. destruct (t_raw x) as [rx|] eqn:Ex; [|discriminate]. cbn [bind] in E.
      destruct (mapM t_raw l) as [rl|] eqn:El; [|discriminate]. cbn [bind] in E. apply Ok_inj' in E. subst rs.
      destruct (IH x (or_introl eq_refl) rx Ex) as (a & Ea & ->).
      destruct (IHl (fun y Hy => IH y (or_intror Hy)) rl eq_refl) as (b & Eb & Hb).
      exists (a ++ b). cbn [map concat]. rewrite mapM_app, Ea, Eb. cbn [bind]. split; [reflexivity|].
      now rewrite concat_app, Hb.
Qed.
Lemma raw_filled t : forall r, t_raw t = Ok r -> filled t.
Proof.
  induction t as [m|k l IH] using tree_induction; intros r H; [constructor|].
  destruct (raw_node _ _ _ H) as (rs & E & Hl & _). constructor; [exact Hl|].
  intros x Hx. apply In_nth_error in Hx. destruct Hx as [j Hj]. destruct (mapM_nth _ _ _ E j x Hj) as (y & Ey & _).
  apply (IH x (nth_error_In _ _ Hj) y Ey).
Qed.
Lemma get_ok {X} (l : list X) i x : get l i = Ok x -> nth_error l i = Some x.
Proof. unfold get. destruct (nth_error l i); [|discriminate]. intros H. apply Ok_inj' in H. now subst. Qed.
Lemma face_points_ok vs f q : face_points vs f = Ok q ->
  nth_error vs (fa f) = Some (qa q) /\ nth_error vs (fb f) = Some (qb q) /\ nth_error vs (fc f) = Some (qc q) /\ nth_error vs (fd f) = Some (qd q).
Proof.
  unfold face_points. intros H.
  destruct (get vs (fa f)) as [a|] eqn:Ea; [|discriminate]. destruct (get vs (fb f)) as [b|] eqn:Eb; [|discriminate].
  destruct (get vs (fc f)) as [c|] eqn:Ec; [|discriminate]. destruct (get vs (fd f)) as [d|] eqn:Ed; [|discriminate].
  cbn [bind] in H. apply Ok_inj' in H. subst q. cbn. repeat split; now apply get_ok.
Qed.
Lemma mesh_raw_nth m r j tri q : mesh_raw m = Ok r -> nth_error r j = Some (tri, q) ->
  exists f, nth_error (m_faces m) j = Some f /\ face_points (m_vertices m) f = Ok q /\ tri = is_tri f.
Proof.
  intros H Hj. unfold mesh_raw in H. destruct (nth_error_in_range _ _ _ _ (mapM_length _ _ _ H) Hj) as [f Ef].
  destruct (mapM_nth _ _ _ H j f Ef) as (y & Ey & Hy). rewrite Hj in Hy. injection Hy as <-.
  destruct (face_points (m_vertices m) f) as [q'|] eqn:Eq; [|discriminate]. cbn [bind] in Ey. apply Ok_inj' in Ey.
  injection Ey as <- <-. eauto.
Qed.
Lemma mesh_raw_valid m r : mesh_raw m = Ok r -> valid m.
Proof.
  intros H f i Hf Hi. apply In_nth_error in Hf. destruct Hf as [j Hj]. unfold mesh_raw in H.
  destruct (mapM_nth _ _ _ H j f Hj) as (y & Ey & _). destruct (face_points (m_vertices m) f) as [q|] eqn:Eq; [|discriminate].
  destruct (face_points_ok _ _ _ Eq) as (A1 & A2 & A3 & A4).
  destruct Hi as [<-|[<-|[<-|[<-|[]]]]]; apply nth_error_Some; congruence.
Qed.
Lemma raw_valid t r : t_raw t = Ok r -> all_valid t.
Proof.
  intros H m Hm. destruct (raw_leaves _ _ H) as (rss & E & _). apply In_nth_error in Hm. destruct Hm as [k Hk].
  destruct (mapM_nth _ _ _ E k m Hk) as (y & Ey & _). exact (mesh_raw_valid m y Ey).
Qed.
Lemma faces_before_sizes : forall ms rss, mapM mesh_raw ms = Ok rss -> forall k, k <= length ms -> faces_before ms k = nsum k (sizes rss).
Proof.
  induction ms as [|m ms IH]; intros rss H k Hk.
  - cbn in Hk. assert (k = 0) by lia. subst k. reflexivity.
  - cbn [mapM] in H. destruct (mesh_raw m) as [r|] eqn:Er; [|discriminate]. cbn [bind] in H.
    destruct (mapM mesh_raw ms) as [rs|] eqn:Ers; [|discriminate]. cbn [bind] in H. apply Ok_inj' in H. subst rss.
    destruct k as [|k]; [reflexivity|]. rewrite nsum_cons. cbn [faces_before].
    cbn [length] in Hk. rewrite (IH rs eq_refl k) by lia.
    unfold sizes. cbn [nth]. f_equal. symmetry. exact (mapM_length _ _ _ Er).
Qed.
Lemma raw_face t r i tri q : t_raw t = Ok r -> nth_error r i = Some (tri, q) ->
  face_is (whole (leaves t)) i (qa q) (qb q) (qc q) (qd q) /\ (tri = true -> qa q = qd q) /\ i < t_nb_faces t.
Proof.
  intros H Hi. destruct (raw_leaves _ _ H) as (rss & E & ->).
  assert (Hl : i < length (concat rss)) by (apply nth_error_Some; congruence).
  destruct (concat_position rss i Hl) as (k & j & -> & Hk & Hj). rewrite concat_nth in Hi by exact Hj.
  destruct (nth_error (leaves t) k) as [m|] eqn:Em; [|apply nth_error_None in Em; rewrite (mapM_length _ _ _ E) in Hk; lia].
  destruct (mapM_nth _ _ _ E k m Em) as (y & Ey & Hy).
  rewrite (nth_error_nth _ _ [] Hy) in Hi.
  destruct (mesh_raw_nth _ _ _ _ _ Ey Hi) as (f & Ef & Eq & ->).
  pose proof (whole_gathers (leaves t) (raw_valid _ _ H)) as (_ & _ & Hn & W).
  assert (HF : face_is m j (qa q) (qb q) (qc q) (qd q)) by (exists f; split; [exact Ef|exact (face_points_ok _ _ _ Eq)]).
  assert (Ek : nsum k (sizes rss) = faces_before (leaves t) k).
  { symmetry. apply (faces_before_sizes _ _ E). rewrite <- (mapM_length _ _ _ E). lia. }
  rewrite Ek. split; [|split].
  - exact (W k m j _ _ _ _ Em HF).
  - unfold is_tri. intros Ht. apply Nat.eqb_eq in Ht. destruct (face_points_ok _ _ _ Eq) as (A1 & _ & _ & A4). rewrite Ht, A4 in A1. congruence.
  - destruct (W k m j _ _ _ _ Em HF) as (g & Eg & _). rewrite nb_faces_leaves. unfold total_faces. rewrite <- Hn.
    apply nth_error_Some. congruence.
Qed.
Lemma raw_length t r : t_raw t = Ok r -> length r = t_nb_faces t.
Proof.
  intros H. destruct (raw_leaves _ _ H) as (rss & E & ->). rewrite nb_faces_leaves. clear H. revert rss E.
  induction (leaves t) as [|m ms IH]; intros rss E.
  - cbn in E. apply Ok_inj' in E. now subst.
  - cbn [mapM] in E. destruct (mesh_raw m) as [r|] eqn:Er; [|discriminate]. cbn [bind] in E.
    destruct (mapM mesh_raw ms) as [rs|]; [|discriminate]. cbn [bind] in E. apply Ok_inj' in E. subst rss.
    cbn [concat]. rewrite app_length, total_faces_cons, (IH rs eq_refl). f_equal. exact (mapM_length _ _ _ Er).
Qed.

(** A triangle and the same face seen as a flat quadrangle have the same properties. *)
Lemma triangle_as_quad q : qa q = qd q -> props_of true q = props_of false q.
Proof.
  destruct q as [a b c d]. cbn [qd qa]. intros <-.
  assert (En : cross (vsub c a) (vsub a b) = cross (vsub b a) (vsub c a)) by (revert a b c; vring).
  assert (Ez : norm (cross (vsub a a) (vsub c a)) = 0%R).
  { apply norm_zero. clear. revert a c. vring. }
  assert (E : tri_props (Q a b c a) = quad_props (Q a b c a)).
  { unfold tri_props, quad_props. cbn [qa qb qc qd]. rewrite En, Ez.
    destruct (Rltb (Rabs (norm (cross (vsub b a) (vsub c a)))) degenerate_tol) eqn:D; [reflexivity|].
    set (l := norm (cross (vsub b a) (vsub c a))) in *.
    assert (Hl : (l <> 0)%R).
    { intros Z. rewrite Z, Rabs_R0 in D. apply Rltb_false in D. unfold degenerate_tol in D. lra. }
    f_equal; [f_equal; field|]. clear -Hl. destruct a as [a1 a2 a3], b as [b1 b2 b3], c as [c1 c2 c3].
    unfold vscale, vadd. cbn. apply vec_ext; cbn; field; lra. }
  unfold props_of. now rewrite E.
Qed.

Section Hierarchical.
Context {A : coeffs}.
Variable P : bool -> quad -> Prop.
Variable G : bool -> panel -> panel -> A * A.
Variable rel : A -> A -> Prop.
Hypothesis rel_refl : forall x, rel x x.
Variable ks : list kind.
Hypothesis Hresp : forall k, In k ks -> respects P G k.
Hypothesis Hcoh : coherent ks.
Variable argsort : list R -> list nat.
Variable ACA_distance : R.
Hypothesis Hdist : (0 <= ACA_distance)%R.
Variable aca : (nat -> result (mat A * mat A)) -> (nat -> result (mat A * mat A)) -> nat -> nat -> result (option (mat A * mat A)).
Hypothesis Haca : accurate rel aca.
Notation good := (good G rel).
Notation hier := (hierarchical_matrices G argsort ACA_distance aca).

Definition blocks_case (same : bool) (t1 t2 : tree) : result (mat A * mat A) :=
  match t1, t2 with
  | Node _ l1, Node _ l2 =>
    bind (sequence (mapi (fun i x1 => sequence (mapi (fun j x2 => hier (same && (i =? j)) x1 x2) l2)) l1))
         (fun ls => Ok (block_matrix ls))
  | _, _ => evaluate G same t1 t2
  end.
Definition aca_case (same : bool) (t1 t2 : tree) : result (mat A * mat A) :=
  bind (far argsort ACA_distance t1 t2) (fun b =>
  if b : bool then
    bind (aca (one_row G t1 t2) (one_col G t1 t2) (t_nb_faces t1) (t_nb_faces t2)) (fun o =>
    match o with Some r => Ok r | None => blocks_case same t1 t2 end)
  else blocks_case same t1 t2).

(** Exact coefficients, as functions. *)
Definition exact (pr : bool) (r1 r2 : list raw) (i j : nat) : A :=
  match coef G false r1 r2 i j with Some x => sel pr x | None => junk end.

Lemma one_row_ok t1 t2 r1 r2 i : t_raw t1 = Ok r1 -> t_raw t2 = Ok r2 -> i < length r1 ->
  exists r, one_row G t1 t2 i = Ok r /\ shape (fst r) = (1, length r2) /\ shape (snd r) = (1, length r2)
    /\ represents (fst r) (fun _ j => exact true r1 r2 i j) /\ represents (snd r) (fun _ j => exact false r1 r2 i j).
Proof.
  intros E1 E2 Hi. destruct (nth_error r1 i) as [[tri q]|] eqn:Ei; [|apply nth_error_None in Ei; lia].
  destruct (raw_face _ _ _ _ _ E1 Ei) as (HF & Ht & Hn).
  unfold one_row. rewrite (t_extract_one_spec t1 (raw_filled _ _ E1) (raw_valid _ _ E1) i _ _ _ _ Hn HF). cbn [bind].
  unfold evaluate. rewrite (t_panels_raw t2), E2. cbn [bind]. eexists. split; [reflexivity|]. cbn [fst snd].
  split; [unfold dense; cbn [shape length]; now rewrite map_length|].
  split; [unfold dense; cbn [shape length]; now rewrite map_length|].
  assert (EP : panel_raw (tri, q) = panel_of (is_tri (F 0 1 2 3)) (Q (qa q) (qb q) (qc q) (qd q))).
  { unfold panel_raw, panel_of. cbn [fst snd]. change (is_tri (F 0 1 2 3)) with false. destruct q as [a b c d]. cbn [qa qb qc qd] in *.
    destruct tri; [|reflexivity]. now rewrite triangle_as_quad by (now apply Ht). }
  split; intros i' j Hi' Hj; rewrite map_length in Hj; unfold exact; rewrite coef_nth, Ei;
    (destruct (nth_error r2 j) as [b|] eqn:Ej; [|apply nth_error_None in Ej; lia]);
    assert (i' = 0) by (cbn in Hi'; lia); subst i'; unfold coefficient;
    rewrite nth_error_map, Ej; cbn [nth_error option_map andb sel]; rewrite EP; reflexivity.
Qed.
Lemma one_col_ok t1 t2 r1 r2 j : t_raw t1 = Ok r1 -> t_raw t2 = Ok r2 -> j < length r2 ->
  exists r, one_col G t1 t2 j = Ok r /\ shape (fst r) = (length r1, 1) /\ shape (snd r) = (length r1, 1)
    /\ represents (fst r) (fun i _ => exact true r1 r2 i j) /\ represents (snd r) (fun i _ => exact false r1 r2 i j).
Proof.
  intros E1 E2 Hj. destruct (nth_error r2 j) as [[tri q]|] eqn:Ei; [|apply nth_error_None in Ei; lia].
  destruct (raw_face _ _ _ _ _ E2 Ei) as (HF & Ht & Hn).
  unfold one_col. rewrite (t_extract_one_spec t2 (raw_filled _ _ E2) (raw_valid _ _ E2) j _ _ _ _ Hn HF). cbn [bind].
  unfold evaluate. rewrite (t_panels_raw t1), E1. cbn [bind]. eexists. split; [reflexivity|]. cbn [fst snd].
  split; [unfold dense; cbn [shape length]; now rewrite map_length|].
  split; [unfold dense; cbn [shape length]; now rewrite map_length|].
  assert (EP : panel_raw (tri, q) = panel_of (is_tri (F 0 1 2 3)) (Q (qa q) (qb q) (qc q) (qd q))).
  { unfold panel_raw, panel_of. cbn [fst snd]. change (is_tri (F 0 1 2 3)) with false. destruct q as [a b c d]. cbn [qa qb qc qd] in *.
    destruct tri; [|reflexivity]. now rewrite triangle_as_quad by (now apply Ht). }
  split; intros i j' Hi Hj'; rewrite map_length in Hi; unfold exact; rewrite coef_nth, Ei;
    (destruct (nth_error r1 i) as [b|] eqn:Ej; [|apply nth_error_None in Ej; lia]);
    assert (j' = 0) by (cbn in Hj'; lia); subst j'; unfold coefficient;
    rewrite nth_error_map, Ej; cbn [nth_error option_map andb sel]; rewrite EP; reflexivity.
Qed.

Lemma close_good pr r1 r2 sk : wf (sel pr sk) -> shape (sel pr sk) = (length r1, length r2) ->
  (exists F, represents (sel pr sk) F /\ forall i j, i < length r1 -> j < length r2 -> rel (F i j) (exact pr r1 r2 i j)) ->
  good pr false r1 r2 sk.
Proof.
  intros W Sh (F & HF & HR). split; [exact W|]. split; [now rewrite !map_length|].
  intros F' HF' i j x Hx. destruct (coefficient_some _ _ _ _ _ _ _ Hx) as [Hi Hj]. rewrite map_length in Hi, Hj.
  rewrite (represents_unique _ W F' F HF' HF i j) by (unfold height, width; rewrite Sh; assumption).
  specialize (HR i j Hi Hj). unfold exact, coef in HR. rewrite Hx in HR. exact HR.
Qed.

Lemma diameter_positive t d : diameter_of_nodes argsort t = Ok d -> (0 <= d)%R.
Proof.
  unfold diameter_of_nodes. destruct (t_merged argsort t); [|discriminate]. cbn [bind].
  destruct (mean_point (m_vertices a)); [|discriminate]. intros H. apply Ok_inj' in H. subst d.
  assert (Pos : forall l, (0 <= fold_right Rmax 0 l)%R).
  { induction l as [|x l IH]; cbn; [lra|]. apply Rle_trans with (1 := IH). apply Rmax_r. }
  specialize (Pos (map (fun v0 : vec => norm (vsub v0 v)) (m_vertices a))). lra.
Qed.
Lemma far_self t : far argsort ACA_distance t t = Ok true -> False.
Proof.
  unfold far. destruct (diameter_of_nodes argsort t) as [d|] eqn:E; [|discriminate]. cbn [bind].
  pose proof (diameter_positive _ _ E) as Hd.
  assert (Hf : match t_center t, t_center t with Some c1, Some c2 => Rltb (ACA_distance * d) (norm (vsub c1 c2)) | _, _ => false end = false).
  { destruct (t_center t) as [c|]; [|reflexivity]. apply Rltb_false.
    assert (Z : norm (vsub c c) = 0%R) by (apply norm_zero; revert c; vring). rewrite Z.
    apply Rmult_le_pos; assumption. }
  rewrite Hf. discriminate.
Qed.

Section Tail.
  Variables t1 t2 : tree.
  Hypothesis IH : forall k l x1, t1 = Node k l -> In x1 l -> forall x2 same r1 r2 sk, regular x2 -> incl (kinds x2) ks ->
    (same = true -> x1 = x2) -> t_raw x1 = Ok r1 -> t_raw x2 = Ok r2 -> within P r1 -> within P r2 -> hier same x1 x2 = Ok sk -> forall pr, good pr same r1 r2 sk.
  Lemma blocks_good same r1 r2 sk : regular t2 -> incl (kinds t2) ks -> (same = true -> t1 = t2) ->
    t_raw t1 = Ok r1 -> t_raw t2 = Ok r2 -> within P r1 -> within P r2 -> blocks_case same t1 t2 = Ok sk -> forall pr, good pr same r1 r2 sk.
  Proof.
    intros HR2 HK2 HS E1 E2 W1 W2 H pr.
    destruct (evaluate_good G rel rel_refl same t1 t2 r1 r2 E1 E2) as (sk0 & Esk0 & Gsk0).
    unfold blocks_case in H.
    destruct t1 as [m1|k1 l1]; [rewrite Esk0 in H; apply Ok_inj' in H; subst; apply Gsk0|].
    destruct t2 as [m2|k2 l2]; [rewrite Esk0 in H; apply Ok_inj' in H; subst; apply Gsk0|].
    clear sk0 Esk0 Gsk0.
    destruct (sequence _) as [ls|] eqn:Els in H; [|discriminate]. cbn [bind] in H. apply Ok_inj' in H. subst sk.
    destruct (raw_node _ _ _ E1) as (rs1 & Ers1 & Hl1 & ->). destruct (raw_node _ _ _ E2) as (rs2 & Ers2 & Hl2 & ->).
    pose proof (mapM_length _ _ _ Ers1) as Len1. pose proof (mapM_length _ _ _ Ers2) as Len2.
    destruct (sequence_nth _ _ Els) as [Lls Nls]. rewrite mapi_length in Lls.
    assert (Rows : forall I l, nth_error ls I = Some l -> exists x1, nth_error l1 I = Some x1
              /\ sequence (mapi (fun j x2 => hier (same && (I =? j)) x1 x2) l2) = Ok l).
    { intros I l Hl. destruct (nth_error_in_range l1 ls I l) as [x1 Hx1]; [lia|exact Hl|].
      exists x1. split; [exact Hx1|]. destruct (Nls I _ (mapi_nth _ _ _ _ Hx1)) as (y & Ey & Hy). congruence. }
    apply block_good.
    - destruct l1; [congruence|]. cbn in Len1. lia.
    - destruct l2; [congruence|]. cbn in Len2. lia.
    - lia.
    - intros HT. specialize (HS HT). injection HS as <- <-. congruence.
    - intros I l Hl. destruct (Rows I l Hl) as (x1 & _ & Es). destruct (sequence_nth _ _ Es) as [L _]. rewrite mapi_length in L. lia.
    - intros I J l sk a b Hl Hsk Ha Hb. destruct (Rows I l Hl) as (x1 & Hx1 & Es).
      destruct (sequence_nth _ _ Es) as [L N]. rewrite mapi_length in L.
      destruct (nth_error_in_range l2 l J sk L Hsk) as [x2 Hx2].
      destruct (N J _ (mapi_nth _ _ _ _ Hx2)) as (y & Ey & Hy). rewrite Hsk in Hy. injection Hy as <-.
      destruct (mapM_nth _ _ _ Ers1 I x1 Hx1) as (a' & Ea & Ha'). rewrite Ha in Ha'. injection Ha' as <-.
      destruct (mapM_nth _ _ _ Ers2 J x2 Hx2) as (b' & Eb & Hb'). rewrite Hb in Hb'. injection Hb' as <-.
      apply (IH k1 l1 x1 eq_refl (nth_error_In _ _ Hx1) x2 (same && (I =? J)) a b sk); try assumption.
      + exact (regular_parts _ _ HR2 x2 (nth_error_In _ _ Hx2)).
      + exact (kinds_sub ks _ _ x2 HK2 (nth_error_In _ _ Hx2)).
      + intros HT. apply andb_prop in HT. destruct HT as [HT HT2]. apply Nat.eqb_eq in HT2. subst J.
        specialize (HS HT). injection HS as <- <-. congruence.
      + exact (within_concat P _ _ W1 (nth_error_In _ _ Ha)).
      + exact (within_concat P _ _ W2 (nth_error_In _ _ Hb)).
  Qed.
  Lemma aca_good same r1 r2 sk : regular t2 -> incl (kinds t2) ks -> (same = true -> t1 = t2) ->
    t_raw t1 = Ok r1 -> t_raw t2 = Ok r2 -> within P r1 -> within P r2 -> aca_case same t1 t2 = Ok sk -> forall pr, good pr same r1 r2 sk.
  Proof.
    intros HR2 HK2 HS E1 E2 W1 W2 H pr. unfold aca_case in H.
    destruct (far argsort ACA_distance t1 t2) as [b|] eqn:Ef; [|discriminate]. cbn [bind] in H.
    destruct b; [|exact (blocks_good same r1 r2 sk HR2 HK2 HS E1 E2 W1 W2 H pr)].
    destruct (aca _ _ _ _) as [o|] eqn:Ea in H; [|discriminate]. cbn [bind] in H.
    destruct o as [sk'|]; [|exact (blocks_good same r1 r2 sk HR2 HK2 HS E1 E2 W1 W2 H pr)].
    apply Ok_inj' in H. subst sk'.
    destruct same; [exfalso; specialize (HS eq_refl); subst t2; exact (far_self _ Ef)|].
    destruct sk as [S0 K0]. rewrite <- (raw_length _ _ E1), <- (raw_length _ _ E2) in Ea.
    destruct (Haca _ _ _ _ (exact true r1 r2) (exact false r1 r2) S0 K0
       (fun i Hi => one_row_ok t1 t2 r1 r2 i E1 E2 Hi) (fun j Hj => one_col_ok t1 t2 r1 r2 j E1 E2 Hj) Ea) as [(Wf1 & Sh1 & X1) (Wf2 & Sh2 & X2)].
    destruct pr; now apply close_good.
  Qed.
End Tail.

Lemma hier_good : forall t1, regular t1 -> incl (kinds t1) ks ->
  forall t2 same r1 r2 sk, regular t2 -> incl (kinds t2) ks -> (same = true -> t1 = t2) ->
  t_raw t1 = Ok r1 -> t_raw t2 = Ok r2 -> within P r1 -> within P r2 -> hier same t1 t2 = Ok sk -> forall pr, good pr same r1 r2 sk.
Proof.
  induction t1 as [m|k l IH] using tree_induction; intros HR1 HK1 t2 same r1 r2 sk HR2 HK2 HS E1 E2 W1 W2 H pr.
  - apply (aca_good (Leaf m) t2 ltac:(discriminate) same r1 r2 sk); try assumption.
  - assert (IH' : forall k' l' x1, Node k l = Node k' l' -> In x1 l' -> forall x2 same r1 r2 sk, regular x2 -> incl (kinds x2) ks ->
      (same = true -> x1 = x2) -> t_raw x1 = Ok r1 -> t_raw x2 = Ok r2 -> within P r1 -> within P r2 -> hier same x1 x2 = Ok sk -> forall pr, good pr same r1 r2 sk).
    { intros k' l' x1 E Hx1. injection E as <- <-. apply (IH x1 Hx1 (regular_parts _ _ HR1 x1 Hx1) (kinds_sub ks _ _ x1 HK1 Hx1)). }
    assert (T : forall sk, aca_case same (Node k l) t2 = Ok sk -> forall pr, good pr same r1 r2 sk).
    { intros sk0. now apply aca_good. }
    destruct k as [|p|v i|a].
    + apply T. destruct t2; exact H.
    + destruct t2 as [m2|[|q|v i|a] l2]; try (apply T; exact H).
      cbn [hierarchical_matrices] in H. destruct (plane_eqb p q) eqn:Epq; [|apply T; exact H]. clear T.
      destruct (regular_reflection_inv _ _ HR1) as (x1 & o1 & -> & Hm1).
      destruct (regular_reflection_inv _ _ HR2) as (x2 & o2 & -> & Hm2).
      destruct (reflection_raw _ _ _ _ Hm1 E1) as (s1 & Ex1 & Eo1 & ->).
      destruct (reflection_raw _ _ _ _ Hm2 E2) as (s2 & Ex2 & Eo2 & ->).
      assert (I1 : In (Reflection p) ks) by (apply HK1; now left).
      assert (I2 : In (Reflection q) ks) by (apply HK2; now left).
      assert (HS' : same = true -> x1 = x2) by (intros HT; specialize (HS HT); congruence).
      destruct (hier same x1 x2) as [a|] eqn:Ea; [|discriminate]. cbn [bind] in H.
      destruct (hier false x1 o2) as [b|] eqn:Eb; [|discriminate]. cbn [bind] in H. apply Ok_inj' in H. subst sk.
      destruct (Hresp _ I2) as [Hq Hinv].
      destruct (within_app _ _ _ W1) as [Ws1 _]. destruct (within_app _ _ _ W2) as [Ws2 Wo2].
      rewrite (img_ext (mirrored_quad p) (mirrored_quad q)) by (now apply (same_planes ks Hcoh)).
      apply (reflection_good P); try assumption.
      * intros x. now apply mirrored_involution.
      * intros HT. rewrite (HS' HT) in Ex1. rewrite Ex1 in Ex2. apply Ok_inj' in Ex2. now subst.
      * apply (IH' _ _ x1 eq_refl (or_introl eq_refl) x2 same s1 s2 a); try assumption.
        -- exact (regular_parts _ _ HR2 x2 (or_introl eq_refl)).
        -- exact (kinds_sub ks _ _ x2 HK2 (or_introl eq_refl)).
      * apply (IH' _ _ x1 eq_refl (or_introl eq_refl) o2 false s1 _ b); try assumption.
        -- exact (regular_parts _ _ HR2 o2 (or_intror (or_introl eq_refl))).
        -- exact (kinds_sub ks _ _ o2 HK2 (or_intror (or_introl eq_refl))).
        -- discriminate.
    + destruct t2 as [m2|[|q|u i'|a] l2]; try (apply T; exact H).
      cbn [hierarchical_matrices] in H. destruct (vec_allclose v u && (length l =? length l2)) eqn:Evu; [|apply T; exact H]. clear T.
      apply andb_prop in Evu. destruct Evu as [Evu Elen]. apply Nat.eqb_eq in Elen.
      assert (I1 : In (Translation v i) ks) by (apply HK1; now left).
      assert (I2 : In (Translation u i') ks) by (apply HK2; now left).
      pose proof (Hcoh _ _ I1 I2 Evu) as Euv. cbn in Euv. subst u.
      destruct (regular_translation_inv _ _ _ HR1) as (x1 & n & ->).
      destruct (regular_translation_inv _ _ _ HR2) as (x2 & n2 & ->).
      cbn [length] in Elen. rewrite !map_length, !seq_length in Elen. injection Elen as <-.
      destruct (translation_raw _ _ _ _ _ E1) as (s1 & Ex1 & -> & P1).
      destruct (translation_raw _ _ _ _ _ E2) as (s2 & Ex2 & -> & P2).
      set (l1 := x1 :: map (fun i => t_translate x1 (vscale (INR i) v)) (seq 1 n)) in *.
      set (l2 := x2 :: map (fun i => t_translate x2 (vscale (INR i) v)) (seq 1 n)) in *.
      destruct (sequence _) as [upper|] eqn:Eu in H; [|discriminate]. cbn [bind] in H.
      destruct (sequence _) as [lower|] eqn:El in H; [|discriminate]. cbn [bind] in H. apply Ok_inj' in H. subst sk.
      destruct (sequence_nth _ _ Eu) as [Lu Nu]. rewrite mapi_length in Lu.
      destruct (sequence_nth _ _ El) as [Ll Nl]. rewrite rev_length, !map_length, seq_length in Ll.
      pose proof (within_first P (shift v) n s1 (shift_zero' v) W1) as Ws1. pose proof (within_first P (shift v) n s2 (shift_zero' v) W2) as Ws2.
      assert (Sh : forall a, invariant_under P G (shift v a)) by (intros a; exact (shift_invariant P G v a (Hresp _ I1))).
      apply (toeplitz_good P G rel (shift v) (shift_plus v) Sh s1 s2 Ws1 Ws2).
      * intros HT. specialize (HS HT). assert (x1 = x2) as -> by (clear -HS; unfold l1, l2 in HS; congruence). rewrite Ex1 in Ex2. apply Ok_inj' in Ex2. now subst.
      * rewrite Lu. unfold l2. cbn [length]. now rewrite map_length, seq_length.
      * exact Ll.
      * intros j sk Hsk. destruct (nth_error_in_range l2 upper j sk Lu Hsk) as [y Hy].
        destruct (Nu j _ (mapi_nth _ _ _ _ Hy)) as (z & Ez & Hz). rewrite Hsk in Hz. injection Hz as <-.
        apply (IH' _ _ x1 eq_refl (or_introl eq_refl) y (same && (0 =? j)) s1 _ sk).
        -- exact (regular_parts _ _ HR2 y (nth_error_In _ _ Hy)).
        -- exact (kinds_sub ks _ _ y HK2 (nth_error_In _ _ Hy)).
        -- intros HT. apply andb_prop in HT. destruct HT as [HT Hj]. apply Nat.eqb_eq in Hj. subst j.
           specialize (HS HT). unfold l2 in Hy. cbn in Hy. clear -HS Hy. unfold l1, l2 in HS. congruence.
        -- exact Ex1.
        -- exact (P2 j y Hy).
        -- exact Ws1.
        -- exact (within_img P _ _ (proj1 (Sh j)) Ws2).
        -- exact Ez.
      * intros m sk Hsk.
        assert (Hm : m < n) by (rewrite <- Ll; apply nth_error_Some; congruence).
        assert (Ly : length (map (fun y1 => hier false y1 x2) (map (fun i => t_translate x1 (vscale (INR i) v)) (seq 1 n))) = n)
          by now rewrite !map_length, seq_length.
        destruct (nth_error l1 (n - m)) as [y|] eqn:Hy; [|apply nth_error_None in Hy; unfold l1 in Hy; cbn in Hy; rewrite map_length, seq_length in Hy; lia].
        assert (Hy' : nth_error (map (fun i => t_translate x1 (vscale (INR i) v)) (seq 1 n)) (n - S m) = Some y).
        { unfold l1 in Hy. replace (n - m) with (S (n - S m)) in Hy by lia. exact Hy. }
        assert (Hr : nth_error (rev (map (fun y1 => hier false y1 x2) (map (fun i => t_translate x1 (vscale (INR i) v)) (seq 1 n)))) m = Some (hier false y x2)).
        { rewrite (nth_error_nth' _ (hier false y x2)) by (rewrite rev_length; lia). rewrite rev_nth by lia. rewrite Ly.
          f_equal. apply nth_error_nth. rewrite nth_error_map, Hy'. reflexivity. }
        destruct (Nl m _ Hr) as (z & Ez & Hz). rewrite Hsk in Hz. injection Hz as <-.
        apply (IH' _ _ y eq_refl (nth_error_In _ _ Hy) x2 false _ s2 sk).
        -- exact (regular_parts _ _ HR2 x2 (or_introl eq_refl)).
        -- exact (kinds_sub ks _ _ x2 HK2 (or_introl eq_refl)).
        -- discriminate.
        -- exact (P1 _ y Hy).
        -- exact Ex2.
        -- exact (within_img P _ _ (proj1 (Sh (n - m))) Ws1).
        -- exact Ws2.
        -- exact Ez.
    + destruct t2 as [m2|[|q|u i'|b] l2]; try (apply T; exact H).
      cbn [hierarchical_matrices] in H. destruct (axis_eqb a b && (length l =? length l2)) eqn:Eab; [|apply T; exact H]. clear T.
      apply andb_prop in Eab. destruct Eab as [Eab Elen]. apply Nat.eqb_eq in Elen.
      assert (I1 : In (Axial a) ks) by (apply HK1; now left).
      assert (I2 : In (Axial b) ks) by (apply HK2; now left).
      pose proof (Hcoh _ _ I1 I2 Eab) as Eab'. cbn in Eab'.
      destruct (regular_axial_inv _ _ HR1) as (x1 & n & ->).
      destruct (regular_axial_inv _ _ HR2) as (x2 & n2 & ->).
      cbn [length] in Elen. rewrite !map_length, !seq_length in Elen. injection Elen as <-.
      destruct (axial_raw _ _ _ _ E1) as (s1 & Ex1 & -> & P1).
      destruct (axial_raw _ _ _ _ E2) as (s2 & Ex2 & -> & P2).
      assert (ET : forall j q, turn b n j q = turn a n j q) by (intros; apply moved_ext; intros; symmetry; apply Eab').
      assert (ER : map (fun i => map (img (turn b n i)) s2) (seq 0 (S n)) = map (fun i => map (img (turn a n i)) s2) (seq 0 (S n))).
      { apply map_ext. intros j. apply img_ext. apply ET. }
      pose proof W2 as W2'. rewrite ER. rewrite ER in W2. clear ER.
      set (l2 := x2 :: map (fun i => t_rotate x2 b (2 * INR i * PI / (INR n + 1))) (seq 1 n)) in *.
      destruct (sequence _) as [blocks|] eqn:Eu in H; [|discriminate]. cbn [bind] in H. apply Ok_inj' in H. subst sk.
      destruct (sequence_nth _ _ Eu) as [Lu Nu]. rewrite mapi_length in Lu.
      destruct (Hresp _ I1) as [Ha Hinv].
      pose proof (within_first P (turn a n) n s1 (turn_zero a n) W1) as Ws1. pose proof (within_first P (turn b n) n s2 (turn_zero b n) W2') as Ws2.
      apply (circulant_good P G rel (turn a n) (fun i j q => turn_plus a n i j q Ha) (fun i => Hinv _) s1 s2 Ws1 Ws2).
      * intros q. now apply turn_full.
      * intros HT. specialize (HS HT). assert (x1 = x2) as -> by (clear -HS; unfold l2 in HS; congruence). rewrite Ex1 in Ex2. apply Ok_inj' in Ex2. now subst.
      * rewrite Lu. unfold l2. cbn [length]. now rewrite map_length, seq_length.
      * intros j sk Hsk. destruct (nth_error_in_range l2 blocks j sk Lu Hsk) as [y Hy].
        destruct (Nu j _ (mapi_nth _ _ _ _ Hy)) as (z & Ez & Hz). rewrite Hsk in Hz. injection Hz as <-.
        apply (IH' _ _ x1 eq_refl (or_introl eq_refl) y (same && (0 =? j)) s1 _ sk).
        -- exact (regular_parts _ _ HR2 y (nth_error_In _ _ Hy)).
        -- exact (kinds_sub ks _ _ y HK2 (nth_error_In _ _ Hy)).
        -- intros HT. apply andb_prop in HT. destruct HT as [HT Hj]. apply Nat.eqb_eq in Hj. subst j.
           specialize (HS HT). unfold l2 in Hy. cbn in Hy. clear -HS Hy. unfold l2 in HS. congruence.
        -- exact Ex1.
        -- rewrite (P2 j y Hy). f_equal. apply img_ext. apply ET.
        -- exact Ws1.
        -- exact (within_img P _ _ (proj1 (Hinv _)) Ws2).
        -- exact Ez.
Qed.
End Hierarchical.
