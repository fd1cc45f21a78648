(** The blocks of a matrix cut as a mesh made of pairs. *)
From Coq Require Import List Arith Bool Lia Ring_theory Ring.
From Verif Require Import Model_Base Model_Ring Spec_Ring Proofs_Ring Model_Block Spec_Block Proofs_Block2 Proofs_Block4
  Model_LinSolve Spec_LinSolve Model_Mesh Model_Engine Model_Tree Spec_Tree Model_Precond Spec_Precond.
Import ListNotations.
Open Scope nat_scope.

Inductive leaf_at : tree -> list nat -> nat -> nat -> Prop :=
| la_leaf m : leaf_at (Leaf m) [] 0 (nb_faces m)
| la_left k a b p o s : leaf_at a p o s -> leaf_at (Node k [a; b]) (0 :: p) o s
| la_right k a b p o s : leaf_at b p o s -> leaf_at (Node k [a; b]) (1 :: p) (t_nb_faces a + o) s.

Lemma path_pair k a b : path_to_leaf (Node k [a; b]) = map (cons 0) (path_to_leaf a) ++ map (cons 1) (path_to_leaf b).
Proof. cbn. now rewrite app_nil_r. Qed.
Lemma sizes_pair k a b : sizes (Node k [a; b]) = sizes a ++ sizes b.
Proof. unfold sizes. cbn. now rewrite app_nil_r, map_app. Qed.
Lemma list_sum_app' l r : list_sum (l ++ r) = list_sum l + list_sum r.
Proof. induction l as [|x l IH]; [reflexivity|]. cbn [list_sum fold_right app]. change (fold_right Nat.add 0 (l ++ r)) with (list_sum (l ++ r)). rewrite IH. unfold list_sum. lia. Qed.
Lemma sizes_sum t : clustered t -> list_sum (sizes t) = t_nb_faces t.
Proof.
  induction 1 as [m|k a b _ IHa _ IHb]; [unfold sizes; cbn; lia|].
  rewrite sizes_pair, list_sum_app', IHa, IHb. cbn. lia.
Qed.
Lemma paths_length t : clustered t -> length (path_to_leaf t) = length (sizes t).
Proof. induction 1 as [m|k a b _ IHa _ IHb]; [reflexivity|]. rewrite path_pair, sizes_pair, !app_length, !map_length. congruence. Qed.
Lemma before_app_l l r k : k <= length l -> before (l ++ r) k = before l k.
Proof. intros H. unfold before. rewrite firstn_app. replace (k - length l) with 0 by lia. cbn. now rewrite app_nil_r. Qed.
Lemma before_app_r l r k : before (l ++ r) (length l + k) = list_sum l + before r k.
Proof.
  unfold before. rewrite firstn_app, list_sum_app'. replace (length l + k - length l) with k by lia.
  now rewrite firstn_all2 by lia.
Qed.
Lemma paths_at t : clustered t -> forall k p, nth_error (path_to_leaf t) k = Some p ->
  exists s, nth_error (sizes t) k = Some s /\ leaf_at t p (before (sizes t) k) s.
Proof.
  induction 1 as [m|kd a b Ca IHa Cb IHb]; intros k p H.
  - destruct k as [|k]; [|destruct k; discriminate]. injection H as <-. exists (nb_faces m). split; [reflexivity|]. constructor.
  - rewrite path_pair in H. rewrite sizes_pair.
    pose proof (paths_length a Ca) as La.
    destruct (Nat.lt_ge_cases k (length (path_to_leaf a))) as [Hk|Hk].
    + rewrite nth_error_app1, nth_error_map in H by (rewrite map_length; lia).
      destruct (nth_error (path_to_leaf a) k) as [q|] eqn:E; [|discriminate]. injection H as <-.
      destruct (IHa k q E) as (s & Es & L). exists s. rewrite nth_error_app1 by (apply nth_error_Some; congruence).
      split; [exact Es|]. rewrite before_app_l by lia. now constructor.
    + rewrite nth_error_app2, map_length, nth_error_map in H by (rewrite map_length; lia).
      destruct (nth_error (path_to_leaf b) (k - length (path_to_leaf a))) as [q|] eqn:E; [|discriminate]. injection H as <-.
      destruct (IHb _ q E) as (s & Es & L). exists s. rewrite nth_error_app2 by lia. rewrite <- La. split; [exact Es|].
      replace k with (length (sizes a) + (k - length (path_to_leaf a))) at 1 by lia.
      rewrite before_app_r, sizes_sum by exact Ca. now constructor.
Qed.
Lemma leaf_at_bound t p o s : leaf_at t p o s -> o + s <= t_nb_faces t.
Proof. induction 1; cbn in *; lia. Qed.

Section Blocks.
Context {A : coeffs}.
Hypothesis HA : ring_laws A.
Let HA' : ring_theory (@k0 A) k1 kadd kmul ksub kopp eq := HA.
Add Ring Aring : HA'.
Notation vec := (nat -> K A).
Notation entries := (nat -> nat -> K A).

Lemma paired_clustered (m : mat A) t : paired m t -> clustered t.
Proof. induction 1; now constructor. Qed.
Lemma paired_good (m : mat A) t : paired m t -> match m with Bad _ => False | _ => True end.
Proof. now destruct 1. Qed.
Lemma paired_shape (m : mat A) t : paired m t -> wf m -> shape m = (t_nb_faces t, t_nb_faces t).
Proof.
  induction 1 as [m f|k a b hs ws bl Pa IHa Pb IHb]; intros W; [reflexivity|].
  destruct W as [_ W]. destruct (W 0 0) as [W0 S0]; [lia|lia|]. destruct (W 1 1) as [W1 S1]; [lia|lia|].
  specialize (IHa W0). specialize (IHb W1). rewrite S0 in IHa. rewrite S1 in IHb. injection IHa as H0 V0. injection IHb as H1 V1.
  cbn. f_equal; lia.
Qed.
Lemma wf_good (m : mat A) : wf m -> match m with Bad _ => False | _ => True end.
Proof. now destruct m. Qed.
Lemma sub_block_plain hs ws (bl : nat -> nat -> mat A) i j : wf (Blk Model_Block.Plain 2 2 hs ws bl) -> i < 2 -> j < 2 ->
  sub_block (Blk Model_Block.Plain 2 2 hs ws bl) i j = Ok (bl i j).
Proof.
  intros [_ W] Hi Hj. destruct (W i j Hi Hj) as [Wb _]. pose proof (wf_good _ Wb) as Hb. unfold sub_block. cbn [nb_blocks fst snd all_blocks].
  apply Nat.ltb_lt in Hi. apply Nat.ltb_lt in Hj. rewrite Hi, Hj. cbn [andb]. destruct (bl i j); [contradiction|reflexivity..].
Qed.
Lemma walk_app (m : mat A) p i : walk m (p ++ [i]) = bind (walk m p) (fun x => sub_block x i i).
Proof.
  revert m. induction p as [|k p IH]; intros m; cbn [app walk bind].
  - destruct (sub_block m i i); reflexivity.
  - destruct (sub_block m k k) as [x|e]; [apply IH|reflexivity].
Qed.
Lemma leaf_block_walk (m : mat A) p : is_block m = true -> p <> [] -> leaf_block m p = walk m p.
Proof.
  intros Hb Hp. destruct (exists_last Hp) as (q & i & ->). unfold leaf_block, access_block_by_path, last_of.
  rewrite Hb, removelast_last, rev_app_distr, walk_app. reflexivity.
Qed.
Lemma paired_inv (m : mat A) k a b : paired m (Node k [a; b]) ->
  exists hs ws bl, m = Blk Model_Block.Plain 2 2 hs ws bl /\ paired (bl 0 0) a /\ paired (bl 1 1) b.
Proof. intros P. inversion P; subst. now exists hs, ws, bl. Qed.
Lemma walk_leaf t p o s : leaf_at t p o s -> forall (m : mat A) F, paired m t -> wf m -> represents m F ->
  exists f, walk m p = Ok (Dense s s f) /\ forall i j, i < s -> j < s -> f i j = F (o + i) (o + j).
Proof.
  induction 1 as [m0|k a b p o s L IH|k a b p o s L IH]; intros m F P W R.
  - inversion P; subst. exists f. split; [reflexivity|]. intros i j Hi Hj. symmetry. now apply R.
  - destruct (paired_inv _ _ _ _ P) as (hs & ws & bl & -> & Pa & Pb). cbn [walk]. rewrite sub_block_plain by (assumption || lia). cbn [bind].
    destruct W as [_ W]. destruct (W 0 0) as [W0 S0]; [lia|lia|].
    destruct (IH _ _ Pa W0 (R 0 0 ltac:(lia) ltac:(lia))) as (f & E & Hf). exists f. split; [exact E|]. intros i j Hi Hj. now rewrite Hf.
  - destruct (paired_inv _ _ _ _ P) as (hs & ws & bl & -> & Pa & Pb). cbn [walk]. rewrite sub_block_plain by (assumption || lia). cbn [bind].
    destruct W as [_ W]. destruct (W 0 0) as [W0 S0]; [lia|lia|]. destruct (W 1 1) as [W1 S1]; [lia|lia|].
    pose proof (paired_shape _ _ Pa W0) as Sa. rewrite S0 in Sa. injection Sa as Ha Va.
    destruct (IH _ _ Pb W1 (R 1 1 ltac:(lia) ltac:(lia))) as (f & E & Hf). exists f. split; [exact E|]. intros i j Hi Hj.
    rewrite Hf by assumption. cbn [nsum]. f_equal; lia.
Qed.

Lemma as_array_ok (m : mat A) F : wf m -> represents m F ->
  exists f, as_array m = Ok f /\ forall i j, i < height m -> j < width m -> f i j = F i j.
Proof.
  intros W R. destruct m as [e|h w f|h w r l rr|c nr nc hs ws b]; [destruct W| | |].
  - exists f. split; [reflexivity|]. intros i j Hi Hj. symmetry. now apply R.
  - exists (low_full r l rr). split; [reflexivity|]. intros i j Hi Hj. symmetry. now apply R.
  - destruct (full_matrix_ok _ F W R) as (a & E & _). unfold as_array. rewrite E. eexists. split; [reflexivity|].
    intros i j Hi Hj. now apply full_entries_ok.
Qed.
Lemma vec_mat_ok (m : mat A) F n v : wf m -> represents m F -> n = height m ->
  exists w, vec_mat (n, v) m = Ok (width m, w) /\ forall j, j < width m -> w j = ksum (height m) (fun i => kmul (v i) (F i j)).
Proof.
  intros W R ->. destruct (as_array_ok m F W R) as (f & E & Hf). unfold vec_mat. rewrite E. cbn [bind fst snd]. rewrite Nat.eqb_refl.
  eexists. split; [reflexivity|]. intros j Hj. cbn beta. apply ksum_ext. intros i Hi. now rewrite Hf.
Qed.
Lemma set_part_ok n (va : vec) a b w : a <= b -> b <= n -> fst w = b - a ->
  exists va', set_part n va a b w = Ok va' /\ (forall j, a <= j < b -> va' j = snd w (j - a)) /\ (forall j, j < a \/ b <= j -> va' j = va j).
Proof.
  intros H1 H2 H3. unfold set_part. rewrite !Nat.min_l, H3, Nat.eqb_refl by lia. eexists. split; [reflexivity|].
  split; intros j Hj; destruct (a <=? j) eqn:Ea, (j <? b) eqn:Eb; cbn [andb]; try reflexivity;
    rewrite ?Nat.leb_le, ?Nat.leb_gt, ?Nat.ltb_lt, ?Nat.ltb_ge in *; lia.
Qed.

Lemma window_sum M o s (v : vec) (G : vec) : o + s <= M -> (forall i, i < M -> ~ (o <= i < o + s) -> v i = k0) ->
  ksum M (fun i => kmul (v i) (G i)) = ksum s (fun i => kmul (v (o + i)) (G (o + i))).
Proof using HA.
  intros H Hv. replace M with (o + (s + (M - o - s))) by lia. rewrite !(ksum_split A HA).
  transitivity (kadd (ksum o (fun _ => @k0 A)) (kadd (ksum s (fun i => kmul (v (o + i)) (G (o + i)))) (ksum (M - o - s) (fun _ => @k0 A)))).
  - f_equal; [apply ksum_ext; intros i Hi; rewrite Hv by lia; ring|]. f_equal. apply ksum_ext. intros i Hi. rewrite Hv by lia. ring.
  - rewrite !(ksum_zero A HA). ring.
Qed.

(** The loop on the levels gives the product with the lines of the leaf. *)
Lemma descend_leaf n t p o s : leaf_at t p o s -> forall (m : mat A) F v va lo hi, paired m t -> wf m -> represents m F ->
  (forall x, In x (sizes t) -> 0 < x) -> (forall i, i < t_nb_faces t -> ~ (o <= i < o + s) -> v i = k0) -> lo + t_nb_faces t = hi -> hi <= n ->
  exists va', match p with [] => bind (vec_mat (t_nb_faces t, v) m) (fun w => set_part n va lo hi w) | _ :: _ => descend n p m (t_nb_faces t, v) va lo hi end = Ok va'
    /\ (forall j, j < lo \/ hi <= j -> va' j = va j)
    /\ (forall j, j < t_nb_faces t -> va' (lo + j) = ksum s (fun i => kmul (v (o + i)) (F (o + i) j))).
Proof using HA.
  induction 1 as [m0|k a b p o s L IH|k a b p o s L IH]; intros m F v va lo hi P W R Hs Hv Hl Hn.
  - inversion P; subst. destruct (vec_mat_ok _ F (nb_faces m0) v W R eq_refl) as (w & Ew & Hw). cbn [t_nb_faces]. rewrite Ew. cbn [bind].
    destruct (set_part_ok n va lo (lo + nb_faces m0) (nb_faces m0, w) ltac:(lia) Hn ltac:(cbn; lia)) as (va1 & E1 & V1 & V2).
    exists va1. split; [exact E1|]. split; [exact V2|]. intros j Hj. rewrite V1 by lia. cbn [snd]. replace (lo + j - lo) with j by lia.
    now apply Hw.
  - destruct (paired_inv _ _ _ _ P) as (hs & ws & bl & -> & Pa & Pb). pose proof W as [_ W'].
    destruct (W' 0 0) as [W0 S0]; [lia|lia|]. destruct (W' 1 1) as [W1 S1]; [lia|lia|]. destruct (W' 0 1) as [W01 S01]; [lia|lia|].
    pose proof (paired_shape _ _ Pa W0) as Sa. pose proof (paired_shape _ _ Pb W1) as Sb.
    pose proof Sa as Sa'. pose proof Sb as Sb'. rewrite S0 in Sa'. rewrite S1 in Sb'. injection Sa' as Ha Va. injection Sb' as Hb Vb.
    rewrite sizes_pair in Hs.
    assert (NN : t_nb_faces (Node k [a; b]) = t_nb_faces a + t_nb_faces b) by (cbn; lia).
    assert (H00 : height (bl 0 0) = t_nb_faces a) by (unfold height; now rewrite Sa).
    assert (H01 : height (bl 0 1) = t_nb_faces a) by (unfold height; rewrite S01; cbn; lia).
    assert (W01' : width (bl 0 1) = t_nb_faces b) by (unfold width; rewrite S01; cbn; lia).
    rewrite NN in *. cbn [descend]. rewrite sub_block_plain by (assumption || lia). cbn [bind Nat.eqb].
    rewrite sub_block_plain by (assumption || lia). cbn [bind].
    unfold first_part. cbn [fst snd]. rewrite H00, Nat.min_l by lia.
    destruct (vec_mat_ok (bl 0 1) _ (t_nb_faces a) v W01 (R 0 1 ltac:(lia) ltac:(lia)) ltac:(lia)) as (w & Ew & Hw).
    rewrite Ew. cbn [bind fst]. rewrite W01' in *. replace (hi <? t_nb_faces b) with false by (symmetry; apply Nat.ltb_ge; lia).
    destruct (set_part_ok n va (hi - t_nb_faces b) hi (t_nb_faces b, w) ltac:(lia) Hn ltac:(cbn; lia)) as (va1 & E1 & V1 & V2).
    rewrite E1. cbn [bind snd] in *. pose proof (leaf_at_bound _ _ _ _ L) as Lb.
    destruct (IH (bl 0 0) _ v va1 lo (hi - t_nb_faces b) Pa W0 (R 0 0 ltac:(lia) ltac:(lia))
                ltac:(intros x Hx; apply Hs, in_or_app; now left) ltac:(intros i Hi; apply Hv; lia) ltac:(lia) ltac:(lia)) as (va2 & E2 & V3 & V4).
    exists va2. split; [exact E2|]. split.
    + intros j Hj. rewrite V3, V2 by lia. reflexivity.
    + intros j Hj. destruct (Nat.lt_ge_cases j (t_nb_faces a)) as [Hj'|Hj'].
      * rewrite V4 by exact Hj'. apply ksum_ext. intros i Hi. cbn [nsum]. now rewrite !Nat.add_0_l.
      * rewrite V3, V1 by lia. replace (lo + j - (hi - t_nb_faces b)) with (j - t_nb_faces a) by lia. rewrite Hw by lia.
        rewrite H01. cbn [nsum]. rewrite (window_sum (t_nb_faces a) o s) by (try lia; intros i Hi; apply Hv; lia).
        apply ksum_ext. intros i Hi. do 2 f_equal; lia.
  - destruct (paired_inv _ _ _ _ P) as (hs & ws & bl & -> & Pa & Pb). pose proof W as [_ W'].
    destruct (W' 0 0) as [W0 S0]; [lia|lia|]. destruct (W' 1 1) as [W1 S1]; [lia|lia|]. destruct (W' 1 0) as [W10 S10]; [lia|lia|].
    pose proof (paired_shape _ _ Pa W0) as Sa. pose proof (paired_shape _ _ Pb W1) as Sb.
    pose proof Sa as Sa'. pose proof Sb as Sb'. rewrite S0 in Sa'. rewrite S1 in Sb'. injection Sa' as Ha Va. injection Sb' as Hb Vb.
    rewrite sizes_pair in Hs.
    assert (NN : t_nb_faces (Node k [a; b]) = t_nb_faces a + t_nb_faces b) by (cbn; lia).
    assert (H11 : height (bl 1 1) = t_nb_faces b) by (unfold height; now rewrite Sb).
    assert (H10 : height (bl 1 0) = t_nb_faces b) by (unfold height; rewrite S10; cbn; lia).
    assert (W10' : width (bl 1 0) = t_nb_faces a) by (unfold width; rewrite S10; cbn; lia).
    assert (Pb0 : 0 < t_nb_faces b).
    { pose proof (paired_clustered _ _ Pb) as Cb. rewrite <- (sizes_sum b Cb). destruct (sizes b) as [|x l] eqn:E.
      - pose proof (paths_length b Cb) as Lp. rewrite E in Lp. destruct Cb as [m0|k0 a0 b0 Ca0 Cb0]; [discriminate|].
        rewrite path_pair, app_length, !map_length in Lp. cbn in Lp.
        assert (X : forall t, clustered t -> 0 < length (path_to_leaf t)).
        { clear. induction 1 as [m|k a b _ IHa _ IHb]; [cbn; lia|]. rewrite path_pair, app_length, !map_length. lia. }
        specialize (X a0 Ca0). lia.
      - assert (0 < x) by (apply Hs, in_or_app; right; now left). cbn. lia. }
    rewrite NN in *. cbn [descend]. rewrite sub_block_plain by (assumption || lia). cbn [bind Nat.eqb].
    rewrite sub_block_plain by (assumption || lia). cbn [bind].
    unfold last_part. cbn [fst snd]. rewrite H11. replace (t_nb_faces b =? 0) with false by (symmetry; apply Nat.eqb_neq; lia).
    rewrite Nat.min_l by lia. replace (t_nb_faces a + t_nb_faces b - t_nb_faces b) with (t_nb_faces a) by lia.
    set (v' := fun i => v (t_nb_faces a + i)).
    destruct (vec_mat_ok (bl 1 0) _ (t_nb_faces b) v' W10 (R 1 0 ltac:(lia) ltac:(lia)) ltac:(lia)) as (w & Ew & Hw).
    rewrite Ew. cbn [bind fst]. rewrite W10' in *.
    destruct (set_part_ok n va lo (lo + t_nb_faces a) (t_nb_faces a, w) ltac:(lia) ltac:(lia) ltac:(cbn; lia)) as (va1 & E1 & V1 & V2).
    rewrite E1. cbn [bind snd] in *. pose proof (leaf_at_bound _ _ _ _ L) as Lb.
    assert (Hv' : forall i, i < t_nb_faces b -> ~ (o <= i < o + s) -> v' i = k0) by (intros i Hi Hi'; apply Hv; lia).
    destruct (IH (bl 1 1) _ v' va1 (lo + t_nb_faces a) hi Pb W1 (R 1 1 ltac:(lia) ltac:(lia))
                ltac:(intros x Hx; apply Hs, in_or_app; now right) Hv' ltac:(lia) ltac:(lia)) as (va2 & E2 & V3 & V4).
    exists va2. split; [exact E2|]. split.
    + intros j Hj. rewrite V3, V2 by lia. reflexivity.
    + intros j Hj. destruct (Nat.lt_ge_cases j (t_nb_faces a)) as [Hj'|Hj'].
      * rewrite V3, V1 by lia. replace (lo + j - lo) with j by lia. rewrite Hw by lia. rewrite H10.
        rewrite (window_sum (t_nb_faces b) o s v') by (lia || exact Hv').
        apply ksum_ext. intros i Hi. unfold v'. cbn [nsum]. f_equal; [f_equal; lia|f_equal; lia].
      * replace (lo + j) with (lo + t_nb_faces a + (j - t_nb_faces a)) by lia. rewrite V4 by lia.
        apply ksum_ext. intros i Hi. unfold v'. cbn [nsum]. f_equal; [f_equal; lia|f_equal; lia].
Qed.
End Blocks.
