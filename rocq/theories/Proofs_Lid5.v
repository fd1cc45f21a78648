From Coq Require Import Reals List Bool Arith ZArith Lia Lra Psatz.
From Verif Require Import Model_Base Model_Geometry Model_Mesh Spec_Mesh Spec_Clip Proofs_Geometry Model_Lid Spec_Lid.
Import ListNotations.
Open Scope R_scope.

(** ** When a point is above a panel *)
Lemma side_turn p a b : side_of_edge p a b = - turn a b p. Proof. unfold side_of_edge, turn. ring. Qed.
Lemma above_true p a b c d : is_above_panel p (Q a b c d) = true <->
  (0 <= turn a b p /\ 0 <= turn b c p /\ 0 <= turn c d p /\ 0 <= turn d a p)
  \/ (turn a b p <= 0 /\ turn b c p <= 0 /\ turn c d p <= 0 /\ turn d a p <= 0).
Proof.
  unfold is_above_panel, sides_of_edges. cbn [qa qb qc qd forallb]. rewrite !side_turn, orb_true_iff, !andb_true_iff, !Rleb_true.
  split; intros [H|H]; [left|right|left|right]; repeat split; try apply I; try lra; destruct H as (H1 & H2 & H3 & H4 & H5); lra.
Qed.
Definition mix (wa wb wc wd : R) (a b c d : vec) : vec := vadd (vadd (vscale wa a) (vscale wb b)) (vadd (vscale wc c) (vscale wd d)).
Lemma over_iff p a b c d : over p (a, b, c, d) <-> exists wa wb wc wd, 0 <= wa /\ 0 <= wb /\ 0 <= wc /\ 0 <= wd /\ wa + wb + wc + wd = 1
  /\ vx p = wa * vx a + wb * vx b + wc * vx c + wd * vx d /\ vy p = wa * vy a + wb * vy b + wc * vy c + wd * vy d.
Proof.
  split.
  - intros (x & (wa & wb & wc & wd & A & B & C & D & E & ->) & Ex & Ey). exists wa, wb, wc, wd. repeat split; try assumption; cbn [vadd vscale vx vy] in *; lra.
  - intros (wa & wb & wc & wd & A & B & C & D & E & Ex & Ey). exists (mix wa wb wc wd a b c d). split; [exists wa, wb, wc, wd; repeat split; assumption|].
    unfold mix. cbn [vadd vscale vx vy]. split; lra.
Qed.
(** The barycentric coordinates of a point in a triangle. *)
Lemma bary a b c p : turn a b c <> 0 ->
  vx p = turn b c p / turn a b c * vx a + turn c a p / turn a b c * vx b + turn a b p / turn a b c * vx c
  /\ vy p = turn b c p / turn a b c * vy a + turn c a p / turn a b c * vy b + turn a b p / turn a b c * vy c
  /\ turn b c p / turn a b c + turn c a p / turn a b c + turn a b p / turn a b c = 1.
Proof.
  intros N. assert (S : turn b c p + turn c a p + turn a b p = turn a b c) by (unfold turn; ring).
  repeat split.
  - apply Rmult_eq_reg_r with (turn a b c); [|exact N]. transitivity (turn b c p * vx a + turn c a p * vx b + turn a b p * vx c); [unfold turn; ring|field; exact N].
  - apply Rmult_eq_reg_r with (turn a b c); [|exact N]. transitivity (turn b c p * vy a + turn c a p * vy b + turn a b p * vy c); [unfold turn; ring|field; exact N].
  - apply Rmult_eq_reg_r with (turn a b c); [|exact N]. transitivity (turn b c p + turn c a p + turn a b p); [field; exact N|rewrite S; ring].
Qed.
Lemma turn_mix u v a b c d p wa wb wc wd : wa + wb + wc + wd = 1 ->
  vx p = wa * vx a + wb * vx b + wc * vx c + wd * vx d -> vy p = wa * vy a + wb * vy b + wc * vy c + wd * vy d ->
  turn u v p = wa * turn u v a + wb * turn u v b + wc * turn u v c + wd * turn u v d.
Proof.
  intros S X Y. unfold turn. rewrite X, Y.
  replace (wa * ((vx v - vx u) * (vy a - vy u) - (vy v - vy u) * (vx a - vx u)) + wb * ((vx v - vx u) * (vy b - vy u) - (vy v - vy u) * (vx b - vx u))
     + wc * ((vx v - vx u) * (vy c - vy u) - (vy v - vy u) * (vx c - vx u)) + wd * ((vx v - vx u) * (vy d - vy u) - (vy v - vy u) * (vx d - vx u)))
    with ((vx v - vx u) * (wa * vy a + wb * vy b + wc * vy c + wd * vy d - (wa + wb + wc + wd) * vy u) - (vy v - vy u) * (wa * vx a + wb * vx b + wc * vx c + wd * vx d - (wa + wb + wc + wd) * vx u)) by ring.
  rewrite S. ring.
Qed.
Lemma turn_flat u v : turn u v u = 0 /\ turn u v v = 0 /\ turn u u v = 0. Proof. unfold turn. repeat split; ring. Qed.
Lemma turn_cycle a b c : turn a b c = turn b c a. Proof. unfold turn. ring. Qed.
Lemma turn_swap a b c : turn b a c = - turn a b c. Proof. unfold turn. ring. Qed.
Lemma div_pos x y : 0 <= x -> 0 < y -> 0 <= x / y. Proof. intros. apply Rmult_le_pos; [assumption|apply Rlt_le, Rinv_0_lt_compat; assumption]. Qed.

Lemma in_triangle a b c d p : 0 < turn a b c -> 0 <= turn a b p -> 0 <= turn b c p -> 0 <= turn c a p -> over p (a, b, c, d).
Proof.
  intros T A B C. apply over_iff. destruct (bary a b c p) as (X & Y & S); [lra|].
  exists (turn b c p / turn a b c), (turn c a p / turn a b c), (turn a b p / turn a b c), 0. repeat split; try (apply div_pos; assumption); lra.
Qed.
Lemma over_turned p a b c d : over p (a, b, c, d) <-> over p (b, c, d, a).
Proof. rewrite !over_iff. split; intros (wa & wb & wc & wd & H); [exists wb, wc, wd, wa|exists wd, wa, wb, wc]; repeat split; try apply H; lra. Qed.
Lemma over_flipped p a b c d : over p (a, b, c, d) <-> over p (a, d, c, b).
Proof. rewrite !over_iff. split; intros (wa & wb & wc & wd & H); exists wa, wd, wc, wb; repeat split; try apply H; lra. Qed.

Lemma quad_pos a b c d p : 0 < turn a b c -> 0 < turn b c d -> 0 < turn c d a -> 0 < turn d a b ->
  over p (a, b, c, d) <-> (0 <= turn a b p /\ 0 <= turn b c p /\ 0 <= turn c d p /\ 0 <= turn d a p).
Proof.
  intros T1 T2 T3 T4. split.
  - rewrite over_iff. intros (wa & wb & wc & wd & A & B & C & D & S & X & Y).
    rewrite !(turn_mix _ _ a b c d p wa wb wc wd S X Y).
    rewrite (proj1 (turn_flat a b)), (proj1 (proj2 (turn_flat a b))), (proj1 (turn_flat b c)), (proj1 (proj2 (turn_flat b c))),
      (proj1 (turn_flat c d)), (proj1 (proj2 (turn_flat c d))), (proj1 (turn_flat d a)), (proj1 (proj2 (turn_flat d a))).
    replace (turn a b d) with (turn d a b) by (unfold turn; ring). replace (turn b c a) with (turn a b c) by (unfold turn; ring).
    replace (turn c d b) with (turn b c d) by (unfold turn; ring). replace (turn d a c) with (turn c d a) by (unfold turn; ring).
    repeat split; nra.
  - intros (A & B & C & D). destruct (Rle_or_lt (turn a c p) 0) as [L|L].
    + apply in_triangle; [exact T1|exact A|exact B|]. rewrite turn_swap. lra.
    + apply over_turned, over_turned. apply (in_triangle c d a b); [exact T3|exact C|exact D|lra].
Qed.
Lemma tri_ok a b c p : turn a b c <> 0 -> over p (a, b, c, a) <->
  ((0 <= turn a b p /\ 0 <= turn b c p /\ 0 <= turn c a p) \/ (turn a b p <= 0 /\ turn b c p <= 0 /\ turn c a p <= 0)).
Proof.
  intros N. split.
  - rewrite over_iff. intros (wa & wb & wc & wd & A & B & C & D & S & X & Y).
    rewrite !(turn_mix _ _ a b c a p wa wb wc wd S X Y).
    rewrite (proj1 (turn_flat a b)), (proj1 (proj2 (turn_flat a b))), (proj1 (turn_flat b c)), (proj1 (proj2 (turn_flat b c))),
      (proj1 (turn_flat c a)), (proj1 (proj2 (turn_flat c a))).
    replace (turn b c a) with (turn a b c) by (unfold turn; ring). replace (turn c a b) with (turn a b c) by (unfold turn; ring).
    destruct (Rlt_or_le 0 (turn a b c)) as [P|P]; [left|right]; repeat split; nra.
  - intros H. assert (S : turn b c p + turn c a p + turn a b p = turn a b c) by (unfold turn; ring). destruct H as [(A & B & C)|(A & B & C)].
    + apply in_triangle; try assumption. lra.
    + apply over_flipped, over_turned. (* (a, a, c, b) *)
      apply (in_triangle a c b a); [replace (turn a c b) with (- turn a b c) by (unfold turn; ring); lra| | |];
        [replace (turn a c p) with (- turn c a p) by (unfold turn; ring)|replace (turn c b p) with (- turn b c p) by (unfold turn; ring)|replace (turn b a p) with (- turn a b p) by (unfold turn; ring)]; lra.
Qed.
Lemma above_over p a b c d : convex_from_above (a, b, c, d) -> is_above_panel p (Q a b c d) = true <-> over p (a, b, c, d).
Proof.
  intros H. rewrite above_true. destruct H as [(-> & N)|[(A & B & C & D)|(A & B & C & D)]].
  - rewrite (tri_ok a b c p N). rewrite (proj2 (proj2 (turn_flat a p))). intuition lra.
  - rewrite (quad_pos a b c d p A B C D). split; [|tauto]. intros [H|(H1 & H2 & H3 & H4)]; [exact H|].
    assert (S : turn a b p + turn b c p + turn c d p + turn d a p = turn a b c + turn c d a) by (unfold turn; ring). lra.
  - rewrite over_flipped. rewrite (quad_pos a d c b p); [| replace (turn a d c) with (- turn c d a) by (unfold turn; ring)|replace (turn d c b) with (- turn b c d) by (unfold turn; ring)
      |replace (turn c b a) with (- turn a b c) by (unfold turn; ring)|replace (turn b a d) with (- turn d a b) by (unfold turn; ring)]; try lra.
    replace (turn a d p) with (- turn d a p) by (unfold turn; ring). replace (turn d c p) with (- turn c d p) by (unfold turn; ring).
    replace (turn c b p) with (- turn b c p) by (unfold turn; ring). replace (turn b a p) with (- turn a b p) by (unfold turn; ring).
    assert (S : turn a b p + turn b c p + turn c d p + turn d a p = turn a b c + turn c d a) by (unfold turn; ring).
    split; [intros [(H1 & H2 & H3 & H4)|H]; [lra|]; lra|]. intros H. right. lra.
Qed.

(** ** Vertical panels *)
Lemma on_line_turn nx ny k a b c : (nx <> 0 \/ ny <> 0) -> nx * vx a + ny * vy a = k -> nx * vx b + ny * vy b = k -> nx * vx c + ny * vy c = k -> turn a b c = 0.
Proof.
  intros N A B C. assert (S : 0 < nx * nx + ny * ny) by (destruct N; nra).
  apply Rmult_eq_reg_l with (nx * nx + ny * ny); [|lra]. rewrite Rmult_0_r. unfold turn.
  set (u := vx b - vx a). set (v := vy b - vy a). set (u' := vx c - vx a). set (v' := vy c - vy a).
  assert (E1 : nx * u + ny * v = 0) by (unfold u, v; lra). assert (E2 : nx * u' + ny * v' = 0) by (unfold u', v'; lra).
  replace ((nx * nx + ny * ny) * (u * v' - v * u')) with (nx * ((nx * u + ny * v) * v' - v * (nx * u' + ny * v')) + ny * (u * (nx * u' + ny * v') - (nx * u + ny * v) * u')) by ring.
  rewrite E1, E2. ring.
Qed.
Lemma above_vertical p a b c d nx ny k : vertical_on (a, b, c, d) nx ny k -> is_above_panel p (Q a b c d) = true <-> nx * vx p + ny * vy p = k.
Proof.
  intros (N & L & u & v & Hu & Hv & Duv). assert (La := L a ltac:(cbn; tauto)). assert (Lb := L b ltac:(cbn; tauto)). assert (Lc := L c ltac:(cbn; tauto)). assert (Ld := L d ltac:(cbn; tauto)).
  rewrite above_true. split.
  - intros H. destruct (Req_dec (nx * vx p + ny * vy p) k) as [E|Np]; [exact E|exfalso].
    assert (S : 0 < nx * nx + ny * ny) by (destruct N; nra). set (e := nx * vx p + ny * vy p - k) in *. assert (Ne : e <> 0) by (unfold e; lra).
    (* the position of a point of the line *)
    set (s := fun w => ny * vx w - nx * vy w).
    assert (T : forall a b, nx * vx a + ny * vy a = k -> nx * vx b + ny * vy b = k -> (nx * nx + ny * ny) * turn a b p = e * (s b - s a)).
    { intros a' b' A' B'. unfold turn, s, e. rewrite <- A' at 1.
      replace ((nx * nx + ny * ny) * ((vx b' - vx a') * (vy p - vy a') - (vy b' - vy a') * (vx p - vx a')))
        with ((nx * (vx b' - vx a') + ny * (vy b' - vy a')) * (nx * (vy p - vy a') - ny * (vx p - vx a')) + (nx * (vx p - vx a') + ny * (vy p - vy a')) * (ny * (vx b' - vx a') - nx * (vy b' - vy a'))) by ring.
      replace (nx * (vx b' - vx a') + ny * (vy b' - vy a')) with 0 by lra. ring. }
    pose proof (T a b La Lb) as T1. pose proof (T b c Lb Lc) as T2. pose proof (T c d Lc Ld) as T3. pose proof (T d a Ld La) as T4.
    assert (Z : turn a b p + turn b c p + turn c d p + turn d a p = 0) by (apply Rmult_eq_reg_l with (nx * nx + ny * ny); [|lra]; lra).
    assert (Z1 : turn a b p = 0) by (destruct H; lra). assert (Z2 : turn b c p = 0) by (destruct H; lra). assert (Z3 : turn c d p = 0) by (destruct H; lra).
    rewrite Z1, Rmult_0_r in T1. rewrite Z2, Rmult_0_r in T2. rewrite Z3, Rmult_0_r in T3.
    assert (S1 : s b = s a) by (symmetry in T1; apply Rmult_integral in T1; destruct T1; lra). assert (S2 : s c = s b) by (symmetry in T2; apply Rmult_integral in T2; destruct T2; lra).
    assert (S3 : s d = s c) by (symmetry in T3; apply Rmult_integral in T3; destruct T3; lra).
    assert (Same : forall w, In w (polygon_corners (a, b, c, d)) -> s w = s a) by (intros w [<-|[<-|[<-|[<-|[]]]]]; congruence).
    pose proof (Same u Hu) as Su. pose proof (Same v Hv) as Sv. pose proof (L u Hu) as Lu. pose proof (L v Hv) as Lv. unfold s in Su, Sv.
    assert (Dx : (nx * nx + ny * ny) * (vx u - vx v) = 0).
    { replace ((nx * nx + ny * ny) * (vx u - vx v)) with (nx * ((nx * vx u + ny * vy u) - (nx * vx v + ny * vy v)) + ny * ((ny * vx u - nx * vy u) - (ny * vx v - nx * vy v))) by ring. rewrite Lu, Lv, Su, Sv. ring. }
    assert (Dy : (nx * nx + ny * ny) * (vy u - vy v) = 0).
    { replace ((nx * nx + ny * ny) * (vy u - vy v)) with (ny * ((nx * vx u + ny * vy u) - (nx * vx v + ny * vy v)) - nx * ((ny * vx u - nx * vy u) - (ny * vx v - nx * vy v))) by ring. rewrite Lu, Lv, Su, Sv. ring. }
    apply Rmult_integral in Dx. apply Rmult_integral in Dy. destruct Duv; destruct Dx, Dy; lra.
  - intros E. left. rewrite !(on_line_turn nx ny k _ _ p N) by assumption. repeat split; lra.
Qed.
Lemma vertical_not_convex a b c d nx ny k : vertical_on (a, b, c, d) nx ny k -> ~ convex_from_above (a, b, c, d).
Proof.
  intros (N & L & _). assert (T : turn a b c = 0) by (apply (on_line_turn nx ny k); [exact N|apply L; cbn; tauto..]). intros [(_ & X)|[(X & _)|(X & _)]]; lra.
Qed.
Lemma above_counted p a b c d : seen_well (a, b, c, d) -> is_above_panel p (Q a b c d) = true <-> counted p (a, b, c, d).
Proof.
  intros [C|(nx & ny & k & W)].
  - rewrite (above_over p a b c d C). unfold counted. split; [intros; left; now split|]. intros [(_ & H)|(nx & ny & k & W & _)]; [exact H|]. now apply vertical_not_convex in W.
  - rewrite (above_vertical p a b c d nx ny k W). split.
    + intros E. right. exists nx, ny, k. now split.
    + intros [(C & _)|(nx' & ny' & k' & W' & E)]; [now apply (vertical_not_convex _ _ _ _ _ _ _ W) in C|].
      apply (above_vertical p a b c d nx ny k W). now apply (above_vertical p a b c d nx' ny' k' W').
Qed.
