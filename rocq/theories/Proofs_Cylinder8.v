(** The rows of a cylinder, closed surfaces of revolution and their volume. *)
From Coq Require Import Reals List Bool Arith Lia Lra Permutation ZArith.
From Verif Require Import Model_Base Model_Geometry Model_Mesh Model_Clip Spec_Mesh Spec_Tree Spec_Clip Model_Tree Model_Body Spec_Body
  Proofs_Geometry Proofs_Mesh Proofs_Mesh2 Proofs_Mesh3 Proofs_Clip4 Proofs_Clip5 Proofs_Clip7 Model_Integrals Spec_Integrals Proofs_Integrals Proofs_Tree Proofs_Tree2 Proofs_Body Proofs_Body2 Proofs_Body5
  Model_Quality Spec_Quality Proofs_Quality Model_Normals Spec_Normals Proofs_Normals4 Spec_Grid Model_Grid Proofs_Grid Proofs_Grid2 Proofs_Grid3 Proofs_Grid4 Proofs_Grid5 Proofs_Grid6
  Proofs_Dataset Proofs_Problem Model_Box Proofs_Box3 Proofs_Box4 Proofs_Box5 Model_Cylinder Spec_Cylinder Proofs_Cylinder Proofs_Cylinder2 Proofs_Cylinder3 Proofs_Cylinder4 Proofs_Cylinder5 Proofs_Cylinder6 Proofs_Cylinder7.
Import ListNotations.
Open Scope R_scope.

(** ** Closed surfaces *)
Lemma perm_flat2 {A B} (f g : A -> list B) l : Permutation (flat_map (fun x => f x ++ g x) l) (flat_map f l ++ flat_map g l).
Proof.
  induction l as [|x l IH]; [constructor|]. cbn. rewrite IH, <- !app_assoc. apply Permutation_app_head. rewrite !app_assoc. apply Permutation_app_tail. apply Permutation_app_comm.
Qed.
Lemma flat_single {A B} (f : A -> B) l : flat_map (fun x => [f x]) l = map f l.
Proof. induction l as [|x l IH]; [reflexivity|]. cbn. now rewrite IH. Qed.
Lemma round_perm {B} (f : nat -> B) N : f N = f 0%nat -> Permutation (map (fun j => f (S j)) (seq 0 N)) (map f (seq 0 N)).
Proof.
  intros E. destruct N as [|N]; [constructor|]. rewrite <- (map_map S f), seq_shift. rewrite seq_S, map_app. cbn [map plus]. rewrite E.
  cbn [seq map]. symmetry. apply Permutation_cons_append.
Qed.
Lemma swap_swap l : map swap (map swap l) = l.
Proof. rewrite map_map. rewrite <- (map_id l) at 2. apply map_ext. now intros [a b]. Qed.
Section Closed.
  Variables (P : nat -> nat -> vec) (n N : nat).
  Hypotheses (Hn : (0 < n)%nat) (Round : forall i, P i N = P i 0%nat) (Low : forall j j', P 0%nat j = P 0%nat j') (High : forall j j', P n j = P n j').
  Let Hz (i : nat) : list (vec * vec) := map (fun j => (P i j, P i (S j))) (seq 0 N).
  Let Up (i : nat) : list (vec * vec) := map (fun j => (P i j, P (S i) j)) (seq 0 N).
  Lemma row_edges i : Permutation (flat_map edges (map (revolved_panel P i) (seq 0 N))) ((Up i ++ map swap (Up i)) ++ Hz (S i) ++ map swap (Hz i)).
  Proof.
    rewrite flat_map_concat_map, map_map, <- flat_map_concat_map. unfold revolved_panel. cbn [edges].
    rewrite (flat_map_ext _ (fun j => ([(P i j, P (S i) j)] ++ [(P (S i) j, P (S i) (S j))]) ++ ([(P (S i) (S j), P i (S j))] ++ [(P i (S j), P i j)]))) by reflexivity.
    rewrite (perm_flat2 (fun j => [(P i j, P (S i) j)] ++ [(P (S i) j, P (S i) (S j))])), !perm_flat2, !flat_single.
    unfold Hz, Up. rewrite !map_map. unfold swap. cbn [fst snd].
    rewrite (round_perm (fun j => (P (S i) j, P i j))) by (cbn; now rewrite !Round).
    rewrite <- !app_assoc. apply Permutation_app_head. rewrite !app_assoc. apply Permutation_app_tail. apply Permutation_app_comm.
  Qed.
  Lemma flat_edges (l : list nat) : Permutation (flat_map edges (flat_map (fun i => map (revolved_panel P i) (seq 0 N)) l))
    ((flat_map Up l ++ map swap (flat_map Up l)) ++ (flat_map (fun i => Hz (S i)) l ++ map swap (flat_map Hz l))).
  Proof.
    transitivity (flat_map (fun i => (Up i ++ map swap (Up i)) ++ Hz (S i) ++ map swap (Hz i)) l).
    - induction l as [|i l IH]; [constructor|]. cbn [flat_map]. rewrite flat_map_app, IH. apply Permutation_app_tail, row_edges.
    - rewrite (perm_flat2 (fun i => Up i ++ map swap (Up i))), !perm_flat2. rewrite <- !map_flat. reflexivity.
  Qed.
  Lemma same_swap i : (forall j j', P i j = P i j') -> map swap (Hz i) = Hz i.
  Proof. intros E. unfold Hz. rewrite map_map. apply map_ext. intros j. unfold swap. cbn [fst snd]. now rewrite (E (S j) j). Qed.
  Lemma revolved_watertight : watertight (revolved P n N).
  Proof.
    unfold watertight, revolved. rewrite flat_edges. rewrite !map_app, !swap_swap. apply Permutation_app; [apply Permutation_app_comm|].
    assert (E1 : flat_map (fun i => Hz (S i)) (seq 0 n) = flat_map Hz (seq 1 n)).
    { rewrite <- seq_shift. generalize (seq 0 n). intros l. induction l as [|i l IH]; [reflexivity|]. cbn [flat_map map]. now rewrite IH. }
    rewrite E1. clear E1. destruct n as [|n']; [lia|]. rewrite (seq_S n' 1), flat_map_app. cbn [seq flat_map plus]. rewrite app_nil_r, !map_app, (same_swap 0 Low), (same_swap (S n') High).
    set (M := flat_map Hz (seq 1 n')). set (M' := map swap M). rewrite <- !app_assoc.
    transitivity ((M ++ Hz 0%nat) ++ (Hz (S n') ++ M')); [rewrite <- !app_assoc; apply Permutation_app_head; rewrite !app_assoc; apply Permutation_app_tail, Permutation_app_comm|].
    transitivity ((Hz (S n') ++ M') ++ (M ++ Hz 0%nat)); [apply Permutation_app_comm|]. rewrite (Permutation_app_comm (Hz (S n')) M'), (Permutation_app_comm M (Hz 0%nat)). now rewrite <- !app_assoc.
  Qed.
End Closed.

(** ** The rows of the cylinder *)
  Lemma linspace_steps a b k : linspace a b (k + 1) = map (fun i => a + INR i * ((b - a) / INR k)) (seq 0 (k + 1)).
  Proof. unfold linspace. now replace (k + 1 - 1)%nat with k by lia. Qed.
  Lemma rev_seq_map {B} (f : nat -> B) k : rev (map f (seq 0 (k + 1))) = map (fun i => f (k - i)%nat) (seq 0 (k + 1)).
  Proof.
    rewrite <- map_rev. revert f. induction k as [|k IH]; intros f; [reflexivity|]. replace (S k + 1)%nat with (S (k + 1)) by lia.
    rewrite (seq_S (k + 1)) at 1. rewrite rev_app_distr. cbn [rev app map plus seq]. rewrite <- seq_shift, map_map. f_equal; [f_equal; lia|]. rewrite IH. apply map_ext_in. intros i Hi. apply in_seq in Hi. f_equal.
  Qed.
  Lemma seq_from {B} (f : nat -> B) a k : map f (seq a k) = map (fun i => f (a + i)%nat) (seq 0 k).
  Proof.
    revert a. induction k as [|k IH]; intros a; [reflexivity|]. cbn [seq map]. rewrite Nat.add_0_r. f_equal. rewrite IH, <- seq_shift, map_map. apply map_ext. intros i. f_equal. lia.
  Qed.
Section Rows.
  Variables (len rad : R) (nr nz : nat).
  Hypotheses (Hl : 0 < len) (Hr : 0 < rad).
  Hypothesis Hside : (0 < nr \/ 0 < nz)%nat.
  Let nz' := Nat.max 1 nz.
  Let n := (nr + nz' + nr)%nat.
  Definition rows_number : nat := (nz + 2 * (if Nat.ltb 0 nr then nr + 1 else 0))%nat.
  Definition row_of (i : nat) : nat := if Nat.ltb 0 nr then (Nat.min i nr + Nat.min (i - nr - 1) nz' + (i - (nr + nz + 2)))%nat else i.
  Lemma row_first : row_of 0 = 0%nat.
  Proof. unfold row_of. destruct (Nat.ltb_spec 0 nr); lia. Qed.
  Lemma row_last : row_of rows_number = n.
  Proof. unfold row_of, rows_number, n, nz'. destruct (Nat.ltb_spec 0 nr); lia. Qed.
  Lemma row_step i : (i < rows_number)%nat -> row_of (S i) = row_of i \/ row_of (S i) = S (row_of i).
  Proof. unfold row_of, rows_number, nz'. destruct (Nat.ltb_spec 0 nr); lia. Qed.
  Lemma row_low i : (0 < nr)%nat -> (i <= nr)%nat -> row_of i = i.
  Proof. intros H Hi. unfold row_of. rewrite (proj2 (Nat.ltb_lt 0 nr) H). rewrite Nat.min_l by exact Hi. replace (i - nr - 1)%nat with 0%nat by lia. replace (i - (nr + nz + 2))%nat with 0%nat by lia. cbn. lia. Qed.
  Lemma row_side k : (0 < nr)%nat -> (k <= nz)%nat -> row_of (nr + 1 + k) = (nr + k)%nat.
  Proof.
    intros H Hk. unfold row_of. rewrite (proj2 (Nat.ltb_lt 0 nr) H). rewrite Nat.min_r by lia. replace (nr + 1 + k - nr - 1)%nat with k by lia.
    replace (nr + 1 + k - (nr + nz + 2))%nat with 0%nat by lia. rewrite Nat.min_l by (unfold nz'; lia). lia.
  Qed.
  Lemma row_high k : (0 < nr)%nat -> row_of (nr + nz + 2 + k) = (nr + nz' + k)%nat.
  Proof.
    intros H. unfold row_of. rewrite (proj2 (Nat.ltb_lt 0 nr) H). rewrite Nat.min_r by lia. replace (nr + nz + 2 + k - (nr + nz + 2))%nat with k by lia.
    rewrite Nat.min_r by (unfold nz'; lia). lia.
  Qed.
  Lemma row_near i : (i <= rows_number)%nat -> ((i < rows_number)%nat /\ row_of (S i) = S (row_of i)) \/ exists i', i = S i' /\ row_of i = S (row_of i').
  Proof.
    intros Hi. unfold rows_number in *. destruct (Nat.ltb_spec 0 nr) as [H|H].
    - destruct (Nat.lt_ge_cases i nr) as [A|A]; [left; split; [lia|]; rewrite !row_low by lia; reflexivity|].
      destruct (Nat.eq_dec i nr) as [->|A']; [right; exists (nr - 1)%nat; split; [lia|]; rewrite !row_low by lia; lia|].
      destruct (Nat.lt_ge_cases i (nr + 1 + nz)) as [B|B].
      { left. split; [lia|]. set (k := (i - nr - 1)%nat). replace i with (nr + 1 + k)%nat by (unfold k; lia). replace (S (nr + 1 + k)) with (nr + 1 + S k)%nat by lia.
        rewrite !row_side by (unfold k; lia). lia. }
      destruct (Nat.eq_dec i (nr + 1 + nz)) as [->|B'].
      { destruct (Nat.eq_dec nz 0) as [Z|Z].
        - left. split; [lia|]. replace (S (nr + 1 + nz)) with (nr + nz + 2 + 0)%nat by lia. rewrite row_high, row_side by lia. unfold nz'. rewrite Z. cbn. lia.
        - right. exists (nr + 1 + (nz - 1))%nat. split; [lia|]. rewrite !row_side by lia. lia. }
      set (k := (i - (nr + nz + 2))%nat). assert (E : i = (nr + nz + 2 + k)%nat) by (unfold k; lia). clearbody k. subst i.
      destruct (Nat.lt_ge_cases k nr) as [C|C]; [left; split; [lia|]; replace (S (nr + nz + 2 + k)) with (nr + nz + 2 + S k)%nat by lia; rewrite !row_high by lia; lia|].
      right. exists (nr + nz + 2 + (k - 1))%nat. split; [lia|]. rewrite !row_high by lia. lia.
    - assert (Rw : forall j, row_of j = j) by (intros j; unfold row_of; destruct (Nat.ltb_spec 0 nr); [lia|reflexivity]). rewrite !Rw.
      destruct (Nat.lt_ge_cases i nz) as [A|A]; [left; split; [lia|reflexivity]|]. right. exists (i - 1)%nat. rewrite Rw. lia.
  Qed.
  Lemma rows_are : cylinder_rows len rad nr nz = map (fun i => cylinder_profile len rad nr nz' (row_of i)) (seq 0 (rows_number + 1)).
  Proof.
    assert (Z0 : (0 < nz')%nat) by (unfold nz'; lia).
    assert (PI' : forall i, (i <= n)%nat -> cylinder_profile len rad nr nz' i = (INR (rcount nr nz' i) * rstep rad nr, - len / 2 + INR (zcount nr nz' i) * zstep len nz')) by (intros; now apply prof_is).
    unfold cylinder_rows. destruct (Nat.ltb_spec 0 nr) as [H|H].
    - assert (En : rows_number = (nr + 1 + (nz + 1) + nr)%nat) by (unfold rows_number; rewrite (proj2 (Nat.ltb_lt 0 nr) H); lia).
      rewrite En. replace (nr + 1 + (nz + 1) + nr + 1)%nat with ((nr + 1) + ((nz + 1) + (nr + 1)))%nat by lia.
      rewrite (seq_app (nr + 1)), (seq_app (nz + 1)), !map_app. rewrite (seq_from _ (0 + (nr + 1))), (seq_from _ (0 + (nr + 1) + (nz + 1))). rewrite !linspace_steps.
      rewrite rev_seq_map, !map_map.
      assert (Er : INR nr * rstep rad nr = rad) by (exact (rstep_all rad nr nz' Z0 H)). assert (Es : rad / INR nr = rstep rad nr) by (unfold rstep; now rewrite Nat.max_r by lia).
      assert (Rw : forall i, row_of i = (Nat.min i nr + Nat.min (i - nr - 1) nz' + (i - (nr + nz + 2)))%nat) by (intros i; unfold row_of; now rewrite (proj2 (Nat.ltb_lt 0 nr) H)).
      assert (Nr : Nat.eqb nr 0 = false) by (apply Nat.eqb_neq; lia).
      assert (Ez : INR nz' * zstep len nz' = len) by (exact (zstep_all len nr nz' Z0)).
      f_equal; [|f_equal]; apply map_ext_in; intros i Hi; apply in_seq in Hi; rewrite Rw, PI' by (unfold n, nz'; lia); unfold rcount, zcount; rewrite Nr.
      + match goal with |- _ = (INR ?a * _, _ + INR ?b * _) => replace a with i by (unfold nz'; lia); replace b with 0%nat by (unfold nz'; lia) end. rewrite Rminus_0_r, Es. cbn [INR]. f_equal; ring.
      + match goal with |- _ = (INR ?a * _, _ + INR ?b * _) => replace a with nr by (unfold nz'; lia); replace b with i by (unfold nz'; lia) end. rewrite Er. f_equal. f_equal.
        destruct (Nat.eq_dec nz 0) as [E0|E0]; [assert (i = 0)%nat by lia; subst i; cbn [INR]; ring|]. unfold zstep, nz'. rewrite Nat.max_r by lia. field. apply not_0_INR. lia.
      + match goal with |- _ = (INR ?a * _, _ + INR ?b * _) => replace a with (nr - i)%nat by (unfold nz'; lia); replace b with nz' by (unfold nz'; lia) end. rewrite Rminus_0_r, Es, Ez. f_equal; field.
    - assert (nz' = nz) as Ez by (unfold nz'; lia). assert (En : rows_number = nz) by (unfold rows_number; destruct (Nat.ltb_spec 0 nr); lia). rewrite En, linspace_steps, map_map.
      apply map_ext_in. intros i Hi. apply in_seq in Hi. assert (Rw : row_of i = i) by (unfold row_of; destruct (Nat.ltb_spec 0 nr); lia). rewrite Rw, PI' by (unfold n; lia). unfold rcount, zcount.
      replace (Nat.eqb nr 0) with true by (symmetry; apply Nat.eqb_eq; lia). replace (Nat.min (i - nr) nz') with i by lia. unfold rstep. replace (Nat.max 1 nr) with 1%nat by lia. unfold zstep. rewrite Ez. cbn [INR]. f_equal; field. apply not_0_INR. lia.
  Qed.
End Rows.
Lemma angles_are T N : (0 < N)%nat -> (0 < T)%nat -> linspace 0 (2 * PI * INR N / INR T) (N + 1) = map (angle T 0) (seq 0 (N + 1)).
Proof. intros HN HT. rewrite linspace_steps. apply map_ext. intros i. unfold angle. field. split; apply not_0_INR; lia. Qed.
Lemma spec_node o prof T i j : node o prof T 0 i j = revolved_node o prof T i j.
Proof. unfold node, revolved_node, tp, angle. now rewrite Rplus_0_l. Qed.
Lemma dist_moved o a b : dist (vadd o a) (vadd o b) = dist a b.
Proof. unfold dist. f_equal. destruct o as [ox oy oz], a as [ax ay az], b as [bx by' bz]. apply vec_ext; cbn; ring. Qed.
