(** Proofs about the response amplitude operator. *)
From Coq Require Import Reals String List Bool Arith Lra Lia.
From Coquelicot Require Import Complex.
From Verif Require Import Model_Base Model_Ring Spec_Ring Proofs_Ring Model_Block Spec_Block Model_LinSolve Spec_LinSolve Model_Mesh Proofs_Mesh Proofs_Problem Proofs_ACA
  Proofs_Symmetry Model_Rao Spec_Rao.
Import ListNotations.
Open Scope R_scope.

Section Proofs.
  Context {P : Type}.
  Variable lapack : nat -> (nat -> nat -> complexes) -> (nat -> complexes) -> option (nat -> complexes).
  Hypothesis HL : exact_solver lapack.

  Lemma transfer_value (d : dataset P) dis st m k : ds_inertia _ d = Some m -> ds_stiffness _ d = Some k ->
    exists H, rao_transfer_function _ d dis st = Ok H /\ forall p r i, H p r i = motion_coefficient d m k dis st p r i.
  Proof.
    intros Em Ek. unfold rao_transfer_function. rewrite Em, Ek. eexists. split; [reflexivity|]. intros p r i. cbn beta.
    unfold motion_coefficient, frequency, given, jC, Cplus, Cminus, Cmult, Copp, RtoC.
    destruct (ds_encounter_omega _ d); destruct dis, st; unfold Cplus, Cminus, Cmult, Copp, RtoC; cbn [fst snd]; f_equal; ring.
  Qed.
  Lemma fold_csum (f : nat -> C) n s : fold_right Cplus (RtoC 0) (map f (seq s n)) = csum n (fun k => f (s + k)%nat).
  Proof.
    revert s. induction n as [|n IH]; intros s; [reflexivity|]. replace (S n) with (n + 1)%nat by lia. rewrite seq_app, map_app, fold_right_app.
    cbn [seq map fold_right ksum]. rewrite (Nat.add_comm n 1). cbn [Nat.add ksum]. rewrite <- IH.
    assert (G : forall l a, fold_right Cplus a l = Cplus (fold_right Cplus (RtoC 0) l) a).
    { clear. intros l. induction l as [|x l IHl]; intros a; cbn [fold_right]; [ring|]. rewrite (IHl a). ring. }
    rewrite G. change (@kadd complexes) with Cplus. f_equal. ring.
  Qed.
  Lemma combine_seq (l : list string) (x : nat -> C) : combine l (map x (seq 0 (length l))) = map (fun k => (label l k, x k)) (seq 0 (length l)).
  Proof.
    assert (G : forall l s, combine l (map x (seq s (length l))) = map (fun k => (nth (k - s) l EmptyString, x k)) (seq s (length l))).
    { clear. induction l as [|a l IH]; intros s; [reflexivity|]. cbn [length seq map combine]. rewrite IH. f_equal; [now rewrite Nat.sub_diag|].
      apply map_ext_in. intros k Hk. apply in_seq in Hk. replace (k - s)%nat with (S (k - S s)) by lia. reflexivity. }
    rewrite G. apply map_ext. intros k. unfold label. now rewrite Nat.sub_0_r.
  Qed.
  Lemma rao_rows (d : dataset P) dis st H f xs : rao_transfer_function _ d dis st = Ok H -> ds_excitation _ d = Some f -> rao _ lapack d dis st = Ok xs ->
    length (ds_radiating _ d) = length (ds_influenced _ d) \/ ds_points _ d = [].
  Proof.
    intros EH Ef E. unfold rao in E. rewrite EH, Ef in E. cbn [bind] in E. destruct (ds_points _ d) as [|p l]; [now right|left].
    cbn [mapM] in E. unfold np_solve in E. destruct (Nat.eqb_spec (length (ds_radiating _ d)) (length (ds_influenced _ d))); [assumption|discriminate].
  Qed.
  Lemma rao_transposed (d : dataset P) dis st m k f xs : ds_inertia _ d = Some m -> ds_stiffness _ d = Some k -> ds_excitation _ d = Some f ->
    rao _ lapack d dis st = Ok xs -> ds_radiating _ d = ds_influenced _ d ->
    map fst xs = ds_points _ d /\ forall p x, In (p, x) xs ->
      equation_of_motion (ds_influenced _ d) (fun r i => motion_coefficient d m k dis st p i r) (f p) x.
  Proof.
    intros Em Ek Ef E El. destruct (transfer_value d dis st m k Em Ek) as (H & EH & HH). unfold rao in E. rewrite EH, Ef in E. cbn [bind] in E. rewrite El in E.
    set (l := ds_influenced _ d) in *. unfold np_solve in E. rewrite Nat.eqb_refl in E. revert xs E. induction (ds_points _ d) as [|p ps IH]; intros xs E.
    - apply Ok_inj' in E. subst xs. split; [reflexivity|]. intros p x [].
    - cbn [mapM] in E. destruct (lapack _ _ _) as [x|] eqn:Ex; [|discriminate]. cbn [bind] in E.
      destruct (mapM _ ps) as [ys|] eqn:Ey; [|discriminate]. cbn [bind] in E. apply Ok_inj' in E. subst xs. destruct (IH ys eq_refl) as [F G].
      split; [cbn [map fst]; now rewrite F|]. intros p' x' [I|I]; [|now apply G]. injection I as <- <-. apply (proj1 HL) in Ex.
      split; [now rewrite map_length, seq_length|]. intros i Hi. destruct (In_nth _ _ EmptyString Hi) as (a & Ha & Ea).
      rewrite combine_seq, map_map. cbn [fst snd]. rewrite fold_csum. specialize (Ex a Ha). cbv beta in Ex. unfold times_vec in Ex.
      unfold label in Ex |- *. rewrite Ea in Ex. rewrite <- Ex. apply csum_ext. intros b _. rewrite HH. reflexivity.
  Qed.
  Lemma symmetric_motion (d : dataset P) dis st m k p l : (let s := symmetric_on l in
    s (m p) /\ s (k p) /\ s (ds_added_mass _ d p) /\ s (ds_damping _ d p) /\ s (given dis) /\ s (given st)) ->
    forall r i, In r l -> In i l -> motion_coefficient d m k dis st p r i = motion_coefficient d m k dis st p i r.
  Proof.
    intros (S1 & S2 & S3 & S4 & S5 & S6) r i Hr Hi. unfold motion_coefficient.
    now rewrite (S1 r i), (S2 r i), (S3 r i), (S4 r i), (S5 r i), (S6 r i).
  Qed.
  Lemma motion_ext l h h' f x : (forall r i, In r l -> In i l -> h r i = h' r i) -> equation_of_motion l h f x -> equation_of_motion l h' f x.
  Proof.
    intros E [L G]. split; [exact L|]. intros i Hi. rewrite <- (G i Hi). f_equal. apply map_ext_in. intros [r y] H. cbn [fst snd]. f_equal. symmetry. apply E; [|exact Hi].
    now apply in_combine_l in H.
  Qed.
  Lemma rao_exists (d : dataset P) dis st m k f : ds_inertia _ d = Some m -> ds_stiffness _ d = Some k -> ds_excitation _ d = Some f ->
    ds_radiating _ d = ds_influenced _ d ->
    (forall p, In p (ds_points _ d) -> forall x, equation_of_motion (ds_influenced _ d) (fun r i => motion_coefficient d m k dis st p i r) (fun _ => RtoC 0) x ->
       forall y, In y x -> y = RtoC 0) ->
    exists xs, rao _ lapack d dis st = Ok xs.
  Proof.
    intros Em Ek Ef El N. destruct (transfer_value d dis st m k Em Ek) as (H & EH & HH). unfold rao. rewrite EH, Ef. cbn [bind]. rewrite El.
    set (l := ds_influenced _ d) in *. unfold np_solve. rewrite Nat.eqb_refl. induction (ds_points _ d) as [|p ps IH]; [eexists; reflexivity|].
    destruct IH as [xs E]; [intros q Hq; apply N; now right|].
    destruct (proj2 HL (length l) (fun a b => H p (label l a) (label l b)) (fun b => f p (label l b))) as [x Ex].
    - intros x Hx a Ha. apply (N p (or_introl eq_refl) (map x (seq 0 (length l)))).
      + split; [now rewrite map_length, seq_length|]. intros i Hi. destruct (In_nth _ _ EmptyString Hi) as (c & Hc & Ec).
        rewrite combine_seq, map_map. cbn [fst snd]. rewrite fold_csum. specialize (Hx c Hc). unfold times_vec in Hx. transitivity (@k0 complexes); [|reflexivity]. rewrite <- Hx.
        apply csum_ext. intros b _. cbn [Nat.add]. rewrite HH. unfold label. rewrite Ec. reflexivity.
      + apply in_map_iff. exists a. split; [reflexivity|]. apply in_seq. lia.
    - cbn [mapM]. rewrite Ex. cbn [bind]. rewrite E. eexists. reflexivity.
  Qed.
End Proofs.
