(** Restriction of bodies to some of their dofs. *)
From Coq Require Import Reals String Ascii.
From Coq Require Import List Bool Arith ZArith Lra Lia.
From Verif Require Import Model_Base Model_Geometry Model_Mesh Spec_Mesh Model_Tree
  Proofs_Mesh Proofs_Mesh2 Proofs_Mesh3 Model_Body Spec_Body Proofs_Body Proofs_Body6 Spec_Rigid.
Import ListNotations.
Open Scope nat_scope.

Lemma label_position_ok s L n : label_position s L = Ok n -> nth_error L n = Some s.
Proof.
  revert n. induction L as [|x L IH]; intros n E; [discriminate|]. cbn in E. destruct (String.eqb_spec s x) as [->|].
  - injection E as <-. reflexivity.
  - destruct (label_position s L) as [u|] eqn:Es; [|discriminate]. cbn in E. injection E as <-. exact (IH u eq_refl).
Qed.
Lemma label_position_in s L : In s L -> exists n, label_position s L = Ok n /\ n < List.length L.
Proof.
  induction L as [|x L IH]; [intros []|]. intros H. cbn. destruct (String.eqb_spec s x) as [->|N].
  - exists 0. split; [reflexivity|cbn; lia].
  - destruct H as [->|H]; [congruence|]. destruct (IH H) as (n & -> & Hn). exists (S n). split; [reflexivity|cbn; lia].
Qed.
Lemma get_some {A} (l : list A) k x : get l k = Ok x -> nth_error l k = Some x.
Proof. unfold get. destruct (nth_error l k); [|discriminate]. intros H. injection H as <-. reflexivity. Qed.
Lemma select_restricts names m m' : select_labels names m = Ok m' -> restricts names m m'.
Proof.
  unfold select_labels. destruct (mapM _ names) as [ids|] eqn:E1; [|discriminate]. cbn [bind].
  destruct (mapM (get (lm_rows m)) ids) as [rows|] eqn:E2; [|discriminate]. cbn [bind].
  destruct (mapM _ rows) as [rows'|] eqn:E3; [|discriminate]. cbn [bind]. intros H. injection H as <-.
  split; [reflexivity|]. intros k l i j Hk Hl. 
  destruct (mapM_entry _ _ _ _ _ E1 Hk) as (ki & Ki & Pi). destruct (mapM_entry _ _ _ _ _ E1 Hl) as (kj & Kj & Pj).
  exists ki, kj. split; [now apply label_position_ok|]. split; [now apply label_position_ok|].
  destruct (mapM_entry _ _ _ _ _ E2 Ki) as (r & Rr & Gr). destruct (mapM_entry _ _ _ _ _ E3 Rr) as (r' & Rr' & Gr').
  destruct (mapM_entry _ _ _ _ _ Gr' Kj) as (x & Rx & Gx). apply get_some in Gr, Gx.
  unfold coefficient. cbn [lm_rows]. rewrite Rr', Gr, Rx, Gx. split; [reflexivity|discriminate].
Qed.
Lemma mapM_all {A B} (f : A -> result B) (P : B -> Prop) l : (forall x, In x l -> exists y, f x = Ok y /\ P y) ->
  exists ys, mapM f l = Ok ys /\ forall y, In y ys -> P y.
Proof.
  induction l as [|a l IH]; intros H; [exists []; split; [reflexivity|intros ? []]|].
  destruct (H a (or_introl eq_refl)) as (y & E & Py). destruct IH as (ys & Es & Ps); [intros x Hx; apply H; now right|].
  exists (y :: ys). cbn. rewrite E, Es. split; [reflexivity|]. intros z [<-|Hz]; auto.
Qed.
Lemma select_total names m : square m -> incl names (lm_labels m) -> exists m', select_labels names m = Ok m'.
Proof.
  intros [L Rw] Hi. unfold select_labels.
  destruct (mapM_all (fun s => label_position s (lm_labels m)) (fun k => k < List.length (lm_labels m)) names) as (ids & E1 & B).
  { intros s Hs. apply label_position_in. now apply Hi. }
  rewrite E1. cbn [bind].
  destruct (mapM_all (get (lm_rows m)) (fun r => List.length r = List.length (lm_labels m)) ids) as (rows & E2 & B2).
  { intros k Hk. specialize (B k Hk). rewrite <- L in B. unfold get. destruct (nth_error (lm_rows m) k) as [r|] eqn:Er; [|apply nth_error_None in Er; lia].
    exists r. split; [reflexivity|]. apply Rw. eapply nth_error_In. eassumption. }
  rewrite E2. cbn [bind].
  destruct (mapM_all (fun r => mapM (get r) ids) (fun _ => True) rows) as (rows' & E3 & _).
  { intros r Hr. destruct (mapM_all (get r) (fun _ => True) ids) as (ys & E & _); [|eauto].
    intros k Hk. specialize (B k Hk). rewrite <- (B2 r Hr) in B. unfold get. destruct (nth_error r k) as [x|] eqn:Er; [eauto|apply nth_error_None in Er; lia]. }
  rewrite E3. cbn. eauto.
Qed.
Lemma filter_dget names n ds : dget n (filter (fun d : string * list vec => existsb (String.eqb (fst d)) names) ds)
  = if existsb (String.eqb n) names then dget n ds else Err KeyError.
Proof.
  induction ds as [|[s r] ds IH]; cbn [filter fst]; [cbn; now destruct (existsb _ names)|].
  destruct (existsb (String.eqb s) names) eqn:Es.
  - cbn. destruct (String.eqb_spec n s) as [->|N]; [now rewrite Es|exact IH].
  - rewrite IH. cbn. destruct (String.eqb_spec n s) as [->|N]; [now rewrite Es|reflexivity].
Qed.
Lemma option_bind_ok names o o' : option_bind o (select_labels names) = Ok o' -> restricts_option names o o'.
Proof.
  destruct o as [m|]; cbn; [|intros H; injection H as <-; exact I]. destruct (select_labels names m) as [m'|] eqn:E; [|discriminate].
  cbn. intros H. injection H as <-. now apply select_restricts.
Qed.
Lemma option_bind_total names o : (forall m, o = Some m -> square m /\ incl names (lm_labels m)) -> exists o', option_bind o (select_labels names) = Ok o'.
Proof.
  intros H. destruct o as [m|]; cbn; [|eauto]. destruct (H m eq_refl) as [Sq Hi]. destruct (select_total names m Sq Hi) as (m' & ->). cbn. eauto.
Qed.
Lemma keep_spec b names b' : keep_only_dofs b names = Ok b' ->
  (forall n, In n names -> dget n (fb_dofs b') = dget n (fb_dofs b))
  /\ (forall n, ~ In n names -> dget n (fb_dofs b') = Err KeyError)
  /\ map fst (fb_dofs b') = filter (fun n => existsb (String.eqb n) names) (map fst (fb_dofs b))
  /\ restricts_option names (fb_inertia b) (fb_inertia b') /\ restricts_option names (fb_stiffness b) (fb_stiffness b')
  /\ b' = set_matrices (set_dofs b (fb_dofs b')) (fb_inertia b') (fb_stiffness b').
Proof.
  unfold keep_only_dofs. destruct (option_bind (fb_inertia b) (select_labels names)) as [i|] eqn:Ei; [|discriminate].
  cbn [bind]. destruct (option_bind (fb_stiffness b) (select_labels names)) as [s|] eqn:Es; [|discriminate]. cbn [bind].
  intros H. apply Ok_inj' in H. subst b'. cbn [set_matrices set_dofs fb_dofs fb_inertia fb_stiffness].
  split. { intros n Hn. rewrite filter_dget. replace (existsb (String.eqb n) names) with true; [reflexivity|]. symmetry. apply existsb_exists. exists n. split; [exact Hn|apply String.eqb_refl]. }
  split. { intros n Hn. rewrite filter_dget. destruct (existsb (String.eqb n) names) eqn:E; [|reflexivity]. apply existsb_exists in E. destruct E as (x & Hx & E). apply String.eqb_eq in E. subst. contradiction. }
  split. { clear. induction (fb_dofs b) as [|[n r] ds IH]; [reflexivity|]. cbn. destruct (existsb (String.eqb n) names); cbn; now rewrite IH. }
  split; [now apply option_bind_ok|]. split; [now apply option_bind_ok|]. reflexivity.
Qed.
Lemma keep_total b names : (forall m, fb_inertia b = Some m \/ fb_stiffness b = Some m -> square m /\ incl names (lm_labels m)) ->
  exists b', keep_only_dofs b names = Ok b'.
Proof.
  intros H. unfold keep_only_dofs. destruct (option_bind_total names (fb_inertia b)) as (i & ->); [intros m E; apply H; now left|].
  destruct (option_bind_total names (fb_stiffness b)) as (s & ->); [intros m E; apply H; now right|]. cbn. eauto.
Qed.
