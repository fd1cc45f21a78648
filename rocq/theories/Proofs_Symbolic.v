From Coq Require Import Reals List String Bool ZArith Lia Lra.
From Coquelicot Require Import Coquelicot.
From Verif Require Import Model_Base Model_Symbolic Spec_Symbolic.
Import ListNotations.
Open Scope R_scope.

Local Arguments leaf_mul : simpl never.
Local Arguments symb_eqb : simpl never.
Local Arguments leaf_div : simpl never.
Local Arguments Z.add : simpl never.

Lemma bind_Ok {A B} (r : result A) (f : A -> result B) b :
  bind r f = Ok b -> exists a, r = Ok a /\ f a = Ok b.
Proof. destruct r; cbn; [eauto|discriminate]. Qed.

Lemma symb_eqb_eq a b : symb_eqb a b = true -> a = b.
Proof. unfold symb_eqb; destruct a, b; try discriminate; auto. intros H. apply String.eqb_eq in H. now subst. Qed.
Lemma symb_eqb_refl a : symb_eqb a a = true.
Proof. unfold symb_eqb; destruct a; auto. apply String.eqb_refl. Qed.

Definition leaf_go (x : leaf) :=
  fix go (b : num) : result num :=
       match b with
       | Sym s v => bind (go v) (fun r => Ok (Sym s r))
       | Fl y => bind (leaf_mul x y) (fun r => Ok (Fl r))
       end.

Lemma num_mul_hom a b c : num_mul a b = Ok c ->
  order c = (order a + order b)%Z /\ leaf_mul (coefficient a) (coefficient b) = Ok (coefficient c).
Proof.
  revert c. induction a as [x|s v IH]; intros c H.
  - change (leaf_go x b = Ok c) in H. revert c H.
    induction b as [y|s v IH]; cbn [leaf_go]; intros c H.
    + apply bind_Ok in H. destruct H as (r & Hr & [= <-]). cbn. auto.
    + apply bind_Ok in H. destruct H as (r & Hr & [= <-]).
      destruct (IH _ Hr) as [H1 H2]. cbn [order coefficient] in *. split; [|exact H2].
      destruct s; lia.
  - cbn in H. apply bind_Ok in H. destruct H as (r & Hr & [= <-]).
    destruct (IH _ Hr) as [H1 H2]. cbn [order coefficient] in *. split; [|exact H2]. destruct s; lia.
Qed.

Lemma num_mul_def a b r : leaf_mul (coefficient a) (coefficient b) = Ok r ->
  exists c, num_mul a b = Ok c.
Proof.
  revert r. induction a as [x|s v IH]; intros r H.
  - change (exists c, leaf_go x b = Ok c).
    induction b as [y|s v IH]; cbn [order coefficient] in *.
    + exists (Fl r). change (bind (leaf_mul x y) (fun r => Ok (Fl r)) = Ok (Fl r)). now rewrite H.
    + destruct (IH H) as [c Hc]. exists (Sym s c).
      change (bind (leaf_go x v) (fun r => Ok (Sym s r)) = Ok (Sym s c)). now rewrite Hc.
  - cbn [num_mul coefficient] in *. destruct (IH _ H) as [c Hc]. rewrite Hc. cbn. eauto.
Qed.

Lemma leaf_rdiv_hom x b c : leaf_rdiv x b = Ok c ->
  order c = (- order b)%Z /\ leaf_div x (coefficient b) = Ok (coefficient c).
Proof.
  revert c. induction b as [y|s v IH]; cbn; intros c H.
  - apply bind_Ok in H. destruct H as (r & Hr & [= <-]). cbn. auto.
  - destruct s; try discriminate; apply bind_Ok in H; destruct H as (r & Hr & [= <-]);
      destruct (IH _ Hr) as [H1 H2]; cbn [order coefficient] in *; (split; [lia|exact H2]).
Qed.

Lemma num_div_hom a b c : num_div a b = Ok c ->
  order c = (order a - order b)%Z /\ leaf_div (coefficient a) (coefficient b) = Ok (coefficient c).
Proof.
  revert b c. induction a as [x|s v IH]; cbn; intros b c H.
  - apply leaf_rdiv_hom in H. destruct H as [H1 H2]. split; [lia|exact H2].
  - destruct b as [y|s' w].
    + apply bind_Ok in H. destruct H as (r & Hr & [= <-]).
      destruct (IH _ _ Hr) as [H1 H2]. cbn [order coefficient] in *. split; [destruct s; lia|exact H2].
    + destruct (symb_eqb s s') eqn:E.
      * apply symb_eqb_eq in E. subst s'. destruct (IH _ _ H) as [H1 H2]. cbn [order coefficient].
        split; [destruct s; lia|exact H2].
      * apply bind_Ok in H. destruct H as (r & Hr & [= <-]).
        destruct (IH _ _ Hr) as [H1 H2]. cbn [order coefficient] in *. split; [destruct s; lia|exact H2].
Qed.

Lemma leaf_rdiv_def x b r : limits_only b = true -> leaf_div x (coefficient b) = Ok r ->
  exists c, leaf_rdiv x b = Ok c.
Proof.
  induction b as [y|s v IH]; cbn; intros Hl H.
  - rewrite H. cbn. eauto.
  - destruct s; try discriminate; destruct (IH Hl H) as [c Hc]; rewrite Hc; cbn; eauto.
Qed.

Lemma num_div_def a b r : limits_only b = true ->
  leaf_div (coefficient a) (coefficient b) = Ok r -> exists c, num_div a b = Ok c.
Proof.
  revert b. induction a as [x|s v IH]; cbn; intros b Hl H.
  - eapply leaf_rdiv_def; eauto.
  - destruct b as [y|s' w].
    + destruct (IH (Fl y) Hl H) as [c Hc]. rewrite Hc. cbn. eauto.
    + destruct (symb_eqb s s') eqn:E.
      * apply IH; auto. cbn in Hl. destruct s'; auto; discriminate.
      * destruct (IH (Sym s' w) Hl H) as [c Hc]. rewrite Hc. cbn. eauto.
Qed.

Lemma num_mul_correct a b r :
  leaf_mul (coefficient a) (coefficient b) = Ok r ->
  exists c, num_mul a b = Ok c /\ order c = (order a + order b)%Z /\ coefficient c = r.
Proof.
  intros H. destruct (num_mul_def _ _ _ H) as [c Hc]. exists c. split; [exact Hc|].
  destruct (num_mul_hom _ _ _ Hc) as [H1 H2]. split; [exact H1|]. congruence.
Qed.
Lemma num_div_correct a b r : limits_only b = true ->
  leaf_div (coefficient a) (coefficient b) = Ok r ->
  exists c, num_div a b = Ok c /\ order c = (order a - order b)%Z /\ coefficient c = r.
Proof.
  intros Hl H. destruct (num_div_def _ _ _ Hl H) as [c Hc]. exists c. split; [exact Hc|].
  destruct (num_div_hom _ _ _ Hc) as [H1 H2]. split; [exact H1|]. congruence.
Qed.

(** ** Conversion to float *)
Lemma order_zero a : all_symbols SZero a = true -> (0 <= order a)%Z.
Proof.
  induction a as [x|s v IH]; cbn; [lia|]. intros H. apply andb_prop in H. destruct H as [H1 H2].
  apply symb_eqb_eq in H1. subst s. specialize (IH H2). lia.
Qed.
Lemma order_inf a : all_symbols SInf a = true -> (order a <= 0)%Z.
Proof.
  induction a as [x|s v IH]; cbn; [lia|]. intros H. apply andb_prop in H. destruct H as [H1 H2].
  apply symb_eqb_eq in H1. subst s. specialize (IH H2). lia.
Qed.

Lemma num_float_zero a c : all_symbols SZero a = true -> coefficient a = Scal (Fin c) ->
  num_float a = Ok (limit_value c (order a)).
Proof.
  induction a as [x|s v IH]; cbn; intros H Hc.
  - subst x. cbn. reflexivity.
  - apply andb_prop in H. destruct H as [H1 H2].
    apply symb_eqb_eq in H1. subst s. rewrite (IH H2 Hc).
    pose proof (order_zero v H2) as Ho. cbn [bind].
    unfold limit_value.
    destruct (Z.ltb_spec 0 (1 + order v)); [|lia].
    destruct (Z.ltb_spec 0 (order v)).
    + cbn. f_equal. f_equal. ring.
    + destruct (Z.eqb_spec (order v) 0); [|lia]. cbn. f_equal. f_equal. ring.
Qed.

Lemma num_float_inf a c : all_symbols SInf a = true -> coefficient a = Scal (Fin c) -> c <> 0 ->
  num_float a = Ok (limit_value c (order a)).
Proof.
  intros H Hc H0. revert H Hc. induction a as [x|s v IH]; cbn; intros H Hc.
  - subst x. cbn. reflexivity.
  - apply andb_prop in H. destruct H as [H1 H2].
    apply symb_eqb_eq in H1. subst s. rewrite (IH H2 Hc).
    pose proof (order_inf v H2) as Ho. cbn [bind].
    unfold limit_value.
    destruct (Z.ltb_spec 0 (order v)); [lia|].
    destruct (Z.ltb_spec 0 (-1 + order v)); [lia|].
    destruct (Z.eqb_spec (-1 + order v) 0); [lia|].
    destruct (Z.eqb_spec (order v) 0).
    + cbn. unfold ext_mul_inf. destruct (Rlt_dec 0 c); [reflexivity|].
      destruct (Rlt_dec c 0); [reflexivity|lra].
    + destruct (Rlt_dec 0 c); [reflexivity|].
      destruct (Rlt_dec c 0); [reflexivity|lra].
Qed.

(** [limit_value] is the mathematical limit. *)
Definition ext_of_Rbar (l : Rbar) : ext :=
  match l with Finite r => Fin r | p_infty => PInf | m_infty => NInf end.

Lemma at_right_pos : at_right 0 (fun eps => 0 < eps).
Proof. unfold at_right, within. exists (mkposreal 1 Rlt_0_1). intros y _ H. exact H. Qed.

Lemma pow_lim0 n : (0 < n)%nat -> filterlim (fun eps => eps ^ n) (at_right 0) (locally 0).
Proof.
  intros Hn. replace 0 with (0 ^ n) at 2 by (destruct n; [lia|cbn; ring]).
  eapply filterlim_filter_le_1.
  2: { apply (ex_derive_continuous (fun eps : R => eps ^ n)). auto_derive. exact I. }
  intros P H. unfold at_right, within. eapply filter_imp; [|exact H]. auto.
Qed.

Lemma inv_pow_lim n : (0 < n)%nat ->
  filterlim (fun eps => / (eps ^ n)) (at_right 0) (Rbar_locally p_infty).
Proof.
  intros Hn.
  eapply filterlim_comp; [|apply filterlim_Rinv_0_right].
  unfold at_right at 2. intros P HP. unfold within in HP.
  unfold filtermap. pose proof (pow_lim0 n Hn _ HP) as H. unfold filtermap in H.
  generalize (filter_and _ _ H at_right_pos). apply filter_imp.
  intros x [Hx Hp]. apply Hx. apply pow_lt. exact Hp.
Qed.

Lemma limit_value_correct c k : c <> 0 ->
  exists l : Rbar, ext_of_Rbar l = limit_value c k
    /\ filterlim (fun eps => c * powerRZ eps k) (at_right 0) (Rbar_locally l).
Proof.
  intros Hc. unfold limit_value. destruct k as [|p|p]; cbn [Z.ltb Z.eqb Z.compare].
  - exists (Finite c). split; [reflexivity|]. cbn.
    eapply filterlim_ext; [intros x; cbn; symmetry; apply Rmult_1_r|]. apply filterlim_const.
  - exists (Finite 0). split; [reflexivity|]. cbn.
    replace 0 with (c * 0) at 2 by ring.
    eapply filterlim_comp; [apply (pow_lim0 (Pos.to_nat p)); lia|].
    apply (ex_derive_continuous (fun x : R => c * x)). auto_derive. exact I.
  - destruct (Rlt_dec 0 c) as [H|H]; [|destruct (Rlt_dec c 0) as [H'|H']; [|lra]].
    + exists p_infty. split; [reflexivity|]. cbn [powerRZ].
      eapply filterlim_comp_2; [apply (filterlim_const c)|apply (inv_pow_lim (Pos.to_nat p)); lia|].
      apply (filterlim_Rbar_mult c p_infty p_infty). unfold is_Rbar_mult. cbn.
      destruct (Rle_dec 0 c) as [r|]; [|lra]. destruct (Rle_lt_or_eq_dec 0 c r); [reflexivity|lra].
    + exists m_infty. split; [reflexivity|]. cbn [powerRZ].
      eapply filterlim_comp_2; [apply (filterlim_const c)|apply (inv_pow_lim (Pos.to_nat p)); lia|].
      apply (filterlim_Rbar_mult c p_infty m_infty). unfold is_Rbar_mult. cbn.
      destruct (Rle_dec 0 c) as [r|]; [exfalso; lra|]. reflexivity.
Qed.

(** ** What fails *)
Lemma sym_mixed_nan :
  num_float (Sym SZero (Sym SInf (Fl (Scal (Fin 1))))) = Ok NaN
  /\ limit_value 1 (order (Sym SZero (Sym SInf (Fl (Scal (Fin 1)))))) = Fin 1.
Proof.
  split; [|reflexivity]. cbn. unfold ext_mul_inf.
  destruct (Rlt_dec 0 1); [|lra]. cbn. unfold ext_mul_inf.
  destruct (Rlt_dec 0 0); [lra|]. reflexivity.
Qed.

Lemma sym_hash_clash :
  let a := Sym SZero (Fl (Scal (Fin 1))) in let b := Sym SZero (Fl (Scal (Fin 2))) in
  num_eqb a b = Ok true /\ num_hash a <> num_hash b.
Proof.
  cbn. split.
  - unfold Reqb. destruct (Req_EM_T (0 * 1) (0 * 2)) as [_|N]; [reflexivity|]. exfalso. apply N. ring.
  - intros [= H]. lra.
Qed.

Lemma sym_array_sign :
  num_add (Sym SInf (Fl (Arr [Fin (-1)]))) (Fl (Scal (Fin 0))) = Ok (Arr [PInf])
  /\ num_add (Sym SInf (Fl (Scal (Fin (-1))))) (Fl (Scal (Fin 0))) = Ok (Scal NInf).
Proof.
  split; [reflexivity|]. cbn. unfold ext_mul_inf.
  destruct (Rlt_dec 0 (-1)); [lra|]. destruct (Rlt_dec (-1) 0); [reflexivity|lra].
Qed.
