From Coq Require Import Reals String List Bool Arith Lra Lia.
From Verif Require Import Model_Base Model_Mesh Proofs_Mesh Model_Separate Spec_Separate.
Import ListNotations.
Open Scope R_scope.

Lemma find_app_key {A} n (l l' : list (string * A)) : ~ In n (map fst l) -> find_key n (l ++ l') = find_key n l'.
Proof.
  induction l as [|[m a] l IH]; [reflexivity|]. cbn [map fst In]. intros H. unfold find_key. cbn [app find fst].
  destruct (String.eqb m n) eqn:E; [apply String.eqb_eq in E; tauto|]. apply IH. tauto.
Qed.
Lemma find_head {A} n (a : A) l : find_key n ((n, a) :: l) = Some a.
Proof. unfold find_key. cbn [find fst]. now rewrite String.eqb_refl. Qed.
Lemma find_none {A} n (l : list (string * A)) : ~ In n (map fst l) -> find_key n l = None.
Proof. intros H. rewrite <- (app_nil_r l), find_app_key by exact H. reflexivity. Qed.
Lemma assign_app {A} n (a : A) l l' : ~ In n (map fst l) -> assign n a (l ++ l') = l ++ assign n a l'.
Proof.
  induction l as [|[m b] l IH]; [reflexivity|]. cbn [map fst In app assign]. intros H.
  destruct (String.eqb m n) eqn:E; [apply String.eqb_eq in E; tauto|]. now rewrite IH by tauto.
Qed.
Lemma assign_head {A} n (a b : A) l : assign n a ((n, b) :: l) = (n, a) :: l.
Proof. cbn. now rewrite String.eqb_refl. Qed.

Definition is_complex (v : variable) : bool := match v_data v with Complexes _ => true | _ => false end.
Definition with_complex (any : bool) (c : list (string * variable)) : list (string * variable) :=
  if any then c ++ [("complex"%string, complex_coord)] else c.

Lemma separate_from : forall todo done any coords, NoDup (map fst (done ++ todo)) -> ~ In "complex"%string (map fst coords) ->
  fold_left separate_one (map fst todo) (XDataset (done ++ todo) (with_complex any coords))
  = XDataset (done ++ map (fun nv => (fst nv, real_form (snd nv))) todo)
             (with_complex (any || existsb (fun nv => is_complex (snd nv)) todo) coords).
Proof.
  induction todo as [|[n v] todo IH]; intros done any coords HN HC.
  - cbn. now rewrite orb_false_r.
  - cbn [map fold_left fst snd existsb].
    assert (Hn : ~ In n (map fst done)).
    { rewrite map_app in HN. cbn [map fst] in HN. apply NoDup_remove_2 in HN. intros H. apply HN. apply in_or_app. now left. }
    assert (E : separate_one (XDataset (done ++ (n, v) :: todo) (with_complex any coords)) n
      = XDataset ((done ++ [(n, real_form v)]) ++ todo) (with_complex (any || is_complex v) coords)).
    { unfold separate_one. cbn [x_vars x_coords]. rewrite find_app_key by exact Hn. rewrite find_head.
      rewrite <- app_assoc. cbn [app].
      destruct v as [dims shape [l|l|l|l]]; unfold real_form, is_complex; cbn [v_data v_dims v_shape]; rewrite ?orb_false_r, ?orb_true_r; try reflexivity.
      rewrite assign_app by exact Hn. rewrite assign_head. f_equal. unfold with_complex. destruct any.
      - rewrite assign_app by exact HC. now rewrite assign_head.
      - rewrite <- (app_nil_r coords) at 1. rewrite assign_app by exact HC. reflexivity. }
    rewrite E, IH, <- app_assoc, orb_assoc; [reflexivity| |exact HC].
    rewrite <- app_assoc. rewrite map_app in *. exact HN.
Qed.
Lemma separate_eq ds : NoDup (map fst (x_vars ds)) -> ~ In "complex"%string (map fst (x_coords ds)) ->
  separate ds = XDataset (map (fun nv => (fst nv, real_form (snd nv))) (x_vars ds))
                         (with_complex (existsb (fun nv => is_complex (snd nv)) (x_vars ds)) (x_coords ds)).
Proof.
  intros HN HC. unfold separate. destruct ds as [vars coords]. cbn [x_vars x_coords] in *.
  exact (separate_from vars [] false coords HN HC).
Qed.

Lemma recombine_id x y : recombine (of_float x) (of_float (Fin y)) = (x, Fin y).
Proof.
  unfold recombine, of_float, xadd, xmul. cbn [fst snd ext_mul ext_sub ext_opp ext_add].
  f_equal; [destruct x; cbn; try reflexivity; f_equal; ring|f_equal; ring].
Qed.
Lemma map2_recombine l : (forall z, In z l -> exists y, snd z = Fin y) ->
  map2 (fun a b => recombine (of_float a) (of_float b)) (map fst l) (map snd l) = l.
Proof.
  induction l as [|[x y] l IH]; intros H; cbn [map map2 fst snd]; [reflexivity|].
  destruct (H (x, y)) as (y' & E); [now left|]. cbn in E. subst y. rewrite recombine_id, IH; [reflexivity|]. intros; apply H; now right.
Qed.
Lemma filter_dims dims : ~ In "complex"%string dims -> filter (fun d => negb (String.eqb d "complex"%string)) dims = dims.
Proof.
  induction dims as [|d dims IH]; [reflexivity|]. intros H. cbn [filter].
  destruct (String.eqb d "complex") eqn:E; [apply String.eqb_eq in E; subst; exfalso; apply H; now left|]. cbn [negb]. rewrite IH; [reflexivity|].
  intros I. apply H. now right.
Qed.
Lemma merge_separated dims shape l : ~ In "complex"%string dims -> List.length l = prod shape ->
  (forall z, In z l -> exists y, snd z = Fin y) ->
  merge_variable complex_coord (Var ("complex"%string :: dims) (2%nat :: shape) (Floats (map fst l ++ map snd l))) = Ok (Var dims shape (Complexes l)).
Proof.
  intros HD HL HF. unfold merge_variable, complex_coord. cbn [v_dims v_shape v_data axis_of].
  change (String.eqb "complex" "complex") with true. change (String.eqb "re" "re") with true.
  change (String.eqb "re" "im") with false. change (String.eqb "im" "im") with true. cbn [option_map].
  unfold sel_data. cbn [firstn skipn nth remove_nth]. change (prod []) with 1%nat. cbn [take_axis].
  rewrite !app_nil_r, <- HL, Nat.mul_0_l, Nat.mul_1_l. cbn [skipn bind].
  rewrite <- (map_length fst l) at 1. rewrite firstn_app, Nat.sub_diag, firstn_all, firstn_O, app_nil_r.
  rewrite <- (map_length fst l) at 2. rewrite skipn_app, Nat.sub_diag, skipn_all. cbn [skipn app].
  rewrite <- (map_length snd l), firstn_all.
  rewrite map2_recombine by exact HF. cbn [filter negb]. change (String.eqb "complex" "complex") with true. cbn [negb].
  now rewrite filter_dims.
Qed.

Lemma includes_complex dims : includes ["complex"%string] dims = true <-> In "complex"%string dims.
Proof.
  unfold includes. cbn [forallb]. rewrite andb_true_r, existsb_exists. split.
  - intros (d & H & E). apply String.eqb_eq in E. now subst.
  - intros H. eexists. split; [exact H|apply String.eqb_refl].
Qed.

Lemma merge_separate ds : ordinary_dataset ds -> finite_imaginary ds -> merge (separate ds) = Ok ds.
Proof.
  intros (HN & HV & HC) HF.
  assert (HC' : ~ In "complex"%string (map fst (x_coords ds))).
  { intros H. apply in_map_iff in H. destruct H as ([n v] & E & H). apply (HC n v H E). }
  rewrite separate_eq by assumption. destruct ds as [vars coords]. cbn [x_vars x_coords] in *. unfold merge. cbn [x_coords x_vars].
  destruct (existsb _ vars) eqn:EX; unfold with_complex.
  - rewrite find_app_key by exact HC'. rewrite find_head.
    assert (E : mapM (fun nv : string * variable => if includes (v_dims complex_coord) (v_dims (snd nv))
      then bind (merge_variable complex_coord (snd nv)) (fun v => Ok (fst nv, v)) else Ok nv)
      (map (fun nv => (fst nv, real_form (snd nv))) vars) = Ok vars).
    { rewrite mapM_map_in. rewrite <- (map_id vars) at 2. apply mapM_map. intros [n v] Hv. cbn [fst snd v_dims complex_coord].
      destruct (HV n v Hv) as [HD HS]. destruct v as [dims shape d]. cbn [v_dims v_shape v_data] in *.
      destruct d as [l|l|l|l]; unfold real_form; cbn [v_data v_dims v_shape].
      2:{ rewrite (proj2 (includes_complex _)) by now left. rewrite merge_separated; [reflexivity|exact HD|exact HS|].
          intros z Hz. exact (HF n _ l z Hv eq_refl Hz). }
      all: destruct (includes _ dims) eqn:EI; [apply includes_complex in EI; tauto|reflexivity]. }
    rewrite E. cbn [bind]. do 2 f_equal. rewrite filter_app. cbn [filter fst]. change (String.eqb "complex" "complex") with true.
    cbn [negb]. rewrite app_nil_r. clear - HC. induction coords as [|[n v] coords IH]; [reflexivity|]. cbn [filter fst].
    destruct (String.eqb n "complex") eqn:E; [apply String.eqb_eq in E; exfalso; apply (HC n v); [now left|exact E]|].
    cbn [negb]. rewrite IH; [reflexivity|]. intros; apply (HC n0 v0); now right.
  - rewrite find_none by exact HC'. do 2 f_equal. rewrite <- (map_id vars) at 2. apply map_ext_in. intros [n v] Hv. cbn [fst snd].
    f_equal. unfold real_form. destruct (v_data v) eqn:ED; try reflexivity. exfalso.
    assert (existsb (fun nv => is_complex (snd nv)) vars = true); [|congruence]. apply existsb_exists. exists (n, v). split; [exact Hv|].
    unfold is_complex. cbn. now rewrite ED.
Qed.

Lemma separate_real ds : ordinary_dataset ds -> forall n v, In (n, v) (x_vars (separate ds)) <-> exists w, In (n, w) (x_vars ds) /\ v = real_form w.
Proof.
  intros (HN & HV & HC) n v. rewrite separate_eq; [|exact HN|].
  - cbn [x_vars]. rewrite in_map_iff. split.
    + intros ([m w] & E & H). cbn in E. injection E as <- <-. eauto.
    + intros (w & H & ->). exists (n, w). auto.
  - intros H. apply in_map_iff in H. destruct H as ([m w] & E & H). apply (HC m w H E).
Qed.
