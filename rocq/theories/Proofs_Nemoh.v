(** Reading a Nemoh.cal file. *)
From Coq Require Import Reals String Ascii.
From Coq Require Import List Bool ZArith Arith Lia Lra.
From Verif Require Import Model_Base Model_Geometry Model_Mesh Model_Tree Model_Text Model_Files Model_Grid Model_Problem Model_Body.
From Verif Require Import Proofs_Integrals Proofs_Geometry Proofs_Text Proofs_Files Proofs_Body2 Proofs_Body5 Proofs_Grid Proofs_Points2 Spec_Nemoh Model_Nemoh Spec_NemohFiles.
Import ListNotations.
Open Scope nat_scope.

(** ** Words *)

Lemma begins_word ws l i w : begins ws l -> nth_error ws i = Some w -> word l i = Ok w.
Proof.
  intros [rest E] N. unfold word, get. rewrite E, nth_error_app1 by (apply nth_error_Some; congruence). now rewrite N.
Qed.
Lemma gives_word x l : gives x l -> float_word l 0 = Ok x.
Proof. intros (w & B & E). unfold float_word. rewrite (begins_word _ _ 0 w B eq_refl). exact E. Qed.
Lemma counts_word n l : counts n l -> int_word l 0 = Ok (Z.of_nat n).
Proof. intros (w & B & E). unfold int_word. rewrite (begins_word _ _ 0 w B eq_refl). exact E. Qed.
Lemma times_nat n : times (Z.of_nat n) = n. Proof. unfold times. apply Nat2Z.id. Qed.

Lemma split_aux_words t : forall cur, Forall (fun c => blank c = false) cur -> Forall is_word (split_aux cur t).
Proof.
  assert (W : forall cur, Forall (fun c => blank c = false) cur -> cur <> [] -> is_word (rev cur)).
  { intros cur H N. split; [intros E; apply N; rewrite <- (rev_involutive cur), E; reflexivity|]. now apply Forall_rev. }
  induction t as [|c t IH]; intros cur H; cbn [split_aux].
  - destruct cur; constructor; [|constructor]. apply W; [assumption|discriminate].
  - destruct (blank c) eqn:B.
    + destruct cur; [apply IH; constructor|]. constructor; [apply W; [assumption|discriminate]|apply IH; constructor].
    + apply IH. constructor; assumption.
Qed.
Lemma split_words t : Forall is_word (split t). Proof. apply split_aux_words. constructor. Qed.
Lemma begins_is_word ws l w : begins ws l -> In w ws -> is_word w.
Proof. intros [rest E] H. pose proof (split_words l) as F. rewrite E in F. rewrite Forall_forall in F. apply F. apply in_or_app. now left. Qed.

(** ** Degrees of freedom *)

Lemma dof_name_inj i j e e' : dof_name i e = dof_name j e' -> i = j.
Proof.
  unfold dof_name. intros H. cbn [append] in H. injection H as H.
  destruct e, e'; refine (str_nat_inj _ _ (proj1 (split_underscore _ _ _ _ (str_nat_clean i) (str_nat_clean j) H))).
Qed.

Definition named_below (n : nat) (d : list (string * list vec)) : Prop :=
  forall s, In s (map fst d) -> exists i e, i < n /\ s = dof_name i e.
Definition numbered_from (k : nat) (es : list entry) (centers : list vec) : list (string * list vec) :=
  let l := filter known es in
  map (fun ke => (dof_name (fst ke) (snd ke), map (motion (snd ke)) centers)) (combine (seq k (length l)) l).
Lemma fresh_name n d e v : named_below n d -> dset (dof_name n e) v d = d ++ [(dof_name n e, v)].
Proof.
  intros H. apply dset_fresh. intros I. destruct (H _ I) as (i & e' & L & E). apply dof_name_inj in E. lia.
Qed.

Lemma three_words l ws : split l = ws -> forall k x y z rest v, ws = k :: x :: y :: z :: rest -> is_vector v x y z ->
  mapM float_of (firstn 3 (skipn 1 (split l))) = Ok [vx v; vy v; vz v].
Proof.
  intros E k x y z rest v -> (X & Y & Z0). rewrite E. cbn [skipn firstn mapM]. unfold is_real in *. rewrite X, Y, Z0. reflexivity.
Qed.
Lemma vec_eta v : V (vx v) (vy v) (vz v) = v. Proof. now destruct v. Qed.

Lemma read_dof_ok l e b cs : entry_line e l -> (forall v p, e = Rotation v p -> v <> v0) ->
  fb_centers b = Ok cs -> named_below (length (fb_dofs b)) (fb_dofs b) ->
  read_dof l b = Ok (set_dofs b (fb_dofs b ++ numbered_from (length (fb_dofs b)) [e] cs)).
Proof.
  intros H NA C NB. assert (LC : length cs = fb_nb_faces b).
  { unfold fb_centers in C. destruct (t_props (fb_mesh b)) as [ps|] eqn:P; [|discriminate]. injection C as <-.
    rewrite map_length. exact (props_length _ _ P). }
  destruct e as [v|v p|n]; cbn [entry_line] in H.
  - destruct H as (k & x & y & z & B & K & VV). unfold read_dof, int_word. rewrite (begins_word _ _ 0 k B eq_refl). cbn [bind].
    unfold is_integer in K. rewrite K. cbn [bind Z.eqb Pos.eqb]. destruct B as [rest B].
    rewrite (three_words l _ B k x y z rest v eq_refl VV). cbn [bind three]. rewrite vec_eta. unfold add_translation_dof. cbn [bind].
    f_equal. f_equal. change (default_name b "_translation" None) with (dof_name (length (fb_dofs b)) (Translation v)).
    rewrite (fresh_name _ _ _ _ NB). unfold numbered_from. cbn [filter known length seq combine map fst snd]. f_equal. f_equal. f_equal.
    cbn [motion]. rewrite <- LC. clear. induction cs; [reflexivity|]. cbn [length repeat map]. rewrite IHcs. f_equal.
    destruct v; unfold vscale; cbn; f_equal; ring.
  - destruct H as (k & x & y & z & a & b0 & c & B & K & VV & VP). unfold read_dof, int_word. rewrite (begins_word _ _ 0 k B eq_refl). cbn [bind].
    unfold is_integer in K. rewrite K. cbn [bind Z.eqb Pos.eqb]. destruct B as [rest B].
    rewrite (three_words l _ B k x y z (a :: b0 :: c :: rest) v eq_refl VV). cbn [bind].
    assert (E : mapM float_of (firstn 3 (skipn 4 (split l))) = Ok [vx p; vy p; vz p]).
    { destruct VP as (X & Y & Z0). rewrite B. cbn [app skipn firstn mapM]. unfold is_real in *. rewrite X, Y, Z0. reflexivity. }
    rewrite E. cbn [bind three]. rewrite !vec_eta. unfold new_axis. rewrite (normalize_some v (NA v p eq_refl)).
    unfold add_rotation_dof. cbn [bind ax_point ax_vector fst snd].
    assert (R0 : (if Nat.eqb (fb_nb_faces b) 0 then Ok [] else
                  bind (fb_centers b) (fun cs0 => Ok (map (fun c1 => vscale 1 (cross (vsub p c1) (vscale (/ norm v) v))) cs0)))
                 = Ok (map (motion (Rotation v p)) cs)).
    { destruct (Nat.eqb_spec (fb_nb_faces b) 0) as [Z0|Z0].
      - rewrite Z0 in LC. destruct cs; [reflexivity|discriminate].
      - rewrite C. cbn [bind]. f_equal. apply map_ext. intros q. cbn [motion]. destruct v, p, q. unfold vscale, cross, vsub. cbn. f_equal; ring. }
    rewrite R0. cbn [bind]. f_equal. f_equal. change (default_name b "_rotation" None) with (dof_name (length (fb_dofs b)) (Rotation v p)).
    rewrite (fresh_name _ _ _ _ NB). reflexivity.
  - destruct H as (N1 & N2 & k & B & K). unfold read_dof, int_word. rewrite (begins_word _ _ 0 k B eq_refl). cbn [bind].
    unfold is_integer in K. rewrite K. cbn [bind]. rewrite (proj2 (Z.eqb_neq _ _) N1), (proj2 (Z.eqb_neq _ _) N2).
    cbn. rewrite app_nil_r. now destruct b.
Qed.

Lemma numbered_from_app k es es' cs : numbered_from k (es ++ es') cs = numbered_from k es cs ++ numbered_from (k + length (numbered_from k es cs)) es' cs.
Proof.
  unfold numbered_from. rewrite filter_app, app_length, map_length, combine_length, seq_length, Nat.min_id.
  set (a := filter known es). set (b := filter known es'). clearbody a b. revert k.
  induction a as [|e a IH]; intros k; cbn [app length]; [now rewrite Nat.add_0_r|].
  cbn [Nat.add seq combine map fst snd]. rewrite IH. cbn [app]. now rewrite Nat.add_succ_r.
Qed.
Lemma numbered_from_below k es cs : named_below (k + length (numbered_from k es cs)) (numbered_from k es cs).
Proof.
  intros s H. unfold numbered_from in *. rewrite map_length, combine_length, seq_length, Nat.min_id.
  rewrite map_map in H. cbn [fst] in H. apply in_map_iff in H as ((i & e) & <- & I). cbn [fst snd]. exists i, e. split; [|reflexivity].
  apply in_combine_l, in_seq in I. lia.
Qed.

Lemma read_dofs_ok es : forall ls rest b cs, Forall2 entry_line es ls -> no_null_axis es ->
  fb_centers b = Ok cs -> named_below (length (fb_dofs b)) (fb_dofs b) ->
  read_dofs (length ls) (ls ++ rest) b = Ok (set_dofs b (fb_dofs b ++ numbered_from (length (fb_dofs b)) es cs), rest).
Proof.
  induction es as [|e es IH]; intros ls rest b cs H NA C NB; inversion H; subst; cbn [length read_dofs app].
  - cbn. rewrite app_nil_r. now destruct b.
  - cbn [readline]. rewrite (read_dof_ok _ _ _ cs H2); [|intros v p ->; apply (NA v p); now left|assumption..]. cbn [bind].
    rewrite (IH _ _ _ cs); [|assumption|intros v p I; apply (NA v p); now right|exact C|].
    + unfold set_dofs at 1. cbn [fb_name fb_mesh fb_lid fb_dofs fb_mass fb_com fb_rc fb_gc fb_inertia fb_stiffness].
      f_equal. f_equal. unfold set_dofs. cbn [fb_name fb_mesh fb_lid fb_dofs fb_mass fb_com fb_rc fb_gc fb_inertia fb_stiffness]. f_equal.
      change (e :: es) with ([e] ++ es). rewrite numbered_from_app, app_assoc, app_length. reflexivity.
    + cbn [fb_dofs set_dofs]. intros s I. rewrite map_app in I. rewrite app_length. apply in_app_or in I as [I|I].
      * destruct (NB s I) as (i & e' & L & E). exists i, e'. split; [lia|exact E].
      * exact (numbered_from_below _ _ _ s I).
Qed.

Lemma read_force_ok l e : entry_line e l -> read_force l = Ok tt.
Proof.
  destruct e as [v|v p|n]; cbn [entry_line]; intros H; unfold read_force, int_word.
  - destruct H as (k & x & y & z & B & K & VV). rewrite (begins_word _ _ 0 k B eq_refl). cbn [bind].
    unfold is_integer in K. rewrite K. cbn [bind Z.eqb Pos.eqb]. destruct B as [rest B].
    rewrite (three_words l _ B k x y z rest v eq_refl VV). reflexivity.
  - destruct H as (k & x & y & z & a & b0 & c & B & K & VV & VP). rewrite (begins_word _ _ 0 k B eq_refl). cbn [bind].
    unfold is_integer in K. rewrite K. cbn [bind Z.eqb Pos.eqb]. destruct B as [rest B].
    rewrite (three_words l _ B k x y z (a :: b0 :: c :: rest) v eq_refl VV). cbn [bind].
    destruct VP as (X & Y & Z0). rewrite B. cbn [app skipn firstn mapM]. unfold is_real in *. rewrite X, Y, Z0. reflexivity.
  - destruct H as (N1 & N2 & k & B & K). rewrite (begins_word _ _ 0 k B eq_refl). cbn [bind].
    unfold is_integer in K. rewrite K. cbn [bind]. rewrite (proj2 (Z.eqb_neq _ _) N1), (proj2 (Z.eqb_neq _ _) N2). reflexivity.
Qed.
Lemma read_forces_ok es ls rest : Forall2 entry_line es ls -> exists us, read_rows read_force (length ls) (ls ++ rest) = Ok (us, rest).
Proof.
  induction 1 as [|e l es ls H F (us & IH)]; [now exists []|]. cbn [length read_rows app readline].
  rewrite (read_force_ok _ _ H). cbn [bind]. rewrite IH. cbn [bind fst snd]. now exists (tt :: us).
Qed.

Section Reading.
  Variable argsort : list R -> list nat.
  Variable heal_normals : mesh -> result mesh.
  Variable other_loader : text -> text -> result tree.
  Variable run_python : text -> result fbody.
  Variable problem : Type.
  Variable DiffractionProblem : fbody -> R -> ext -> R -> R -> ext -> result problem.
  Variable RadiationProblem : fbody -> string -> ext -> R -> R -> ext -> result problem.
  Let loaded := load_body argsort heal_normals other_loader run_python.
  Let body_read := read_body argsort heal_normals other_loader run_python.
  Let bodies_read := read_bodies argsort heal_normals other_loader run_python.
  Let import := import_cal_file argsort heal_normals other_loader run_python problem DiffractionProblem RadiationProblem.

  Local Notation body_of_section := (Spec_NemohFiles.body_of_section argsort heal_normals other_loader run_python).
  Local Notation whole_body := (Spec_NemohFiles.whole_body argsort heal_normals).
  Local Notation build := (Spec_NemohFiles.build problem DiffractionProblem RadiationProblem).

  Lemma read_body_ok d cal c b ls rest : section_lines c ls -> no_null_axis (c_dofs c) -> body_of_section d cal c b ->
    body_read d cal (ls ++ rest) = Ok (b, rest).
  Proof.
    intros (title & file & sizes & nb_dofs & dofs & nb_forces & forces & nb_more & more & -> & BF & CD & FD & CF & FF & CM) NA
           (b0 & cs & L & D & C & ->).
    unfold body_read, read_body. rewrite <- !app_assoc. cbn [app readline]. rewrite (begins_word _ _ 0 _ BF eq_refl). cbn [bind].
    rewrite strip_only by (apply (begins_is_word _ _ _ BF); now left). rewrite L. cbn [bind].
    rewrite (counts_word _ _ CD). cbn [bind]. rewrite times_nat.
    rewrite (read_dofs_ok _ _ _ _ cs FD NA C) by (rewrite D; intros s []). cbn [bind snd readline fst].
    rewrite (counts_word _ _ CF). cbn [bind]. rewrite times_nat.
    destruct (read_forces_ok _ _ (nb_more :: more ++ rest) FF) as [us E]. rewrite E. cbn [bind snd readline].
    rewrite (counts_word _ _ CM). cbn [bind]. rewrite times_nat, D. rewrite skipn_app, skipn_all, Nat.sub_diag. reflexivity.
  Qed.
  Lemma read_bodies_ok d cal cs : forall lss bs rest, Forall2 section_lines cs lss -> Forall (fun c => no_null_axis (c_dofs c)) cs ->
    Forall2 (body_of_section d cal) cs bs -> bodies_read d cal (length cs) (concat lss ++ rest) = Ok (bs, rest).
  Proof.
    induction cs as [|c cs IH]; intros lss bs rest F NA B; inversion F; inversion B; subst; [reflexivity|].
    inversion NA; subst. unfold bodies_read. cbn [length read_bodies concat]. rewrite <- app_assoc. fold body_read bodies_read.
    rewrite (read_body_ok _ _ _ _ _ _ H1) by eassumption. cbn [bind snd fst]. rewrite (IH _ _ _ H3) by eassumption. reflexivity.
  Qed.

  Lemma before_mark_app a c : no_mark a -> before_mark (a ++ lit "!" ++ c) = a.
  Proof. induction 1 as [|x a H F IH]; [reflexivity|]. cbn [app before_mark]. rewrite H. now rewrite IH. Qed.
  Lemma before_mark_all a : no_mark a -> before_mark a = a.
  Proof. induction 1 as [|x a H F IH]; [reflexivity|]. cbn [before_mark]. rewrite H. now rewrite IH. Qed.
  Lemma before_comment_mark l a : before_comment l a -> before_mark l = a.
  Proof. intros (N & [->|(c & ->)]); [now apply before_mark_all|now apply before_mark_app]. Qed.

  Lemma words_linspace r l ws i j n x y : split l = ws -> nth_error ws j = Some n -> nth_error ws i = Some x -> nth_error ws (S i) = Some y ->
    range_words r n x y -> linspace_words l i j = Ok (linspace (r_first r) (r_last r) (r_number r)).
  Proof.
    intros <- N X Y (A & B & C). unfold linspace_words, float_word, int_word, word, get. rewrite X, Y, N. cbn [bind].
    unfold is_real, is_count, is_integer in *. rewrite B. cbn [bind]. rewrite C. cbn [bind]. rewrite A. cbn [bind]. unfold np_linspace.
    rewrite (proj2 (Z.ltb_ge _ _)) by lia. now rewrite times_nat.
  Qed.
  Lemma range_line_read r l : range_line r l -> linspace_words l 1 0 = Ok (linspace (r_first r) (r_last r) (r_number r)).
  Proof. intros (n & x & y & [rest B] & W). refine (words_linspace r l _ 1 0 n x y B _ _ _ W); reflexivity. Qed.

  Lemma spaced_unique r l : spaced r l -> l = linspace (r_first r) (r_last r) (r_number r).
  Proof.
    intros (L & A & B & (s & C)). rewrite <- L. clear L.
    assert (N : forall k x, nth_error l k = Some x -> x = (r_first r + INR k * s)%R).
    { induction k as [|k IH]; intros x E; [rewrite (A _ E); cbn; ring|].
      destruct (nth_error l k) as [y|] eqn:Ey.
      - rewrite S_INR. pose proof (C _ _ _ Ey E). rewrite (IH y eq_refl) in H. lra.
      - apply nth_error_None in Ey. assert (S k < length l) by (apply nth_error_Some; congruence). lia. }
    assert (ST : 1 < length l -> s = ((r_last r - r_first r) / INR (length l - 1))%R).
    { intros G. destruct (nth_error l (length l - 1)) as [x|] eqn:E; [|apply nth_error_None in E; lia].
      pose proof (B x G eq_refl). pose proof (N _ _ E). assert (INR (length l - 1) <> 0)%R by (apply not_0_INR; lia).
      rewrite H in H0. rewrite H0. field. assumption. }
    apply list_ext. intros k. destruct (nth_error l k) as [x|] eqn:E.
    - assert (K : k < length l) by (apply nth_error_Some; congruence). rewrite linspace_nth by exact K. f_equal. rewrite (N _ _ E). f_equal.
      destruct k; [cbn; ring|]. f_equal. apply ST. lia.
    - symmetry. apply nth_error_None. rewrite linspace_length. now apply nth_error_None.
  Qed.

  Lemma frequencies_read u r l a ws : frequency_line u r l -> spaced r ws -> (u = Seconds -> ~ In 0%R ws) -> a = map (fun x => Fin (pulsation u x)) ws ->
    read_frequencies l = Ok a.
  Proof.
    intros (t & BC & H) SP NZ ->. unfold read_frequencies. rewrite (before_comment_mark _ _ BC). rewrite (spaced_unique _ _ SP) in *.
    destruct H as [(-> & n & x & y & E & W)|(k & n & x & y & rest & E & K & W)].
    - rewrite E. cbn [length Nat.eqb]. rewrite (words_linspace r t _ 1 0 n x y E eq_refl eq_refl eq_refl W). reflexivity.
    - rewrite E. cbn [length Nat.eqb]. unfold int_word, word, get. rewrite E. cbn [nth_error bind].
      unfold is_integer in K. rewrite K. cbn [bind].
      destruct u; cbn [unit_code Z.eqb Pos.eqb]; rewrite (words_linspace r t _ 2 1 n x y E eq_refl eq_refl eq_refl W); cbn [bind]; f_equal.
      apply map_ext_in. intros z I. cbn [pulsation]. unfold np_div, two_pi.
      destruct (Req_EM_T z 0) as [->|NZ']; [now exfalso; apply (NZ eq_refl)|].
      cbn. repeat (match goal with |- context [if ?b then _ else _] => destruct b end); try reflexivity; try lra; try contradiction.
  Qed.

  Lemma mapM_app' {A B} (f : A -> result B) l l' : mapM f (l ++ l') = bind (mapM f l) (fun a => bind (mapM f l') (fun b => Ok (a ++ b))).
  Proof.
    induction l as [|x l IH]; cbn [mapM app]; [cbn; now destruct (mapM f l')|]. rewrite IH.
    destruct (f x); cbn [bind]; [|reflexivity]. destruct (mapM f l); cbn [bind]; [|reflexivity]. destruct (mapM f l'); reflexivity.
  Qed.
  Lemma mapM_mapped {A B C} (f : B -> result C) (g : A -> B) l : mapM f (map g l) = mapM (fun x => f (g x)) l.
  Proof. induction l as [|x l IH]; cbn; [reflexivity|]. now rewrite IH. Qed.
  Lemma mapM_flat {A B C} (f : B -> result C) (g : A -> list B) l :
    bind (mapM (fun x => mapM f (g x)) l) (fun r => Ok (concat r)) = mapM f (flat_map g l).
  Proof.
    induction l as [|x l IH]; [reflexivity|]. cbn [mapM flat_map]. rewrite mapM_app', <- IH.
    destruct (mapM f (g x)); cbn [bind]; [|reflexivity]. destruct (mapM (fun x0 => mapM f (g x0)) l); reflexivity.
  Qed.
  Lemma mapM_ext' {A B} (f g : A -> result B) l : (forall x, In x l -> f x = g x) -> mapM f l = mapM g l.
  Proof.
    induction l as [|x l IH]; intros H; [reflexivity|]. cbn. rewrite (H x) by now left. rewrite IH by (intros; apply H; now right). reflexivity.
  Qed.

  Lemma problems_of_requests rho g depth body omegas directions :
    problems_of problem DiffractionProblem RadiationProblem (Study rho g depth body (map Fin omegas) directions)
    = mapM (build body rho g depth) (requests omegas directions (map fst (fb_dofs body))).
  Proof.
    unfold problems_of, requests. cbn [s_rho s_g s_depth s_body s_omegas s_directions]. rewrite <- mapM_flat. f_equal.
    rewrite mapM_mapped. apply mapM_ext'. intros w _. rewrite mapM_app', !mapM_mapped. reflexivity.
  Qed.

  Lemma all_bodies_ok bs body : whole_body bs body -> all_bodies argsort heal_normals (Z.of_nat (length bs)) bs = Ok body.
  Proof.
    destruct bs as [|b [|b' bs]]; cbn [whole_body]; [contradiction|intros ->; reflexivity|]. intros H. unfold all_bodies.
    rewrite (proj2 (Z.ltb_lt _ _)) by (cbn [length]; lia). exact H.
  Qed.

  Lemma read_point_ok l x y a b : begins [x; y] l -> is_real a x -> is_real b y -> read_point l = Ok tt.
  Proof. intros [rest E] X Y. unfold read_point. rewrite E. cbn [app firstn mapM]. unfold is_real in *. rewrite X, Y. reflexivity. Qed.

  Lemma read_cal_ok d path c ls bs body ws ds :
    cal_lines c ls -> Forall (fun s => no_null_axis (c_dofs s)) (k_bodies c) ->
    Forall2 (body_of_section d path) (k_bodies c) bs -> whole_body bs body ->
    spaced (k_frequencies c) ws -> no_null_period c ws -> spaced (k_directions c) ds ->
    read_cal argsort heal_normals other_loader run_python d path ls =
    Ok (Study (k_rho c) (k_g c) (water_depth (k_depth c)) body (map Fin (map (pulsation (k_unit c)) ws)) (map (fun x => (PI / 180 * x)%R) ds)).
  Proof.
    intros (first & sections & last & -> & (title & rho & g & depth & point & title2 & nb & -> & Hr & Hg & Hd & (x & y & a & b & Bp & X & Y) & Hn)
            & FS & (t3 & fr & dr & t4 & irf & pr & ko & more & rk & w & -> & Hf & Hdir & Hp & Hk)) NA FB WB SW NP SD.
    unfold read_cal. cbn [app readline]. rewrite (gives_word _ _ Hr). cbn [bind]. rewrite (gives_word _ _ Hg). cbn [bind].
    rewrite (gives_word _ _ Hd). cbn [bind]. rewrite (read_point_ok _ _ _ _ _ Bp X Y). cbn [bind]. rewrite (counts_word _ _ Hn). cbn [bind].
    rewrite times_nat. fold bodies_read. rewrite (read_bodies_ok _ _ _ _ bs _ FS NA FB). cbn [bind fst snd].
    assert (LB : length (k_bodies c) = length bs) by (clear - FB; induction FB; cbn; congruence).
    rewrite LB, (all_bodies_ok _ _ WB). cbn [bind readline].
    rewrite (frequencies_read _ _ _ _ ws Hf SW NP eq_refl). cbn [bind].
    unfold read_directions. rewrite (range_line_read _ _ Hdir). cbn [bind]. rewrite (begins_word _ _ 0 w Hp eq_refl). cbn [bind].
    rewrite (range_line_read _ _ Hk). cbn [bind]. rewrite <- (spaced_unique _ _ SD), map_map. f_equal. f_equal.
    unfold water_depth, Reqb. destruct (Req_EM_T (k_depth c) 0); reflexivity.
  Qed.

  Lemma import_ok d path c content bs body ws ds :
    d path = Some content -> cal_lines c (readlines content) -> Forall (fun s => no_null_axis (c_dofs s)) (k_bodies c) ->
    Forall2 (body_of_section d path) (k_bodies c) bs -> whole_body bs body ->
    spaced (k_frequencies c) ws -> no_null_period c ws -> spaced (k_directions c) ds ->
    import d path = mapM (build body (k_rho c) (k_g c) (water_depth (k_depth c)))
                         (requests (map (pulsation (k_unit c)) ws) (map (fun x => (PI / 180 * x)%R) ds) (map fst (fb_dofs body))).
  Proof.
    intros E CL NA FB WB SW NP SD. unfold import, import_cal_file. rewrite E.
    rewrite (read_cal_ok d path c _ bs body ws ds CL NA FB WB SW NP SD). cbn [bind]. apply problems_of_requests.
  Qed.
End Reading.
