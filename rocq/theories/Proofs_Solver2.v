(** Cached engine, witnesses, and the equations satisfied by a result. *)
From Coq Require Import Reals.
From Coquelicot Require Import Complex.
From Coq Require Import List String Bool ZArith Lia Lra Permutation.
From Verif Require Import Model_Base Model_Symbolic Model_Cache Model_Problem Model_Results Model_Solver
  Spec_Problem Spec_Solver Proofs_Cache Proofs_Problem Proofs_Problem2 Proofs_Problem3 Proofs_Solver.
Import ListNotations.
Open Scope R_scope.

(** ** A cached engine *)
Section Cached.
  Notation bkey := Model_Solver.bkey.
  Notation mats := (matrix * matrix)%type.
  Variable eqb : bkey -> bkey -> bool.
  Variable f : bkey -> mats + pyexn.
  Variable maxsize : nat.
  (** [BasicMatrixEngine.build_matrices] with its cache (engines.py, lines
      74-75), as an engine of the solver. *)
  Definition cached_build (c : cache bkey mats) (k : bkey) : cache bkey mats * result mats :=
    match call bkey mats pyexn eqb f maxsize c k with
    | (c', Val v, _) => (c', Ok v)
    | (c', Exn e, _) => (c', Err e)
    | (c', KeyErr, _) => (c', Err KeyError)
    | (c', NoFuel, _) => (c', Err RuntimeError)
    end.
  Definition direct_linsolve (L : matrix -> list C -> result (list C))
      (c : cache bkey mats) (m : matrix) (v : list C) := (c, L m v).
  Definition key_body (k : bkey) : body := fst (fst (fst (fst k))).

  Lemma cached_transparent L (used : body -> Prop) :
    (1 <= maxsize)%nat ->
    (forall k k', used (key_body k) -> used (key_body k') -> eqb k k' = true -> f k = f k') ->
    transparent _ cached_build (direct_linsolve L) [] used.
  Proof.
    intros Hm Hc.
    set (Inv := fun c : cache bkey mats =>
       (List.length c <= maxsize)%nat /\ forall k v, In (k, v) c -> used (key_body k) /\ f k = inl v).
    exists Inv. split; [|split].
    - split; [cbn; lia|]. intros k v [].
    - assert (E : forall c k, Inv c -> used (key_body k) ->
        snd (cached_build c k) = match f k with inl v => Ok v | inr e => Err e end
        /\ Inv (fst (cached_build c k))).
      { intros c k [Hl Hi] U. unfold cached_build, call.
        destruct (lookup bkey mats eqb k c) as [v|] eqn:Ek.
        - apply lookup_In in Ek. destruct Ek as [k' [Hin He]]. destruct (Hi k' v Hin) as [U' F'].
          cbn [fst snd]. rewrite (Hc k k' U U' He), F'. repeat split; auto; apply (Hi _ _ H).
        - rewrite (make_room_skipn _ _ maxsize c Hm Hl).
          assert (Hs : forall k v, In (k, v) (skipn (List.length c + 1 - maxsize) c) ->
                   used (key_body k) /\ f k = inl v).
          { intros k1 v1 H1. apply Hi. rewrite <- (firstn_skipn (List.length c + 1 - maxsize) c).
            apply in_or_app. auto. }
          assert (HL : (List.length (skipn (List.length c + 1 - maxsize) c) + 1 <= maxsize)%nat).
          { rewrite skipn_length. lia. }
          destruct (f k) as [v|e] eqn:Fk; cbn [fst snd]; split; auto.
          + split.
            * pose proof (store_length _ _ eqb k v (skipn (List.length c + 1 - maxsize) c)). lia.
            * apply lookup_None_existsb in Ek. intros k1 v1 H1.
              rewrite store_fresh in H1.
              -- apply in_app_or in H1. destruct H1 as [H1|[[= <- <-]|[]]]; auto.
              -- rewrite <- skipn_map. apply existsb_skipn, Ek.
          + split; [lia|auto]. }
      intros s b fs h k adj HI U. destruct (E s (b, fs, h, k, adj) HI U) as [E1 E2].
      assert (I0 : Inv []) by (split; [cbn; lia|intros ? ? []]).
      destruct (E [] (b, fs, h, k, adj) I0 U) as [E3 _]. split; [congruence|auto].
    - intros s m v H. split; [reflexivity|exact H].
  Qed.
End Cached.

(** ** What a result contains *)
Section Solve.
  Variable st : Type.
  Variable build : st -> Model_Solver.bkey -> st * result (matrix * matrix).
  Variable linsolve : st -> matrix -> list C -> st * result (list C).
  Variable gradient_x : body -> ext -> ext -> freq -> list C -> result (list C).
  Variable min_wavelength : body -> result ext.
  Variable irregular : body -> R -> result ext.
  Notation solve := (Model_Solver.solve st build linsolve gradient_x min_wavelength irregular).
  Notation solve_all := (Model_Solver.solve_all st build linsolve gradient_x min_wavelength irregular).

  Lemma package_inv keep p b so po pr r : package keep p b so po pr = Ok r ->
    pb_kind p <> Generic /\ r_problem r = p /\ r_exception r = None /\ r_forces r = forces_of b pr
    /\ (keep = true -> r_sources r = so /\ r_potential r = Some po /\ r_pressure r = Some pr).
  Proof.
    unfold package, make_results. destruct (pb_kind p); [discriminate| |];
    destruct keep; intros [= <-]; cbn; repeat split; auto; try congruence.
  Qed.

  Lemma andthen_inv {A B} x (g : st -> A -> st * result B) s' y :
    andthen st x g = (s', Ok y) -> exists s a, x = (s, Ok a) /\ g s a = (s', Ok y).
  Proof. destruct x as [s [a|e]]; cbn; [eauto|discriminate]. Qed.
  Lemma system_inv s m x bc s' v : solve_system st linsolve s m x bc = (s', Ok v) ->
    linsolve s m (sv_values x) = (s', Ok (sv_values v)) /\ sv_symbols v = sv_symbols x
    /\ List.length (sv_values v) = List.length (sv_values bc).
  Proof.
    intros H. apply andthen_inv in H. destruct H as [t [a [E H]]].
    destruct (Nat.eqb_spec (List.length a) (List.length (sv_values bc))); [|discriminate].
    injection H as <- <-. cbn. auto.
  Qed.

  Lemma solve_indirect keep check s p s' r :
    solve false keep check s p = (s', Ok r) ->
    exists b bc S K s1 x po pr,
      p_body (pb_data p) = Some b /\ p_bc (pb_data p) = Some bc
      /\ let f := if Reqb (p_speed (pb_data p)) 0 then p_freqs (pb_data p) else p_enc (pb_data p) in
         build s (b, p_fs (pb_data p), p_depth (pb_data p), f_wavenumber f, true) = (s1, Ok (S, K))
      /\ linsolve s1 K (sv_values (sv_of_bc bc)) = (s', Ok x)
      /\ List.length x = List.length (sv_values (sv_of_bc bc))
      /\ po = SV (sv_symbols (sv_of_bc bc)) (mat_vec S x)
      /\ (if Reqb (p_speed (pb_data p)) 0 then sv_pressure (f_omega f) (p_rho (pb_data p)) po = Some pr
          else exists pr0 gx, sv_pressure (f_omega f) (p_rho (pb_data p)) po = Some pr0
            /\ gradient_x b (p_fs (pb_data p)) (p_depth (pb_data p)) (f_wavenumber f) x = Ok gx
            /\ pr = add_speed_term (p_rho (pb_data p)) (p_speed (pb_data p)) pr0 gx)
      /\ pb_kind p <> Generic /\ r_problem r = p /\ r_exception r = None /\ r_forces r = forces_of b pr
      /\ (keep = true -> r_sources r = Some (SV (sv_symbols (sv_of_bc bc)) x) /\ r_potential r = Some po
                         /\ r_pressure r = Some pr).
  Proof.
    unfold Model_Solver.solve. intros H.
    destruct (if check then _ else _); [|discriminate]. cbn [andb] in H.
    destruct (p_body (pb_data p)) as [b|]; [|discriminate].
    apply andthen_inv in H. destruct H as [s1 [[S K] [Eb H]]].
    destruct (p_bc (pb_data p)) as [bc|]; [|discriminate]. cbn [fst snd] in H.
    apply andthen_inv in H. destruct H as [s2 [x [Es H]]].
    apply system_inv in Es. destruct Es as [El [Ey En]].
    destruct x as [sy x]. cbn [sv_values sv_symbols] in *. subst sy.
    exists b, bc, S, K, s1, x. exists (SV (sv_symbols (sv_of_bc bc)) (mat_vec S x)).
    destruct (sv_pressure _ _ _) as [pr|] eqn:Ep; [|discriminate].
    change (sv_matvec S _) with (SV (sv_symbols (sv_of_bc bc)) (mat_vec S x)) in *.
    destruct (Reqb (p_speed (pb_data p)) 0); cbn [negb] in *.
    - injection H as -> H. exists pr. apply package_inv in H. destruct H as [H1 [H2 [H3 [H4 H5]]]].
      repeat (apply conj; [auto|]). exact H5.
    - destruct (make_results _ _); [|discriminate].
      destruct (gradient_x _ _ _ _ _) as [gx|] eqn:Eg; [|discriminate].
      injection H as -> H. apply package_inv in H. destruct H as [H1 [H2 [H3 [H4 H5]]]].
      exists (add_speed_term (p_rho (pb_data p)) (p_speed (pb_data p)) pr gx).
      repeat (apply conj; [solve [auto]|]). apply conj; [exists pr, gx; auto|]. repeat (apply conj; [auto|]). exact H5.
  Qed.

  Lemma solve_direct keep check s p s' r :
    solve true keep check s p = (s', Ok r) ->
    exists b bc S D s1 x pr,
      p_speed (pb_data p) = 0
      /\ p_body (pb_data p) = Some b /\ p_bc (pb_data p) = Some bc
      /\ build s (b, p_fs (pb_data p), p_depth (pb_data p), f_wavenumber (p_freqs (pb_data p)), false) = (s1, Ok (S, D))
      /\ linsolve s1 D (mat_vec S (sv_values (sv_of_bc bc))) = (s', Ok x)
      /\ List.length x = List.length (sv_values (sv_of_bc bc))
      /\ sv_pressure (f_omega (p_freqs (pb_data p))) (p_rho (pb_data p)) (SV (sv_symbols (sv_of_bc bc)) x) = Some pr
      /\ pb_kind p <> Generic /\ r_problem r = p /\ r_exception r = None /\ r_forces r = forces_of b pr
      /\ (keep = true -> r_sources r = None /\ r_potential r = Some (SV (sv_symbols (sv_of_bc bc)) x)
                         /\ r_pressure r = Some pr).
  Proof.
    unfold Model_Solver.solve. intros H.
    destruct (if check then _ else _); [|discriminate].
    destruct (Reqb (p_speed (pb_data p)) 0) eqn:ES; cbn [negb andb] in H; [|discriminate].
    destruct (p_body (pb_data p)) as [b|]; [|discriminate].
    apply andthen_inv in H. destruct H as [s1 [[S K] [Eb H]]].
    destruct (p_bc (pb_data p)) as [bc|]; [|discriminate]. cbn [fst snd] in H.
    apply andthen_inv in H. destruct H as [s2 [x [Es H]]].
    apply system_inv in Es. destruct Es as [El [Ey En]].
    destruct x as [sy x]. cbn [sv_values sv_symbols sv_matvec] in *. subst sy.
    destruct (sv_pressure _ _ _) as [pr|] eqn:Ep; [|discriminate].
    injection H as -> H. apply package_inv in H. destruct H as [H1 [H2 [H3 [H4 H5]]]].
    apply Reqb_true in ES.
    exists b, bc, S, K, s1, x, pr. repeat (apply conj; [auto|]). exact H5.
  Qed.

  Lemma alone_problem direct keep s p : r_problem (result_or_failure p (snd (solve direct keep false s p))) = p.
  Proof.
    destruct (solve direct keep false s p) as [s' [r|e]] eqn:E; cbn [snd result_or_failure]; [|reflexivity].
    destruct direct.
    - apply solve_direct in E. destruct E as [b [bc [S [D [s1 [x [pr H]]]]]]]. apply H.
    - apply solve_indirect in E. destruct E as [b [bc [S [D [s1 [x [po [pr H]]]]]]]]. apply H.
  Qed.

  (** ** Base class *)
  Lemma generic_always_raises direct keep s p : pb_kind p = Generic ->
    exists s', solve_all direct keep false true (Some false) None 1 s [p] = (s', Err AttributeError).
  Proof.
    intros G. unfold Model_Solver.solve_all, solve_sequential, sorted_problems. cbn [progress Z.eqb Pos.eqb sort_from insert bind].
    cbn [Model_Solver.solve_list]. unfold solve_catch.
    destruct (solve direct keep false s p) as [s' [r|e]] eqn:E.
    - exfalso. destruct direct.
      + apply solve_direct in E. destruct E as [b [bc [S [D [s1 [x [pr H]]]]]]]. apply H in G; exact G.
      + apply solve_indirect in E. destruct E as [b [bc [S [D [s1 [x [po [pr H]]]]]]]]. apply H in G; exact G.
    - unfold make_failed. rewrite G. cbn [andthen]. eauto.
  Qed.
  Lemma empty_parallel direct keep check s n :
    n <> 1%Z -> solve_all direct keep check true (Some false) None n s [] = (s, Err KeyError)
    /\ solve_all direct keep check true (Some false) None 1 s [] = (s, Ok []).
  Proof.
    intros N. unfold Model_Solver.solve_all. split; destruct check; cbn [check_wavelength check_each bind progress];
      try (destruct (Z.eqb_spec n 1); [congruence|]); reflexivity.
  Qed.
  Lemma bodyless_spoils direct keep s p q b :
    p_body (pb_data p) = None -> p_body (pb_data q) = Some b ->
    solve_all direct keep false true (Some false) None 1 s [p; q] = (s, Err AttributeError)
    /\ solve_all direct keep false true (Some false) None 1 s [q; p] = (s, Err TypeError).
  Proof.
    intros P Q. unfold Model_Solver.solve_all, solve_sequential, sorted_problems.
    cbn [progress Z.eqb Pos.eqb sort_from insert bind].
    unfold problem_ltb. rewrite P, Q. split; reflexivity.
  Qed.
End Solve.

(** ** Concrete problems *)
Definition surge_bc (om : R) : bcond := BC [Cmult (Cmult (Copp Ci) (RtoC om)) (cdot (row3 (row 1 0 0)) (V 1 0 0))].
Lemma deep_radiation newton immersed id name om : 0 < om ->
  exists p, radiation_problem newton immersed (deep_args (one_panel id name (-1) None) om 0) None = Ok (p, Some "Surge"%string)
    /\ p_body p = Some (one_panel id name (-1) None) /\ p_bc p = Some (surge_bc om)
    /\ p_depth p = PInf /\ f_omega (p_freqs p) = FVal (Fin om) /\ p_speed p = 0 /\ p_fs p = Fin 0
    /\ p_rho p = 1000.
Proof.
  intros H. unfold radiation_problem. rewrite deep_generic by lra. cbn [bind p_body].
  cbn [one_panel b_dofs assoc String.eqb Ascii.eqb Bool.eqb].
  unfold dof_dot_n. cbn [one_panel b_normals List.length dof_shape_ok row forallb Nat.eqb andb bind map2].
  cbn [p_enc f_omega motion_bc bind p_speed]. rewrite Reqb_refl. cbn [bind append_lid b_lid].
  eexists. split; [reflexivity|]. repeat split.
Qed.
Lemma names_ordered p q n m : string_ltb (b_name n) (b_name m) = true -> b_id n <> b_id m ->
  p_body p = Some n -> p_body q = Some m -> problem_ltb p q = Ok true.
Proof.
  intros H I P Q. unfold problem_ltb. rewrite P, Q.
  destruct (Nat.eqb_spec (b_id n) (b_id m)); [congruence|]. rewrite H. reflexivity.
Qed.
