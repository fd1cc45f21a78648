From Coq Require Import List Arith Bool Lia.
From Verif Require Import Model_Cache Spec_Cache.
Import ListNotations.

Section CacheProofs.
  Variables (key val exn : Type).
  Variable eqb : key -> key -> bool.
  Notation cache := (list (key * val)).
  Notation lookup := (lookup key val eqb).
  Notation store := (store key val eqb).
  Notation make_room := (make_room key val).

  Lemma lookup_existsb k (c : cache) :
    (exists v, lookup k c = Some v) <-> existsb (eqb k) (map fst c) = true.
  Proof.
    induction c as [|[k' v'] c IH]; cbn.
    - split; [intros [v H]; discriminate | discriminate].
    - destruct (eqb k k') eqn:E; cbn.
      + split; eauto.
      + exact IH.
  Qed.

  Lemma lookup_None_existsb k (c : cache) :
    lookup k c = None -> existsb (eqb k) (map fst c) = false.
  Proof.
    intros H. destruct (existsb (eqb k) (map fst c)) eqn:E; [|reflexivity].
    apply lookup_existsb in E. destruct E as [v Hv]. congruence.
  Qed.

  Lemma lookup_In k (c : cache) v :
    lookup k c = Some v -> exists k', In (k', v) c /\ eqb k k' = true.
  Proof.
    induction c as [|[k' v'] c IH]; cbn; [discriminate|].
    destruct (eqb k k') eqn:E.
    - intros [= ->]. exists k'. auto.
    - intros H. destruct (IH H) as (k2 & Hin & He). exists k2. auto.
  Qed.

  Lemma store_length k v (c : cache) : length (store k v c) <= length c + 1.
  Proof.
    induction c as [|[k' v'] c IH]; cbn; [lia|].
    destruct (eqb k k'); cbn; lia.
  Qed.

  Lemma store_fresh k v (c : cache) :
    existsb (eqb k) (map fst c) = false -> store k v c = c ++ [(k, v)].
  Proof.
    induction c as [|[k' v'] c IH]; cbn; [reflexivity|].
    intros H. apply orb_false_elim in H. destruct H as [H1 H2].
    rewrite H1, IH; auto.
  Qed.

  Lemma store_In k v (c : cache) k2 v2 :
    In (k2, v2) (store k v c) -> In (k2, v2) c \/ (v2 = v /\ (k2 = k \/ eqb k k2 = true)).
  Proof.
    induction c as [|[k' v'] c IH]; cbn.
    - intros [[= <- <-]|[]]. auto.
    - destruct (eqb k k') eqn:E; cbn.
      + intros [[= <- <-]|H]; auto.
      + intros [[= <- <-]|H]; auto. destruct (IH H) as [H1|H1]; auto.
  Qed.

  Lemma existsb_skipn {A} (p : A -> bool) n l :
    existsb p l = false -> existsb p (skipn n l) = false.
  Proof.
    revert l. induction n as [|n IH]; intros l H; [exact H|].
    destruct l as [|a l]; [reflexivity|]. cbn in *.
    apply orb_false_elim in H. apply IH, H.
  Qed.

  Lemma make_room_skipn n (c : cache) :
    1 <= n -> length c <= n -> make_room n c = Some (skipn (length c + 1 - n) c).
  Proof.
    intros Hn Hc. unfold Model_Cache.make_room.
    destruct (Nat.ltb_spec n (length c + 1)).
    - replace (length c + 1 - n) with 1 by lia.
      destruct c as [|x c]; cbn in *; [lia|]. reflexivity.
    - replace (length c + 1 - n) with 0 by lia. reflexivity.
  Qed.

  Lemma make_room_Some n (c : cache) : 1 <= n -> exists c', make_room n c = Some c'
      /\ (forall x, In x c' -> In x c) /\ length c' <= length c
      /\ length c' + 1 <= Nat.max (length c) n.
  Proof.
    intros Hn. unfold Model_Cache.make_room.
    destruct (Nat.ltb_spec n (length c + 1)).
    - destruct c as [|x c]; cbn [length] in *; [lia|]. exists c. repeat split; auto; try lia.
      intros y Hy. right. exact Hy.
    - exists c. repeat split; auto; lia.
  Qed.

  (** ** Plain functions *)
  Section Plain.
    Variable f : key -> val + exn.
    Variable maxsize : nat.
    Notation call := (call key val exn eqb f maxsize).
    Notation calls := (calls key val exn eqb f maxsize).

    Definition fresh (k : key) : outcome val exn :=
      match f k with inl v => Val v | inr e => Exn e end.

    Definition succeeds (k : key) : bool :=
      match f k with inl _ => true | inr _ => false end.

    Lemma call_fifo c k : 1 <= maxsize -> length c <= maxsize ->
      map fst (fst (fst (call c k))) = fifo_step key eqb maxsize succeeds (map fst c) k
      /\ snd (call c k) = negb (existsb (eqb k) (map fst c))
      /\ length (fst (fst (call c k))) <= maxsize.
    Proof.
      intros Hn Hc. unfold Model_Cache.call, fifo_step.
      destruct (lookup k c) as [v|] eqn:E.
      - assert (Ex : existsb (eqb k) (map fst c) = true) by (apply lookup_existsb; eauto).
        rewrite Ex. cbn. auto.
      - apply lookup_None_existsb in E. rewrite E.
        rewrite make_room_skipn by assumption.
        unfold succeeds. rewrite map_length.
        set (c' := skipn (length c + 1 - maxsize) c).
        assert (Hc' : existsb (eqb k) (map fst c') = false).
        { unfold c'. rewrite <- skipn_map. apply existsb_skipn, E. }
        assert (Hl : length c' + 1 <= maxsize).
        { unfold c'. rewrite skipn_length. lia. }
        destruct (f k) as [v|e]; cbn.
        + rewrite store_fresh by assumption.
          rewrite map_app, app_length. cbn. unfold c'. rewrite skipn_map. repeat split; auto.
        + unfold c'. rewrite skipn_map. repeat split; auto. unfold c' in Hl. lia.
    Qed.

    Lemma calls_fifo_gen ks : 1 <= maxsize -> forall c, length c <= maxsize ->
      map fst (fst (calls c ks)) = fold_left (fifo_step key eqb maxsize succeeds) ks (map fst c)
      /\ length (fst (calls c ks)) <= maxsize.
    Proof.
      intros Hn. induction ks as [|k ks IH]; intros c Hc; cbn; [auto|].
      destruct (call_fifo c k Hn Hc) as (H1 & H2 & H3).
      destruct (call c k) as [[c1 o] b]. cbn in *.
      specialize (IH c1 H3). destruct (calls c1 ks) as [c2 os]. cbn in *.
      rewrite <- H1. exact IH.
    Qed.

    Lemma calls_app c ks1 ks2 :
      calls c (ks1 ++ ks2) =
      (fst (calls (fst (calls c ks1)) ks2), snd (calls c ks1) ++ snd (calls (fst (calls c ks1)) ks2)).
    Proof.
      revert c. induction ks1 as [|k ks1 IH]; intros c; cbn.
      - destruct (calls c ks2); reflexivity.
      - destruct (call c k) as [[c1 o] b]. rewrite IH.
        destruct (calls c1 ks1) as [c2 os]. cbn. reflexivity.
    Qed.

    Lemma calls_fifo ks : 1 <= maxsize ->
      map fst (fst (calls [] ks)) = fifo key eqb maxsize succeeds ks
      /\ length (fst (calls [] ks)) <= maxsize.
    Proof. intros Hn. apply (calls_fifo_gen ks Hn []). cbn. lia. Qed.

    (** The wrapped function runs exactly when the key is not in the queue. *)
    Lemma calls_runs ks k : 1 <= maxsize ->
      exists o, snd (calls [] (ks ++ [k])) = snd (calls [] ks) ++ [(o,
        negb (existsb (eqb k) (fifo key eqb maxsize succeeds ks)))].
    Proof.
      intros Hn. rewrite calls_app. cbn [snd].
      destruct (calls_fifo ks Hn) as [H1 H2].
      destruct (call_fifo _ k Hn H2) as (_ & H4 & _).
      cbn [Model_Cache.calls].
      destruct (call (fst (calls [] ks)) k) as [[c1 o] b]. cbn in *.
      exists o. rewrite H4, H1. reflexivity.
    Qed.

    (** Keys that are equal for the dictionary, among the keys of interest,
        must be interchangeable for [f]. *)
    Variable P : key -> Prop.
    Hypothesis compat : forall k k', P k -> P k' -> eqb k k' = true -> f k = f k'.

    Definition valid (c : cache) : Prop := forall k v, In (k, v) c -> P k /\ f k = inl v.

    Lemma call_transparent c k : 1 <= maxsize -> valid c -> P k ->
      snd (fst (call c k)) = fresh k /\ valid (fst (fst (call c k))).
    Proof.
      intros Hn Hv Hk. unfold Model_Cache.call.
      destruct (lookup k c) as [v|] eqn:E.
      - cbn. split; [|assumption].
        apply lookup_In in E. destruct E as (k' & Hin & He).
        destruct (Hv _ _ Hin) as [Hp Hf].
        unfold fresh. rewrite (compat _ _ Hk Hp He), Hf. reflexivity.
      - pose proof (lookup_None_existsb _ _ E) as Hex.
        destruct (make_room_Some maxsize c Hn) as (c' & -> & Hin & _).
        assert (Hv' : valid c') by (intros k1 v1 H1; apply Hv, Hin, H1).
        assert (Hex' : existsb (eqb k) (map fst c') = false).
        { destruct (existsb (eqb k) (map fst c')) eqn:Ec; [|reflexivity].
          apply existsb_exists in Ec. destruct Ec as (x & Hx & Ex).
          apply in_map_iff in Hx. destruct Hx as ([x' v'] & <- & Hx).
          rewrite <- Hex. symmetry. apply existsb_exists. exists x'. split; [|exact Ex].
          apply in_map_iff. exists (x', v'). split; [reflexivity|apply Hin, Hx]. }
        unfold fresh. destruct (f k) as [v|e] eqn:Ef; cbn; split; auto.
        rewrite store_fresh by assumption.
        intros k1 v1 H1. apply in_app_or in H1. destruct H1 as [H1|[[= <- <-]|[]]]; auto.
    Qed.

    Lemma calls_transparent_gen ks : 1 <= maxsize -> Forall P ks -> forall c, valid c ->
      map fst (snd (calls c ks)) = map fresh ks.
    Proof.
      intros Hn Hks. induction Hks as [|k ks Hk Hks IH]; intros c Hv; cbn; [reflexivity|].
      destruct (call_transparent c k Hn Hv Hk) as [H1 H2].
      destruct (call c k) as [[c1 o] b]. cbn in *.
      specialize (IH c1 H2). destruct (calls c1 ks) as [c2 os]. cbn in *.
      rewrite H1, IH. reflexivity.
    Qed.

    Lemma calls_transparent ks : 1 <= maxsize -> Forall P ks ->
      map fst (snd (calls [] ks)) = map fresh ks.
    Proof. intros Hn Hks. apply calls_transparent_gen; [assumption|assumption|]. intros k v []. Qed.
  End Plain.

  Lemma call_size0 (f : key -> val + exn) k :
    call key val exn eqb f 0 [] k = ([], KeyErr, false).
  Proof. reflexivity. Qed.

  (** ** Reentrant functions *)
  Section Reentrant.
    Variable body : key -> prog key val exn.
    Variable maxsize : nat.
    Notation urun := (urun key val exn).
    Notation ucall := (ucall key val exn body).
    Notation crun := (crun key val exn).
    Notation ccall := (ccall key val exn eqb body maxsize).
    Notation ccalls := (ccalls key val exn eqb body maxsize).

    Lemma urun_mono (c1 c2 : key -> outcome val exn) p o :
      (forall k o', c1 k = o' -> o' <> NoFuel -> c2 k = o') ->
      urun c1 p = o -> o <> NoFuel -> urun c2 p = o.
    Proof.
      intros Hc. revert o. induction p as [v|e|k cont IH]; cbn; intros o H Ho; auto.
      destruct (c1 k) as [v|e| |] eqn:E.
      - rewrite (Hc k (Val v) E) by discriminate. apply IH; auto.
      - rewrite (Hc k (Exn e) E) by discriminate. exact H.
      - rewrite (Hc k KeyErr E) by discriminate. exact H.
      - congruence.
    Qed.

    Lemma ucall_S n : forall k o, ucall n k = o -> o <> NoFuel -> ucall (S n) k = o.
    Proof.
      induction n as [|n IH]; intros k o H Ho; [cbn in H; congruence|].
      cbn [Model_Cache.ucall] in *. eapply urun_mono; [|exact H|exact Ho].
      intros k' o' H' Ho'. apply IH; assumption.
    Qed.

    Lemma ucall_le n m k o : n <= m -> ucall n k = o -> o <> NoFuel -> ucall m k = o.
    Proof.
      intros Hle. revert k o. induction Hle as [|m Hle IH]; intros k o H Ho; auto.
      apply ucall_S; auto.
    Qed.

    Lemma ucall_det n m k o1 o2 :
      ucall n k = o1 -> o1 <> NoFuel -> ucall m k = o2 -> o2 <> NoFuel -> o1 = o2.
    Proof.
      intros H1 N1 H2 N2.
      destruct (Nat.le_ge_cases n m) as [L|L].
      - pose proof (ucall_le _ _ _ _ L H1 N1). congruence.
      - pose proof (ucall_le _ _ _ _ L H2 N2). congruence.
    Qed.

    Hypothesis compat : forall k k', eqb k k' = true -> body k = body k'.
    Hypothesis size : 1 <= maxsize.

    Definition rvalid (c : cache) : Prop :=
      forall k v, In (k, v) c -> exists n, ucall n k = Val v.

    Lemma ucall_compat n k k' : eqb k k' = true -> ucall n k = ucall n k'.
    Proof. intros H. destruct n; [reflexivity|]. cbn. now rewrite (compat _ _ H). Qed.

    Lemma rvalid_store k v (c : cache) n :
      rvalid c -> ucall n k = Val v -> rvalid (store k v c).
    Proof.
      intros Hv Hu k2 v2 H. apply store_In in H. destruct H as [H|[-> [->|H]]]; eauto.
      exists n. rewrite <- (ucall_compat _ _ _ H). exact Hu.
    Qed.

    (** Soundness (whatever the fuel). *)
    Lemma ccall_sound n : forall c k c' o m, rvalid c -> ccall n c k = (c', o, m) ->
      rvalid c' /\ o <> KeyErr /\ (o <> NoFuel -> exists n', ucall n' k = o).
    Proof.
      induction n as [|n IH]; intros c k c' o m Hv H; cbn [Model_Cache.ccall] in H.
      { injection H as <- <- <-. repeat split; auto; try discriminate. congruence. }
      destruct (lookup k c) as [v|] eqn:E.
      { injection H as <- <- <-. repeat split; auto; try discriminate. intros _.
        apply lookup_In in E. destruct E as (k' & Hin & He).
        destruct (Hv _ _ Hin) as [n' Hn']. exists n'.
        rewrite (ucall_compat _ _ _ He). exact Hn'. }
      destruct (make_room_Some maxsize c size) as (c1 & Hr & Hin & _).
      rewrite Hr in H.
      assert (Hv1 : rvalid c1) by (intros k1 v1 H1; apply Hv, Hin, H1).
      assert (Hrun : forall p c0 c2 o2 m2, rvalid c0 -> crun (ccall n) c0 p = (c2, o2, m2) ->
                rvalid c2 /\ o2 <> KeyErr /\ (o2 <> NoFuel -> exists n', urun (ucall n') p = o2)).
      { induction p as [v|e|k0 cont IHp]; cbn; intros c0 c2 o2 m2 Hv0 H0.
        - injection H0 as <- <- <-. split; [assumption|split; [discriminate|intros _; exists 0; reflexivity]].
        - injection H0 as <- <- <-. split; [assumption|split; [discriminate|intros _; exists 0; reflexivity]].
        - destruct (ccall n c0 k0) as [[c3 o3] m3] eqn:E3.
          destruct (IH _ _ _ _ _ Hv0 E3) as (Hv3 & Hk3 & Hs3).
          destruct o3 as [v3|e3| |].
          + destruct (crun (ccall n) c3 (cont v3)) as [[c4 o4] m4] eqn:E4.
            injection H0 as <- <- <-.
            destruct (IHp v3 _ _ _ _ Hv3 E4) as (Hv4 & Hk4 & Hs4).
            repeat split; auto. intros Hn4.
            destruct (Hs4 Hn4) as [n4 Hn4'].
            destruct (Hs3 ltac:(discriminate)) as [n3 Hn3].
            exists (Nat.max n3 n4).
            rewrite (ucall_le n3 (Nat.max n3 n4) k0 (Val v3)); [|lia|exact Hn3|discriminate].
            eapply urun_mono; [|exact Hn4'|exact Hn4].
            intros k' o' H' Ho'. apply (ucall_le n4); auto; lia.
          + injection H0 as <- <- <-. repeat split; auto. intros Hn.
            destruct (Hs3 Hn) as [n3 Hn3]. exists n3. rewrite Hn3. reflexivity.
          + congruence.
          + injection H0 as <- <- <-. repeat split; auto. congruence. }
      destruct (crun (ccall n) c1 (body k)) as [[c2 o2] m2] eqn:E2.
      destruct (Hrun _ _ _ _ _ Hv1 E2) as (Hv2 & Hk2 & Hs2).
      destruct o2 as [v2|e2| |].
      - injection H as <- <- <-.
        destruct (Hs2 ltac:(discriminate)) as [n2 Hn2].
        split; [|split; [discriminate|intros _; exists (S n2); exact Hn2]].
        apply (rvalid_store _ _ _ (S n2)); auto.
      - injection H as <- <- <-. repeat split; auto. intros Hn.
        destruct (Hs2 Hn) as [n2 Hn2]. exists (S n2). exact Hn2.
      - congruence.
      - injection H as <- <- <-. repeat split; auto. congruence.
    Qed.

    (** Completeness: enough fuel without the cache is enough with it. *)
    Lemma ccall_complete n : forall c k, rvalid c -> ucall n k <> NoFuel ->
      snd (fst (ccall n c k)) <> NoFuel.
    Proof.
      induction n as [|n IH]; intros c k Hv Hu; cbn [Model_Cache.ccall Model_Cache.ucall] in *; [congruence|].
      destruct (lookup k c) as [v|] eqn:E; [cbn; discriminate|].
      destruct (make_room_Some maxsize c size) as (c1 & Hr & Hin & _).
      rewrite Hr.
      assert (Hv1 : rvalid c1) by (intros k1 v1 H1; apply Hv, Hin, H1).
      assert (Hrun : forall p c0, rvalid c0 -> urun (ucall n) p <> NoFuel ->
                snd (fst (crun (ccall n) c0 p)) <> NoFuel).
      { induction p as [v|e|k0 cont IHp]; cbn; intros c0 Hv0 Hu0; try discriminate.
        destruct (ucall n k0) as [v0|e0| |] eqn:Eu.
        - assert (Hc0 : snd (fst (ccall n c0 k0)) <> NoFuel) by (apply IH; auto; congruence).
          destruct (ccall n c0 k0) as [[c3 o3] m3] eqn:E3.
          destruct (ccall_sound _ _ _ _ _ _ Hv0 E3) as (Hv3 & Hk3 & Hs3). cbn in Hc0.
          destruct (Hs3 Hc0) as [n3 Hn3].
          assert (o3 = Val v0) as ->.
          { eapply ucall_det; eauto; discriminate. }
          specialize (IHp v0 c3 Hv3 Hu0).
          destruct (crun (ccall n) c3 (cont v0)) as [[c4 o4] m4]. exact IHp.
        - assert (Hc0 : snd (fst (ccall n c0 k0)) <> NoFuel) by (apply IH; auto; congruence).
          destruct (ccall n c0 k0) as [[c3 o3] m3] eqn:E3.
          destruct (ccall_sound _ _ _ _ _ _ Hv0 E3) as (Hv3 & Hk3 & Hs3). cbn in Hc0.
          destruct (Hs3 Hc0) as [n3 Hn3].
          assert (o3 = Exn e0) as ->.
          { eapply ucall_det; eauto; discriminate. }
          cbn. discriminate.
        - assert (Hc0 : snd (fst (ccall n c0 k0)) <> NoFuel) by (apply IH; auto; congruence).
          destruct (ccall n c0 k0) as [[c3 o3] m3] eqn:E3.
          destruct (ccall_sound _ _ _ _ _ _ Hv0 E3) as (Hv3 & Hk3 & Hs3). cbn in Hc0.
          destruct (Hs3 Hc0) as [n3 Hn3].
          exfalso. apply Hk3. eapply ucall_det; eauto; discriminate.
        - congruence. }
      specialize (Hrun _ _ Hv1 Hu).
      destruct (crun (ccall n) c1 (body k)) as [[c2 o2] m2]. cbn in *.
      destruct o2; cbn; auto; discriminate.
    Qed.

    Lemma ccall_transparent n c k : rvalid c -> ucall n k <> NoFuel ->
      snd (fst (ccall n c k)) = ucall n k /\ rvalid (fst (fst (ccall n c k))).
    Proof.
      intros Hv Hu. pose proof (ccall_complete n c k Hv Hu) as Hc.
      destruct (ccall n c k) as [[c' o] m] eqn:E. cbn in *.
      destruct (ccall_sound _ _ _ _ _ _ Hv E) as (Hv' & _ & Hs).
      destruct (Hs Hc) as [n' Hn']. split; [|assumption].
      eapply ucall_det; eauto.
    Qed.

    Lemma ccalls_transparent_gen n ks : Forall (fun k => ucall n k <> NoFuel) ks ->
      forall c, rvalid c -> map fst (snd (ccalls n c ks)) = map (ucall n) ks.
    Proof.
      induction 1 as [|k ks Hk Hks IH]; intros c Hv; cbn; [reflexivity|].
      destruct (ccall_transparent n c k Hv Hk) as [H1 H2].
      destruct (ccall n c k) as [[c1 o] m]. cbn in *.
      specialize (IH c1 H2). destruct (ccalls n c1 ks) as [c2 os]. cbn in *.
      rewrite H1, IH. reflexivity.
    Qed.

    Lemma ccalls_transparent n ks : Forall (fun k => ucall n k <> NoFuel) ks ->
      map fst (snd (ccalls n [] ks)) = map (ucall n) ks.
    Proof. intros H. apply ccalls_transparent_gen; auto. intros k v []. Qed.
  End Reentrant.

  Section Bound.
    Variable body : key -> prog key val exn.
    Variable maxsize : nat.
    Notation crun := (crun key val exn).
    Notation ccall := (ccall key val exn eqb body maxsize).
    Notation ccalls := (ccalls key val exn eqb body maxsize).
    Hypothesis size : 1 <= maxsize.

    Lemma ccall_bound n : forall c k c' o m b, length c <= b ->
      ccall n c k = (c', o, m) ->
      length c' <= Nat.max b (maxsize + n - 1) /\ m <= Nat.max b (maxsize + n - 1).
    Proof.
      induction n as [|n IH]; intros c k c' o m b Hb H; cbn [Model_Cache.ccall] in H.
      { injection H as <- <- <-. lia. }
      destruct (lookup k c) as [v|] eqn:E.
      { injection H as <- <- <-. lia. }
      destruct (make_room_Some maxsize c size) as (c1 & Hr & _ & Hl & Hl1).
      rewrite Hr in H.
      assert (Hrun : forall p c0 c2 o2 m2 b0, length c0 <= b0 -> crun (ccall n) c0 p = (c2, o2, m2) ->
                length c2 <= Nat.max b0 (maxsize + n - 1) /\ m2 <= Nat.max b0 (maxsize + n - 1)).
      { induction p as [v|e|k0 cont IHp]; cbn; intros c0 c2 o2 m2 b0 Hb0 H0.
        - injection H0 as <- <- <-. lia.
        - injection H0 as <- <- <-. lia.
        - destruct (ccall n c0 k0) as [[c3 o3] m3] eqn:E3.
          destruct (IH _ _ _ _ _ _ Hb0 E3) as [H3 M3].
          destruct o3 as [v3|e3| |]; try (injection H0 as <- <- <-; lia).
          destruct (crun (ccall n) c3 (cont v3)) as [[c4 o4] m4] eqn:E4.
          injection H0 as <- <- <-.
          destruct (IHp v3 _ _ _ _ (Nat.max b0 (maxsize + n - 1)) H3 E4) as [H4 M4]. lia. }
      destruct (crun (ccall n) c1 (body k)) as [[c2 o2] m2] eqn:E2.
      destruct (Hrun _ _ _ _ _ (length c1) (Nat.le_refl _) E2) as [H2 M2].
      destruct o2 as [v2|e2| |]; try (injection H as <- <- <-; lia).
      injection H as <- <- <-.
      pose proof (store_length k v2 c2). lia.
    Qed.

    Lemma ccalls_bound n ks : 1 <= n -> forall c, length c <= maxsize + n - 1 ->
      Forall (fun om => snd om <= maxsize + n - 1) (snd (ccalls n c ks)).
    Proof.
      intros Hn. induction ks as [|k ks IH]; intros c Hc; cbn; [constructor|].
      destruct (ccall n c k) as [[c1 o] m] eqn:E.
      destruct (ccall_bound _ _ _ _ _ _ _ Hc E) as [H1 H2].
      specialize (IH c1 ltac:(lia)).
      destruct (ccalls n c1 ks) as [c2 os]. cbn in *. constructor; cbn; [lia|exact IH].
    Qed.
  End Bound.
End CacheProofs.

Section EngineProofs.
  Variable coord : Type.
  Variable coord_eqb : coord -> coord -> bool.
  Variable params : Type.
  Variable params_eqb : params -> params -> bool.
  Variable entry : Type.
  Variable g : params -> gface coord -> gface coord -> bool -> entry.

  Section SetEq.
    Context {T : Type} (e : T -> T -> bool) (E : T -> T -> Prop).
    Hypothesis He : forall x y, e x y = true <-> E x y.
    Lemma mem_iff x l : mem e x l = true <-> exists y, In y l /\ E x y.
    Proof.
      unfold mem. rewrite existsb_exists. split; intros (y & H & H'); exists y; (split; [exact H|]); now apply He.
    Qed.
    Lemma set_eqb_iff l m : set_eqb e l m = true <->
      (forall x, In x l -> exists y, In y m /\ E x y) /\ (forall x, In x m -> exists y, In y l /\ E x y).
    Proof.
      unfold set_eqb. rewrite andb_true_iff, !forallb_forall. split; intros [H1 H2]; split; intros x Hx.
      - now apply mem_iff, H1.
      - now apply mem_iff, H2.
      - now apply mem_iff, H1.
      - now apply mem_iff, H2.
    Qed.
  End SetEq.

  Hypothesis coord_eqb_spec : forall x y, coord_eqb x y = true <-> x = y.
  Lemma vertex_eqb_iff x y : vertex_eqb coord coord_eqb x y = true <-> x = y.
  Proof.
    destruct x as [[a b] c], y as [[a' b'] c']. cbn. rewrite !andb_true_iff, !coord_eqb_spec.
    split; [intros [[-> ->] ->]; reflexivity|intros [= -> -> ->]; tauto].
  Qed.
  Lemma face_eqb_iff x y : face_eqb coord coord_eqb x y = true <-> same_corners x y.
  Proof.
    unfold face_eqb. rewrite (set_eqb_iff _ _ vertex_eqb_iff). unfold same_corners. split.
    - intros [H1 H2] v. split; intros H; [destruct (H1 v H) as (w & ? & ->)|destruct (H2 v H) as (w & ? & ->)]; assumption.
    - intros H. split; intros v Hv; exists v; (split; [now apply H|reflexivity]).
  Qed.
  Lemma mesh_eqb_iff x y : mesh_eqb coord coord_eqb x y = true <-> same_surface (m_faces _ x) (m_faces _ y).
  Proof.
    unfold mesh_eqb. rewrite (set_eqb_iff _ _ face_eqb_iff). unfold same_surface, same_corners.
    split; intros [H1 H2]; split; auto; intros f Hf; destruct (H2 f Hf) as (h & Hh & Hs); exists h;
      (split; [exact Hh|intros v; symmetry; apply Hs]).
  Qed.

  Lemma engine_transparent maxsize (ks : list (bkey coord params)) :
    1 <= maxsize ->
    (forall p q, params_eqb p q = true -> p = q) ->
    (forall a1 b1 p1 a2 b2 p2, In (a1, b1, p1) ks -> In (a2, b2, p2) ks ->
       same_surface (m_faces _ a1) (m_faces _ a2) -> same_surface (m_faces _ b1) (m_faces _ b2) ->
       m_faces _ a1 = m_faces _ a2 /\ m_faces _ b1 = m_faces _ b2
       /\ (m_id _ a1 = m_id _ b1 <-> m_id _ a2 = m_id _ b2)) ->
    engine_cached coord coord_eqb params params_eqb entry g maxsize ks
    = engine_uncached coord params entry g ks.
  Proof.
    intros Hn Hp Hk. unfold engine_cached, engine_uncached.
    rewrite (calls_transparent _ _ _ _ _ _ (fun k => In k ks)).
    - reflexivity.
    - intros [[a1 b1] p1] [[a2 b2] p2] H1 H2 He. cbn in He.
      apply andb_prop in He. destruct He as [He Hpe].
      apply andb_prop in He. destruct He as [Ha Hb]. apply mesh_eqb_iff in Ha, Hb.
      destruct (Hk _ _ _ _ _ _ H1 H2 Ha Hb) as (E1 & E2 & E3).
      cbn. rewrite E1, E2, (Hp _ _ Hpe). do 2 f_equal.
      destruct (Nat.eqb_spec (m_id _ a1) (m_id _ b1)), (Nat.eqb_spec (m_id _ a2) (m_id _ b2)); tauto.
    - exact Hn.
    - apply Forall_forall. auto.
  Qed.
End EngineProofs.
