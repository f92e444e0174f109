(** Invariants of keys. *)
From Verif Require Import Base KeyModel KeySpec.

Lemma made_app k l1 l2 : made k (l1 ++ l2) = made k l1 + made k l2.
Proof. induction l1 as [|e l1 IH]; [reflexivity|]. destruct e; cbn [app made]; rewrite IH; lia. Qed.

Lemma gone_app k l1 l2 : gone k (l1 ++ l2) = gone k l1 + gone k l2.
Proof. induction l1 as [|e l1 IH]; [reflexivity|]. destruct e; cbn [app gone]; rewrite IH; lia. Qed.

Lemma unused_app s l1 : forall acc l2, found_unused s acc (l1 ++ l2) = found_unused s (found_unused s acc l1) l2.
Proof. induction l1 as [|e l1 IH]; intros acc l2; [reflexivity|]. destruct e; cbn [app found_unused]; apply IH. Qed.

Definition tracked_by (t : entity) (ls : list (entity * life)) : list (entity * life) :=
  filter (fun p => Nat.eqb (lf_trk (snd p)) t) ls.

Lemma get_life_in k w l : get_life k w = Some l -> In (k, l) (kw_lives w).
Proof.
  unfold get_life. destruct (find _ _) as [[k' l']|] eqn:E; [|discriminate]. intros [= <-].
  apply find_some in E as [E1 E2]. apply Nat.eqb_eq in E2. cbn in E2. subst k'. exact E1.
Qed.

Lemma in_unique k l l' (ls : list (entity * life)) :
  NoDup (map fst ls) -> In (k, l) ls -> In (k, l') ls -> l = l'.
Proof.
  induction ls as [|[a b] ls IH]; intros Hn H H'; [contradiction|]. cbn in Hn.
  inversion Hn as [|? ? N1 N2]. subst. destruct H as [H|H], H' as [H'|H'].
  - congruence.
  - injection H as -> ->. exfalso. apply N1. apply in_map_iff. exists (k, l'). auto.
  - injection H' as -> ->. exfalso. apply N1. apply in_map_iff. exists (k, l). auto.
  - apply IH; assumption.
Qed.

Lemma put_refs_fst k n ls : map fst (put_refs k n ls) = map fst ls.
Proof.
  unfold put_refs. rewrite map_map. apply map_ext. intros p. destruct (Nat.eqb (fst p) k); reflexivity.
Qed.

Lemma put_refs_in k n ls k' l' : In (k', l') (put_refs k n ls) ->
  exists l, In (k', l) ls /\ l' = (if Nat.eqb k' k then set_refs n l else l).
Proof.
  unfold put_refs. intros H. apply in_map_iff in H as [[a b] [E H]]. cbn [fst snd] in E.
  destruct (Nat.eqb a k) eqn:Ek; injection E as <- <-; exists b; rewrite Ek; auto.
Qed.

Lemma in_put_refs k n ls k' l : In (k', l) ls ->
  In (k', if Nat.eqb k' k then set_refs n l else l) (put_refs k n ls).
Proof.
  intros H. unfold put_refs. apply in_map_iff. exists (k', l). split; [|exact H]. cbn [fst snd].
  destruct (Nat.eqb k' k); reflexivity.
Qed.

Lemma put_refs_tracked k n ls t : length (tracked_by t (put_refs k n ls)) = length (tracked_by t ls).
Proof.
  unfold tracked_by, put_refs. induction ls as [|[a b] ls IH]; [reflexivity|]. cbn [map filter fst].
  destruct (Nat.eqb a k); cbn [snd set_refs lf_trk]; destruct (Nat.eqb (lf_trk b) t); cbn [length]; lia.
Qed.

Lemma filter_remove k l t (ls : list (entity * life)) :
  NoDup (map fst ls) -> In (k, l) ls ->
  length (tracked_by t ls) = (if Nat.eqb (lf_trk l) t then 1 else 0)
    + length (tracked_by t (filter (fun p => negb (Nat.eqb (fst p) k)) ls)).
Proof.
  unfold tracked_by. induction ls as [|[a b] ls IH]; intros Hn H; [contradiction|]. cbn in Hn.
  inversion Hn as [|? ? N1 N2]. subst. cbn [filter fst].
  destruct H as [H|H].
  - injection H as -> ->. rewrite Nat.eqb_refl. cbn [negb].
    assert (E : filter (fun p => negb (Nat.eqb (fst p) k)) ls = ls).
    { clear - N1. induction ls as [|[c d] ls IH]; [reflexivity|]. cbn [filter fst map] in *.
      destruct (Nat.eqb_spec c k) as [E|E]; [exfalso; apply N1; left; exact E|]. cbn [negb].
      f_equal. apply IH. intros K. apply N1. right. exact K. }
    rewrite E. cbn [snd]. destruct (Nat.eqb (lf_trk l) t); cbn [length]; lia.
  - destruct (Nat.eqb_spec a k) as [E|E].
    + subst a. exfalso. apply N1. apply in_map_iff. exists (k, l). auto.
    + cbn [negb filter snd]. pose proof (IH N2 H) as E'.
      destruct (Nat.eqb (lf_trk b) t); cbn [length]; lia.
Qed.

Section KeyProofs.
  Variable bs : list entity.

  Record KInv (w : kworld) : Prop := mk_KInv {
    k_held : forall s t, kw_held w s = Some t -> t < kw_next w;
    k_new : forall k l, In (k, l) (kw_lives w) -> k < kw_next w /\ lf_trk l < kw_next w;
    k_nodup : NoDup (map fst (kw_lives w));
    k_inj : forall s s' t, kw_held w s = Some t -> kw_held w s' = Some t -> s = s';
    k_trk : forall k l, In (k, l) (kw_lives w) ->
      kw_held w (lf_sess l) = Some (lf_trk l) \/ kcleaned (lf_sess l) (kw_log w);
    k_own : forall k l s, In (k, l) (kw_lives w) -> kw_held w s = Some (lf_trk l) -> lf_sess l = s;
    k_count : forall s t, kw_held w s = Some t ->
      kw_count w t = length bs + length (tracked_by t (kw_lives w));
    k_made : forall k l, In (k, l) (kw_lives w) -> made k (kw_log w) = gone k (kw_log w) + lf_refs l;
    k_gone : forall k, ~ In k (map fst (kw_lives w)) -> made k (kw_log w) = gone k (kw_log w);
    k_log : forall s k b, In (KvKey s k b) (kw_log w) ->
      k < kw_next w /\ In b bs /\ (forall l, In (k, l) (kw_lives w) -> lf_sess l = s) /\
      (kw_held w s <> None \/ kcleaned s (kw_log w));
    k_key : forall k l, In (k, l) (kw_lives w) -> In (KvKey (lf_sess l) k (lf_buf l)) (kw_log w);
    k_act : forall s b, kw_held w s <> None -> In b bs -> In (KvActive s b) (kw_log w);
    k_order : forall l1 s k b l2, kw_log w = l1 ++ KvKey s k b :: l2 -> In (KvActive s b) l1;
    k_low : forall k, kw_next w <= k -> made k (kw_log w) = 0 }.

  Lemma KInv_fresh n : KInv (kfresh n).
  Proof.
    constructor; cbn; try discriminate; try contradiction; try constructor; try reflexivity.
    intros l1 s k b l2 H. destruct l1; discriminate.
  Qed.

  Lemma in_end {A} (x y : A) l : In x (l ++ [y]) -> In x l \/ x = y.
  Proof. intros H. apply in_app_or in H as [H|[H|[]]]; auto. Qed.

  Lemma order_app (l q : list kevent) l1 s k b l2 :
    l ++ q = l1 ++ KvKey s k b :: l2 ->
    (exists l2', l = l1 ++ KvKey s k b :: l2') \/ (exists q1 q2, q = q1 ++ KvKey s k b :: q2 /\ l1 = l ++ q1).
  Proof.
    revert l1. induction l as [|a l IH]; intros l1 H; cbn [app] in H.
    - right. exists l1, l2. auto.
    - destruct l1 as [|a' l1]; cbn [app] in H; injection H as E H.
      + left. exists l. cbn. rewrite E. reflexivity.
      + subst a'. destruct (IH l1 H) as [[l2' E]|[q1 [q2 [E1 E2]]]].
        * left. exists l2'. cbn. rewrite E. reflexivity.
        * right. exists q1, q2. split; [exact E1|]. cbn. rewrite E2. reflexivity.
  Qed.

  Lemma KInv_hand_out s t w b :
    In b bs -> kw_held w s = Some t -> KInv w -> KInv (hand_out s t w b).
  Proof.
    intros Hb Ht [A1 A2 A3 A4 A5 A6 A7 A8 A9 A10 A11 A12 A13 A14].
    assert (Hnew : ~ In (kw_next w) (map fst (kw_lives w))).
    { intros K. apply in_map_iff in K as [[a c] [E K]]. cbn in E. subst a. apply A2 in K. lia. }
    assert (C : forall s', kcleaned s' (kw_log w) -> kcleaned s' (kw_log w ++ [KvKey s (kw_next w) b])).
    { intros s' K. apply in_or_app. left. exact K. }
    constructor; cbn [hand_out kw_next kw_held kw_count kw_lives kw_log] in *.
    - intros s' t' H. apply A1 in H. lia.
    - intros k l H. apply in_end in H as [H|H]; [apply A2 in H; lia|]. injection H as -> ->. cbn.
      apply A1 in Ht. lia.
    - rewrite map_app. apply NoDup_app_comm_snoc; [exact A3|exact Hnew].
    - exact A4.
    - intros k l H. apply in_end in H as [H|H].
      + destruct (A5 k l H) as [K|K]; [left; exact K|right; apply C; exact K].
      + injection H as -> ->. left. exact Ht.
    - intros k l s' H. apply in_end in H as [H|H]; [apply A6 with k; exact H|].
      injection H as -> ->. cbn. intros K. exact (A4 _ _ _ Ht K).
    - intros s' t' H. unfold set_count. unfold tracked_by. rewrite filter_app, app_length. cbn [filter snd lf_trk].
      fold (tracked_by t' (kw_lives w)). rewrite (Nat.eqb_sym t' t).
      destruct (Nat.eqb_spec t t') as [E|E]; cbn [length].
      + subst t'. rewrite (A7 _ _ H). lia.
      + rewrite (A7 _ _ H). lia.
    - intros k l H. rewrite made_app, gone_app. cbn [made gone]. apply in_end in H as [H|H].
      + rewrite (A8 k l H). destruct (Nat.eqb_spec (kw_next w) k) as [E|E]; [|lia].
        apply A2 in H. lia.
      + injection H as -> ->. rewrite Nat.eqb_refl, (A9 _ Hnew). cbn. lia.
    - intros k H. rewrite map_app in H. rewrite made_app, gone_app. cbn [made gone].
      assert (K : ~ In k (map fst (kw_lives w))) by (intros K; apply H; apply in_or_app; left; exact K).
      rewrite (A9 k K). destruct (Nat.eqb_spec (kw_next w) k) as [E|E]; [|lia].
      exfalso. apply H. apply in_or_app. right. left. exact E.
    - intros s' k b' H. apply in_end in H as [H|H].
      + destruct (A10 _ _ _ H) as (B1 & B2 & B3 & B4). repeat split; [lia|exact B2| |].
        * intros l K. apply in_end in K as [K|K]; [apply B3; exact K|]. injection K as -> ->. lia.
        * destruct B4 as [B4|B4]; [left; exact B4|right; apply C; exact B4].
      + injection H as -> -> ->. repeat split; [lia|exact Hb| |left; congruence].
        intros l K. apply in_end in K as [K|K]; [apply A2 in K; lia|]. injection K as ->. reflexivity.
    - intros k l H. apply in_end in H as [H|H]; apply in_or_app; [left; apply A11; exact H|].
      injection H as -> ->. right. left. reflexivity.
    - intros s' b' H1 H2. apply in_or_app. left. apply A12; assumption.
    - intros l1 s' k b' l2 H. apply order_app in H as [[l2' H]|[q1 [q2 [H1 H2]]]]; [eapply A13; exact H|].
      destruct q1 as [|x q1]; [|destruct q1; discriminate]. injection H1 as <- _ <- _. subst l1.
      apply in_or_app. left. apply A12; [congruence|exact Hb].
    - intros k H. rewrite made_app. cbn [made]. rewrite A14 by lia.
      destruct (Nat.eqb_spec (kw_next w) k); lia.
  Qed.

  (** Only the log grows, by an event which says nothing about keys that went out. *)
  Definition still (e : kevent) : bool :=
    match e with KvActive _ _ | KvCheck _ _ | KvClean _ => true | _ => false end.

  Lemma still_made k q : forallb still q = true -> made k q = 0 /\ gone k q = 0.
  Proof.
    induction q as [|e q IH]; intros H; [split; reflexivity|]. cbn [forallb] in H.
    apply andb_prop in H as [H1 H2]. destruct e; try discriminate; cbn [made gone]; apply IH; exact H2.
  Qed.

  Lemma still_key q s k b : forallb still q = true -> ~ In (KvKey s k b) q.
  Proof. intros H K. rewrite forallb_forall in H. apply H in K. discriminate. Qed.

  (** A step that does not touch the keys that went out, nor the trackers which are still held. *)
  Lemma KInv_still w w' q :
    KInv w -> kw_log w' = kw_log w ++ q -> forallb still q = true ->
    kw_next w <= kw_next w' -> kw_lives w' = kw_lives w ->
    (forall s, kw_held w' s = kw_held w s \/
       (kw_held w' s = None /\ kcleaned s q) \/
       (kw_held w s = None /\ kw_held w' s = Some (kw_next w) /\ kw_next w < kw_next w' /\
        kw_count w' (kw_next w) = length bs /\ forall b, In b bs -> In (KvActive s b) q)) ->
    (forall s s' t, kw_held w' s = Some t -> kw_held w' s' = Some t -> s = s') ->
    (forall s t, kw_held w' s = Some t -> kw_held w s = Some t -> kw_count w' t = kw_count w t) ->
    KInv w'.
  Proof.
    intros [A1 A2 A3 A4 A5 A6 A7 A8 A9 A10 A11 A12 A13 A14] EL Q N1 N2 HH HI HC.
    assert (C : forall s, kcleaned s (kw_log w) -> kcleaned s (kw_log w')).
    { intros s K. unfold kcleaned. rewrite EL. apply in_or_app. left. exact K. }
    constructor; rewrite ?N2.
    - intros s t H. destruct (HH s) as [E|[[E _]|(E1 & E2 & E3 & _)]].
      + rewrite E in H. apply A1 in H. lia.
      + congruence.
      + rewrite E2 in H. injection H as <-. exact E3.
    - intros k l H. apply A2 in H. lia.
    - exact A3.
    - exact HI.
    - intros k l H. destruct (A5 k l H) as [K|K]; [|right; apply C; exact K].
      destruct (HH (lf_sess l)) as [E|[[E1 E2]|(E1 & _)]]; [left; congruence| |congruence].
      right. unfold kcleaned. rewrite EL. apply in_or_app. right. exact E2.
    - intros k l s H K. destruct (HH s) as [E|[[E _]|(E1 & E2 & _)]]; [| |].
      + rewrite E in K. exact (A6 k l s H K).
      + congruence.
      + rewrite E2 in K. injection K as K. apply A2 in H. lia.
    - intros s t H. destruct (HH s) as [E|[[E _]|(E1 & E2 & E3 & E4 & _)]]; [| |].
      + rewrite HC with s t; [apply A7 with s; congruence|exact H|congruence].
      + congruence.
      + rewrite E2 in H. injection H as <-. rewrite E4.
        assert (Z : tracked_by (kw_next w) (kw_lives w) = []).
        { unfold tracked_by. destruct (filter _ _) as [|[k l] m] eqn:Em; [reflexivity|].
          assert (K : In (k, l) ((k, l) :: m)) by (left; reflexivity). rewrite <- Em in K.
          apply filter_In in K as [K1 K2]. apply Nat.eqb_eq in K2. cbn in K2. apply A2 in K1. lia. }
        rewrite Z. cbn. lia.
    - intros k l H. rewrite EL, made_app, gone_app. destruct (still_made k q Q) as [-> ->].
      rewrite (A8 k l H). lia.
    - intros k H. rewrite EL, made_app, gone_app. destruct (still_made k q Q) as [-> ->].
      rewrite (A9 k H). lia.
    - intros s k b H. rewrite EL in H. apply in_app_or in H as [H|H]; [|exfalso; exact (still_key _ _ _ _ Q H)].
      destruct (A10 _ _ _ H) as (B1 & B2 & B3 & B4). repeat split; [lia|exact B2|exact B3|].
      destruct B4 as [B4|B4]; [|right; apply C; exact B4].
      destruct (HH s) as [E|[[E1 E2]|(E1 & E2 & _)]]; [left; congruence| |left; congruence].
      right. unfold kcleaned. rewrite EL. apply in_or_app. right. exact E2.
    - intros k l H. rewrite EL. apply in_or_app. left. apply A11. exact H.
    - intros s b H1 H2. rewrite EL. apply in_or_app. destruct (HH s) as [E|[[E1 E2]|(E1 & E2 & _ & _ & E5)]].
      + left. apply A12; [congruence|exact H2].
      + congruence.
      + right. apply E5. exact H2.
    - intros l1 s k b l2 H. rewrite EL in H. apply order_app in H as [[l2' H]|[q1 [q2 [H1 H2]]]]; [eapply A13; exact H|].
      exfalso. apply (still_key q s k b Q). rewrite H1. apply in_or_app. right. left. reflexivity.
    - intros k H. rewrite EL, made_app. destruct (still_made k q Q) as [-> _]. rewrite A14 by lia. reflexivity.
  Qed.

  (** A step that changes the copies of one key. *)
  Lemma KInv_refs w w' k0 l0 n e :
    KInv w -> In (k0, l0) (kw_lives w) ->
    kw_log w' = kw_log w ++ [e] ->
    (forall k, made k [e] = if Nat.eqb k0 k then n - lf_refs l0 else 0) ->
    (forall k, gone k [e] = if Nat.eqb k0 k then lf_refs l0 - n else 0) ->
    still e = false -> (forall s k b, e <> KvKey s k b) ->
    kw_next w' = kw_next w -> kw_lives w' = put_refs k0 n (kw_lives w) ->
    kw_held w' = kw_held w -> kw_count w' = kw_count w -> KInv w'.
  Proof.
    intros [A1 A2 A3 A4 A5 A6 A7 A8 A9 A10 A11 A12 A13 A14] Hk EL EM EG Es Ek E1 E2 E3 E4.
    assert (C : forall s, kcleaned s (kw_log w) -> kcleaned s (kw_log w')).
    { intros s K. unfold kcleaned. rewrite EL. apply in_or_app. left. exact K. }
    constructor; rewrite ?E1, ?E2, ?E3, ?E4.
    - exact A1.
    - intros k l H. apply put_refs_in in H as [l' [H ->]]. apply A2 in H. destruct (Nat.eqb k k0); exact H.
    - rewrite put_refs_fst. exact A3.
    - exact A4.
    - intros k l H. apply put_refs_in in H as [l' [H ->]].
      destruct (A5 k l' H) as [K|K]; [left|right; apply C]; destruct (Nat.eqb k k0); exact K.
    - intros k l s H K. apply put_refs_in in H as [l' [H ->]].
      destruct (Nat.eqb k k0); exact (A6 k l' s H K).
    - intros s t H. rewrite put_refs_tracked. exact (A7 s t H).
    - intros k l H. rewrite EL, made_app, gone_app, EM, EG. apply put_refs_in in H as [l' [H ->]].
      rewrite (Nat.eqb_sym k k0). destruct (Nat.eqb_spec k0 k) as [E|E].
      + subst k0. assert (l' = l0) as -> by exact (in_unique _ _ _ _ A3 H Hk).
        rewrite (A8 k l0 H). cbn [set_refs lf_refs]. lia.
      + rewrite (A8 k l' H). lia.
    - intros k H. rewrite put_refs_fst in H. rewrite EL, made_app, gone_app, EM, EG, (A9 k H).
      destruct (Nat.eqb_spec k0 k) as [E|E]; [|lia]. subst k0. exfalso. apply H. apply in_map_iff. exists (k, l0). auto.
    - intros s k b H. rewrite EL in H. apply in_end in H as [H|H]; [|exfalso; exact (Ek _ _ _ (eq_sym H))].
      destruct (A10 _ _ _ H) as (B1 & B2 & B3 & B4). repeat split; [exact B1|exact B2| |].
      + intros l K. apply put_refs_in in K as [l' [K ->]]. destruct (Nat.eqb k k0); exact (B3 l' K).
      + destruct B4 as [B4|B4]; [left; exact B4|right; apply C; exact B4].
    - intros k l H. rewrite EL. apply in_or_app. left. apply put_refs_in in H as [l' [H ->]].
      destruct (Nat.eqb k k0); exact (A11 k l' H).
    - intros s b H1 H2. rewrite EL. apply in_or_app. left. apply A12; assumption.
    - intros l1 s k b l2 H. rewrite EL in H. apply order_app in H as [[l2' H]|[q1 [q2 [H1 H2]]]]; [eapply A13; exact H|].
      destruct q1 as [|x q1]; [|destruct q1; discriminate]. injection H1 as H1 _. exfalso. exact (Ek _ _ _ H1).
    - intros k H. rewrite EL, made_app, A14 by lia. rewrite EM. destruct (Nat.eqb_spec k0 k) as [E|E]; [|reflexivity].
      subst k0. apply A2 in Hk. lia.
  Qed.

  Lemma KInv_release w k : KInv w -> KInv (krelease k w).
  Proof.
    intros I. unfold krelease. destruct (get_life k w) as [l|] eqn:El; [|exact I].
    destruct (lf_refs l) eqn:Er; [|exact I]. apply get_life_in in El.
    destruct I as [A1 A2 A3 A4 A5 A6 A7 A8 A9 A10 A11 A12 A13 A14].
    assert (F : forall k' l', In (k', l') (filter (fun p => negb (Nat.eqb (fst p) k)) (kw_lives w)) -> In (k', l') (kw_lives w)).
    { intros k' l' H. apply filter_In in H as [H _]. exact H. }
    constructor; cbn [kw_next kw_held kw_count kw_lives kw_log]; try assumption.
    - intros k' l' H. exact (A2 _ _ (F _ _ H)).
    - clear - A3. induction (kw_lives w) as [|[a b] ls IH]; [constructor|]. cbn [filter map fst] in *.
      inversion A3 as [|? ? N1 N2]. subst. destruct (Nat.eqb a k); cbn [negb]; [apply IH; exact N2|].
      cbn [map fst]. constructor; [|apply IH; exact N2]. intros K. apply N1. apply in_map_iff in K as [x [E K]].
      apply filter_In in K as [K _]. apply in_map_iff. exists x. auto.
    - intros k' l' H. exact (A5 _ _ (F _ _ H)).
    - intros k' l' s H. exact (A6 _ _ s (F _ _ H)).
    - intros s t H. unfold set_count. pose proof (filter_remove k l t _ A3 El) as E.
      pose proof (A7 s t H) as E7. rewrite (Nat.eqb_sym t). destruct (Nat.eqb_spec (lf_trk l) t) as [K|K].
      + rewrite K, E7. lia.
      + rewrite E7. lia.
    - intros k' l' H. exact (A8 _ _ (F _ _ H)).
    - intros k' H. destruct (in_dec Nat.eq_dec k' (map fst (kw_lives w))) as [K|K]; [|exact (A9 _ K)].
      destruct (Nat.eq_dec k' k) as [E|E]; [subst k'; rewrite (A8 _ _ El), Er; lia|].
      exfalso. apply H. apply in_map_iff in K as [x [E1 K]]. apply in_map_iff. exists x. split; [exact E1|].
      apply filter_In. split; [exact K|]. destruct (Nat.eqb_spec (fst x) k); [congruence|reflexivity].
    - intros s k' b H. destruct (A10 _ _ _ H) as (B1 & B2 & B3 & B4). repeat split; try assumption.
      intros l' K. exact (B3 _ (F _ _ K)).
    - intros k' l' H. exact (A11 _ _ (F _ _ H)).
  Qed.

  Lemma hand_out_held s t w b : kw_held (hand_out s t w b) = kw_held w.
  Proof. reflexivity. Qed.

  Lemma KInv_hand_all s t cs : forall w, incl cs bs -> kw_held w s = Some t -> KInv w ->
    KInv (fold_left (hand_out s t) cs w).
  Proof.
    induction cs as [|c cs IH]; intros w Hc Hh I; [exact I|]. cbn [fold_left]. apply IH.
    - intros x Hx. apply Hc. right. exact Hx.
    - exact Hh.
    - apply KInv_hand_out; [apply Hc; left; reflexivity|exact Hh|exact I].
  Qed.

  Lemma KInv_access s w : KInv w -> KInv (kaccess bs s w).
  Proof.
    intros I. unfold kaccess. destruct (kw_held w s) as [t|] eqn:Eh.
    - apply KInv_hand_all; [apply incl_refl|exact Eh|exact I].
    - apply KInv_hand_all; [apply incl_refl|apply emap_set_eq|].
      eapply KInv_still with (q := map (KvActive s) bs); [exact I|reflexivity| |cbn; lia|reflexivity| | |].
      + clear. induction bs as [|b l IH]; [reflexivity|exact IH].
      + intros s'. cbn [kw_held kw_next kw_count]. destruct (Nat.eq_dec s' s) as [E|E].
        * subst s'. right. right. rewrite emap_set_eq. unfold set_count. rewrite Nat.eqb_refl.
          repeat split; [exact Eh|lia|]. intros b Hb. apply in_map. exact Hb.
        * left. rewrite emap_set_neq by exact E. reflexivity.
      + intros s1 s2 t. cbn [kw_held]. unfold emap_set.
        destruct (Nat.eqb_spec s1 s) as [E1|E1], (Nat.eqb_spec s2 s) as [E2|E2].
        * congruence.
        * intros [= <-] H. apply (k_held _ I) in H. lia.
        * intros H [= <-]. apply (k_held _ I) in H. lia.
        * apply (k_inj _ I).
      + intros s' t _ H. cbn [kw_count]. unfold set_count. apply (k_held _ I) in H.
        destruct (Nat.eqb_spec t (kw_next w)); [lia|reflexivity].
  Qed.

  Lemma drop_held_same s t cs : forall w, let w' := fold_left (drop_held s t) cs w in
    kw_next w' = kw_next w /\ kw_held w' = kw_held w /\ kw_lives w' = kw_lives w /\ kw_log w' = kw_log w /\
    kw_disposed w' = kw_disposed w /\
    (forall t', t' <> t -> kw_count w' t' = kw_count w t') /\
    (forall x, In x (kw_chan w) -> In x (kw_chan w')).
  Proof.
    induction cs as [|c cs IH]; intros w; [cbn; repeat split; auto|]. cbn [fold_left].
    destruct (IH (drop_held s t w c)) as (B1 & B2 & B3 & B4 & B5 & B6 & B7). cbn zeta in *.
    rewrite B1, B2, B3, B4, B5. repeat split.
    - intros t' H. rewrite B6 by exact H. cbn. unfold set_count. destruct (Nat.eqb_spec t' t); [contradiction|reflexivity].
    - intros x H. apply B7. unfold drop_held. cbn [kw_chan]. destruct (Nat.ltb 1 (kw_count w t)); [apply in_or_app; left|]; exact H.
  Qed.

  Lemma KInv_clean sc s w : KInv w -> KInv (kclean bs sc s w).
  Proof.
    intros I. unfold kclean. destruct sc; [|exact I]. set (w1 := mk_kworld _ _ _ _ _ _ _). cbn zeta.
    assert (E : exists w', match kw_held w s with None => w1 | Some t => fold_left (drop_held s t) bs w1 end = w' /\
      kw_next w' = kw_next w /\ kw_held w' = emap_set (kw_held w) s None /\ kw_lives w' = kw_lives w /\
      kw_log w' = kw_log w ++ [KvClean s] /\
      forall t', kw_held w s <> Some t' -> kw_count w' t' = kw_count w t').
    { destruct (kw_held w s) as [t|].
      - eexists. split; [reflexivity|]. destruct (drop_held_same s t bs w1) as (B1 & B2 & B3 & B4 & _ & B6 & _).
        cbn zeta in *. rewrite B1, B2, B3, B4. repeat split. intros t' H. rewrite B6 by congruence. reflexivity.
      - eexists. split; [reflexivity|]. repeat split. }
    destruct E as (w' & -> & E1 & E2 & E3 & E4 & E5).
    eapply KInv_still with (q := [KvClean s]); [exact I|exact E4|reflexivity|lia|exact E3| | |].
    - intros s'. rewrite E2. destruct (Nat.eq_dec s' s) as [E|E].
      + subst s'. right. left. split; [apply emap_set_eq|left; reflexivity].
      + left. rewrite emap_set_neq by exact E. reflexivity.
    - intros s1 s2 t. rewrite E2. unfold emap_set.
      destruct (Nat.eqb s1 s), (Nat.eqb s2 s); try discriminate. apply (k_inj _ I).
    - intros s' t H1 H2. apply E5. intros K. assert (s = s') as -> by exact (k_inj _ I _ _ _ K H2).
      rewrite E2, emap_set_eq in H1. discriminate.
  Qed.

  Lemma KInv_step w o : KInv w -> KInv (kstep bs w o).
  Proof.
    intros I. destruct o; cbn [kstep].
    - apply KInv_access. exact I.
    - unfold kcopy. destruct (get_life k w) as [l|] eqn:El; [|exact I]. destruct (lf_refs l) as [|n] eqn:Er; [exact I|].
      apply get_life_in in El.
      eapply KInv_refs with (n := S (S n)); [exact I|exact El|reflexivity| | |reflexivity|discriminate| | | |];
        try reflexivity; intros k'; cbn [made gone]; rewrite Er; destruct (Nat.eqb k k'); lia.
    - unfold kdrop. destruct (get_life k w) as [l|] eqn:El; [|exact I]. destruct (lf_refs l) as [|n] eqn:Er; [exact I|].
      apply get_life_in in El.
      eapply KInv_refs with (n := n); [exact I|exact El|reflexivity| | |reflexivity|discriminate| | | |];
        try reflexivity; intros k'; cbn [made gone]; rewrite Er; destruct (Nat.eqb k k'); lia.
    - apply KInv_release. exact I.
    - unfold knotice. destruct (kw_chan w) as [|[s b] r]; [exact I|].
      eapply KInv_still with (q := []); [exact I|symmetry; apply app_nil_r|reflexivity|apply Nat.le_refl|reflexivity| | |].
      + intros s'. left. reflexivity.
      + exact (k_inj _ I).
      + reflexivity.
    - unfold kcheck. destruct (kw_disposed w) as [|s r]; [exact I|].
      eapply KInv_still; [exact I|reflexivity|reflexivity|apply Nat.le_refl|reflexivity| | |].
      + intros s'. left. reflexivity.
      + exact (k_inj _ I).
      + reflexivity.
    - apply KInv_clean. exact I.
  Qed.

  Lemma KInv_krun os : forall w, KInv w -> KInv (krun bs w os).
  Proof. induction os as [|o os IH]; intros w I; [exact I|]. cbn. apply IH. apply KInv_step. exact I. Qed.
End KeyProofs.
