From Verif Require Import Base CallbackModel CallbackSpec.

Section Proofs.
  Context {V U : Type}.
  Implicit Types w : cworld V U.
  Variable crun : U -> entity -> entity -> V -> U * list (entity * entity * V).

  Fixpoint cn (n : entity) (r : list entity) : nat :=
    match r with [] => 0 | m :: r' => (if Nat.eqb m n then 1 else 0) + cn n r' end.
  Lemma cn_app n a b : cn n (a ++ b) = cn n a + cn n b.
  Proof. induction a as [|x a IH]; [reflexivity|]. cbn [app cn]. rewrite IH. lia. Qed.

  Definition CInv w : Prop :=
    forall n, c_issued n (cw_log w) = c_served n (cw_log w) ++ cw_inputs w n.

  Definition CCnt w (r : list entity) : Prop :=
    forall n, length (cw_inputs w n) <= cn n r + cn n (cw_queue w).

  Lemma issued_app n (a b : list (cevent V)) : c_issued n (a ++ b) = c_issued n a ++ c_issued n b.
  Proof. apply flat_map_app. Qed.
  Lemma served_app n (a b : list (cevent V)) : c_served n (a ++ b) = c_served n a ++ c_served n b.
  Proof. apply flat_map_app. Qed.

  Lemma cgive_CInv n s v w : CInv w -> CInv (cgive n s v w).
  Proof.
    intros H m. cbn [cgive cw_log cw_inputs]. rewrite issued_app, served_app, H.
    cbn [c_issued c_served flat_map]. rewrite !app_nil_r, <- app_assoc. f_equal.
    rewrite Nat.eqb_sym. destruct (Nat.eqb_spec m n) as [->|]; [reflexivity|apply app_nil_r].
  Qed.

  Lemma nested_CInv l w w' : CInv w -> nested l w = Some w' -> CInv w'.
  Proof.
    revert w. induction l as [|[[n s] v] l IH]; intros w H; cbn [nested]; [intros [= <-]; exact H|].
    destruct (cw_locked w); [discriminate|]. apply IH.
    intros m. exact (cgive_CInv n s v w H m).
  Qed.

  Lemma call_CInv n w w' : CInv w -> call crun n w = Some w' -> CInv w'.
  Proof.
    intros H. unfold call. destruct (cw_inputs w n) as [|[s v] rest] eqn:E; [intros [= <-]; exact H|].
    destruct (crun (cw_user w) n s v) as [u reqs]. apply nested_CInv.
    intros m. cbn [cw_log cw_inputs]. rewrite issued_app, served_app, H.
    cbn [c_issued c_served flat_map]. rewrite !app_nil_r, <- app_assoc. f_equal.
    rewrite Nat.eqb_sym. destruct (Nat.eqb_spec m n) as [->|]; [|reflexivity]. exact E.
  Qed.

  Lemma drain_CInv fuel w w' : CInv w -> drain crun fuel w = Done w' -> CInv w'.
  Proof.
    revert w. induction fuel as [|fuel IH]; intros w H; cbn [drain];
      destruct (cw_queue w) as [|n q]; try discriminate; try (intros [= <-]; exact H).
    destruct (call crun n _) as [w1|] eqn:E; [|discriminate].
    apply IH. apply call_CInv in E; [exact E|exact H].
  Qed.

  Lemma cexec_CInv fuel n w w' : CInv w -> cexec crun fuel n w = Done w' -> CInv w'.
  Proof.
    intros H. unfold cexec. destruct (cw_locked w); [discriminate|].
    destruct (cw_available w); [|intros [= <-]; exact H].
    destruct (call crun n _) as [w1|] eqn:E; [|discriminate].
    apply drain_CInv. apply call_CInv in E; [exact E|exact H].
  Qed.

  (** What stays the same while the callback runs. *)
  Lemma nested_flags l w w' :
    nested l w = Some w' -> cw_available w' = cw_available w /\ cw_locked w' = cw_locked w.
  Proof.
    revert w. induction l as [|[[n s] v] l IH]; intros w; cbn [nested]; [intros [= <-]; split; reflexivity|].
    destruct (cw_locked w) eqn:E; [discriminate|]. intros H. apply IH in H. cbn in H. rewrite E in H. exact H.
  Qed.

  Lemma call_flags n w w' :
    call crun n w = Some w' -> cw_available w' = cw_available w /\ cw_locked w' = cw_locked w.
  Proof.
    unfold call. destruct (cw_inputs w n) as [|[s v] rest]; [intros [= <-]; split; reflexivity|].
    destruct (crun (cw_user w) n s v) as [u reqs]. intros H. apply nested_flags in H. exact H.
  Qed.

  Definition ready w : Prop := cw_available w = true /\ cw_locked w = false /\ cw_queue w = [].

  Lemma drain_ready fuel w w' : cw_locked w = false -> drain crun fuel w = Done w' -> ready w'.
  Proof.
    revert w. induction fuel as [|fuel IH]; intros w Hl; cbn [drain];
      destruct (cw_queue w) as [|n q] eqn:Eq; try discriminate;
      try (intros [= <-]; repeat split; assumption).
    destruct (call crun n _) as [w1|]; [|discriminate]. apply IH. reflexivity.
  Qed.

  Lemma nested_CCnt l w w' r : CCnt w r -> nested l w = Some w' -> CCnt w' r.
  Proof.
    revert w. induction l as [|[[n s] v] l IH]; intros w H; cbn [nested]; [intros [= <-]; exact H|].
    destruct (cw_locked w); [discriminate|]. apply IH.
    intros m. cbn [cenqueue cgive cw_inputs cw_queue]. rewrite cn_app. cbn [cn]. specialize (H m).
    rewrite (Nat.eqb_sym n m). destruct (Nat.eqb_spec m n) as [->|]; [|lia].
    rewrite app_length. cbn [length]. lia.
  Qed.

  Lemma call_CCnt n w w' r :
    (forall m, length (cw_inputs w m) <= (if Nat.eqb n m then 1 else 0) + cn m r + cn m (cw_queue w)) ->
    call crun n w = Some w' -> CCnt w' r.
  Proof.
    intros H. unfold call. destruct (cw_inputs w n) as [|[s v] rest] eqn:E.
    - intros [= <-] m. specialize (H m). destruct (Nat.eqb_spec n m) as [E1|]; [|lia].
      subst m. rewrite E. cbn [length]. lia.
    - destruct (crun (cw_user w) n s v) as [u reqs]. apply nested_CCnt.
      intros m. cbn [cw_inputs cw_queue]. specialize (H m). rewrite (Nat.eqb_sym n m) in H.
      destruct (Nat.eqb_spec m n) as [E1|]; [|lia]. subst m. rewrite E in H. cbn [length] in H. lia.
  Qed.

  Lemma drain_CCnt fuel w w' r : CCnt w r -> drain crun fuel w = Done w' -> CCnt w' r.
  Proof.
    revert w. induction fuel as [|fuel IH]; intros w H; cbn [drain];
      destruct (cw_queue w) as [|n q] eqn:Eq; try discriminate;
      try (intros [= <-]; exact H).
    destruct (call crun n _) as [w1|] eqn:E; [|discriminate]. apply IH.
    refine (call_CCnt n _ w1 r _ E). intros m. cbn [set_locked set_cqueue cw_inputs cw_queue].
    specialize (H m). rewrite Eq in H. cbn [cn] in H. lia.
  Qed.

  Lemma reach_all u w r : creach crun u w r -> CInv w /\ ready w /\ CCnt w r.
  Proof.
    induction 1 as [|w r n s v R (H1 & H2 & H3)|w n r fuel w' R (H1 & H2 & H3) E].
    - repeat split. intros n. cbn. lia.
    - split; [apply cgive_CInv, H1|]. split; [exact H2|]. intros m. cbn [cgive cw_inputs cw_queue].
      rewrite cn_app. cbn [cn]. specialize (H3 m). rewrite (Nat.eqb_sym n m).
      destruct (Nat.eqb_spec m n) as [->|]; [|lia]. rewrite app_length. cbn [length]. lia.
    - split; [exact (cexec_CInv _ _ _ _ H1 E)|]. destruct H2 as (Ha & Hl & Hq).
      unfold cexec in E. rewrite Hl, Ha in E.
      destruct (call crun n _) as [w1|] eqn:Ec; [|discriminate].
      pose proof (call_flags _ _ _ Ec) as [_ Hl1]. cbn [set_available cw_locked] in Hl1. rewrite Hl in Hl1.
      split; [exact (drain_ready _ _ _ Hl1 E)|]. refine (drain_CCnt _ _ _ _ _ E).
      refine (call_CCnt n _ w1 r _ Ec). intros m. cbn [set_available cw_inputs cw_queue].
      specialize (H3 m). rewrite Hq in *. cbn [cn] in *. lia.
  Qed.

  (** ** The order over all nodes *)
  Definition pend_at (n : entity) (p : list (entity * entity * V)) : list (entity * V) :=
    flat_map (fun x => let '(m, s, v) := x in if Nat.eqb m n then [(s, v)] else []) p.

  Definition COrd w (p : list (entity * entity * V)) : Prop :=
    map (fun x => fst (fst x)) p = cw_queue w /\
    (forall n, cw_inputs w n = pend_at n p) /\
    c_made (cw_log w) = c_ran (cw_log w) ++ p.

  Lemma made_app (a b : list (cevent V)) : c_made (a ++ b) = c_made a ++ c_made b.
  Proof. apply flat_map_app. Qed.
  Lemma ran_app (a b : list (cevent V)) : c_ran (a ++ b) = c_ran a ++ c_ran b.
  Proof. apply flat_map_app. Qed.

  Lemma give_COrd n s v w p : COrd w p -> COrd (cenqueue n (cgive n s v w)) (p ++ [(n, s, v)]).
  Proof.
    intros (H1 & H2 & H3). split; [|split].
    - cbn [cenqueue cgive cw_queue]. rewrite map_app, H1. reflexivity.
    - intros m. cbn [cenqueue cgive cw_inputs]. unfold pend_at. rewrite flat_map_app.
      fold (pend_at m p). cbn [flat_map]. rewrite app_nil_r, (Nat.eqb_sym n m).
      destruct (Nat.eqb_spec m n) as [->|]; [rewrite H2; reflexivity|].
      rewrite app_nil_r. apply H2.
    - cbn [cenqueue cgive cw_log]. rewrite made_app, ran_app, H3. cbn [c_made c_ran flat_map].
      rewrite !app_nil_r, app_assoc. reflexivity.
  Qed.

  Lemma nested_COrd l w w' p : COrd w p -> nested l w = Some w' -> COrd w' (p ++ l).
  Proof.
    revert w p. induction l as [|[[n s] v] l IH]; intros w p H; cbn [nested].
    - intros [= <-]. rewrite app_nil_r. exact H.
    - destruct (cw_locked w); [discriminate|]. intros E.
      apply (IH _ _ (give_COrd n s v w p H)) in E. rewrite <- app_assoc in E. exact E.
  Qed.

  (** Serving the first pending request. *)
  Lemma call_COrd n s v p w w' :
    map (fun x => fst (fst x)) p = cw_queue w ->
    (forall m, cw_inputs w m = pend_at m ((n, s, v) :: p)) ->
    c_made (cw_log w) = c_ran (cw_log w) ++ (n, s, v) :: p ->
    call crun n w = Some w' ->
    COrd w' (p ++ snd (crun (cw_user w) n s v)).
  Proof.
    intros H1 H2 H3. unfold call. rewrite (H2 n). cbn [pend_at flat_map]. rewrite Nat.eqb_refl. cbn [app].
    destruct (crun (cw_user w) n s v) as [u reqs]. cbn [snd]. apply nested_COrd.
    split; [exact H1|]. split.
    - intros m. cbn [cw_inputs]. destruct (Nat.eqb_spec m n) as [->|Hne]; [reflexivity|].
      rewrite H2. cbn [pend_at flat_map]. destruct (Nat.eqb_spec n m); [congruence|reflexivity].
    - cbn [cw_log]. rewrite made_app, ran_app, H3. cbn [c_made c_ran flat_map].
      rewrite app_nil_r, <- app_assoc. reflexivity.
  Qed.

  Lemma drain_COrd fuel w p w' : COrd w p -> drain crun fuel w = Done w' -> COrd w' [].
  Proof.
    revert w p. induction fuel as [|fuel IH]; intros w p H; cbn [drain];
      pose proof H as (H1 & H2 & H3); destruct p as [|[[n s] v] p];
      cbn [map fst] in H1; rewrite <- H1; try discriminate; try (intros [= <-]; exact H).
    destruct (call crun n _) as [w1|] eqn:E; [|discriminate].
    refine (IH _ (p ++ snd (crun (cw_user w) n s v)) _).
    apply (call_COrd n s v p) in E; [exact E|reflexivity|exact H2|exact H3].
  Qed.

  Lemma cexec_COrd fuel n s v w w' :
    ready w -> COrd w [] -> cexec crun fuel n (cgive n s v w) = Done w' -> COrd w' [].
  Proof.
    intros (Ha & Hl & Hq) H E. unfold cexec in E. cbn [cgive cw_locked cw_available] in E. rewrite Hl, Ha in E.
    destruct (call crun n _) as [w1|] eqn:Ec; [|discriminate].
    refine (drain_COrd fuel w1 _ w' _ E).
    pose proof (give_COrd n s v w [] H) as (G1 & G2 & G3).
    eapply (call_COrd n s v []) in Ec; [exact Ec| | |].
    - cbn [set_available cgive cw_queue map]. symmetry. exact Hq.
    - exact G2.
    - exact G3.
  Qed.

  (** ** No deadlock if requests are not nested twice *)
  Lemma nested_unlocked l w : cw_locked w = false -> exists w', nested l w = Some w'.
  Proof.
    revert w. induction l as [|[[n s] v] l IH]; intros w H; cbn [nested]; [eexists; reflexivity|].
    rewrite H. apply IH. exact H.
  Qed.

  Lemma drain_flat p w :
    cw_locked w = false -> COrd w p ->
    (forall n s v, In (n, s, v) p -> forall u, snd (crun u n s v) = []) ->
    exists fuel w', drain crun fuel w = Done w'.
  Proof.
    revert w. induction p as [|[[n s] v] p IH]; intros w Hl H Hp; pose proof H as (H1 & H2 & H3); cbn [map fst] in H1.
    - exists 0. cbn [drain]. rewrite <- H1. eexists; reflexivity.
    - assert (Hc : exists w1, call crun n (set_locked (set_cqueue w (map (fun x => fst (fst x)) p)) true) = Some w1 /\
                     cw_locked (set_locked w1 false) = false /\ COrd (set_locked w1 false) p).
      { destruct (call crun n (set_locked (set_cqueue w (map (fun x => fst (fst x)) p)) true)) as [w1|] eqn:E.
        - exists w1. split; [reflexivity|]. split; [reflexivity|].
          apply (call_COrd n s v p) in E; [|reflexivity|exact H2|exact H3].
          rewrite (Hp n s v (or_introl eq_refl)), app_nil_r in E. exact E.
        - exfalso. unfold call in E. cbn [set_locked set_cqueue cw_inputs cw_user] in E. rewrite (H2 n) in E.
          cbn [pend_at flat_map] in E. rewrite Nat.eqb_refl in E. cbn [app] in E.
          specialize (Hp n s v (or_introl eq_refl) (cw_user w)).
          destruct (crun (cw_user w) n s v) as [u reqs]. cbn [snd] in Hp. subst reqs. discriminate. }
      destruct Hc as (w1 & Ec & Hl1 & Ho).
      destruct (IH _ Hl1 Ho) as (fuel & w' & E); [intros m t x Hin; apply Hp; right; exact Hin|].
      exists (S fuel), w'. cbn [drain]. rewrite <- H1, Ec. exact E.
  Qed.

  Lemma cexec_flat n s v w :
    nests_flat crun -> ready w -> COrd w [] -> exists fuel w', cexec crun fuel n (cgive n s v w) = Done w'.
  Proof.
    intros Hf (Ha & Hl & Hq) H. unfold cexec. cbn [cgive cw_locked cw_available]. rewrite Hl, Ha.
    destruct (call crun n _) as [w1|] eqn:Ec.
    - pose proof (give_COrd n s v w [] H) as (G1 & G2 & G3).
      pose proof (call_flags _ _ _ Ec) as [_ Hl1]. cbn [set_available cgive cw_locked] in Hl1. rewrite Hl in Hl1.
      eapply (call_COrd n s v []) in Ec; [|symmetry; exact Hq|exact G2|exact G3].
      cbn [app set_available cgive cw_user] in Ec.
      apply (drain_flat _ w1 Hl1 Ec). intros m t x Hin u. exact (Hf _ _ _ _ _ _ _ Hin u).
    - exfalso. unfold call in Ec. destruct (cw_inputs _ n) as [|[t x] rest]; [discriminate|].
      destruct (crun _ n t x) as [u reqs]. 
      match type of Ec with nested _ ?w2 = None => destruct (nested_unlocked reqs w2) as [w3 E3]; [exact Hl|] end.
      congruence.
  Qed.
End Proofs.
