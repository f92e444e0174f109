(** Every step keeps the invariant. *)
From Verif Require Import Base RosterModel BufferModel InputModel InputSpec InputProofs GateModel
  OpsModel OpsSpec OpsProofs ReachModel ReachSpec ReachProofs ExecModel ExecSpec ExecProofs ExecProofs2 ExecProofs3
  ExecProofs4.

(** The queue without its first entry. *)
Definition popped (o : oworld) (rest : list entity) : oworld :=
  let r := w_roster (o_w o) in
  with_roster o (mk_roster rest (r_awake r) (r_deferred r) (r_cancel r) (r_unblock r) (r_disposed r)
                   (r_cleanup r) (r_despawn r)).

Lemma popped_shaped f o rest : shaped f o -> shaped f (popped o rest).
Proof. intros H. exact H. Qed.

(** The ways in which the first entry [n] of the queue can be executed. *)
Inductive executed (f : workflow) (x : xworld) (n : entity) (rest : list entity) : xworld -> Prop :=
| X_skip o' : pending (o_w (x_o x)) n = [] -> pulled f (popped (x_o x) rest) o' n ->
    executed f x n rest (set_o x o')
| X_stale o' : pending (o_w (x_o x)) n = [] -> f_kind f n = Some OCancel ->
    pulled f (popped (x_o x) rest) o' n -> executed f x n rest (broken f n (set_o x o'))
| X_sends o' k s v more ms dropped ns :
    f_kind f n = Some k -> reacts k v = Some (Sends ms dropped) ->
    pending (o_w (x_o x)) n = (s, v) :: more -> In s (x_ongoing x) ->
    did f (popped (x_o x) rest) o' n s ms ns [] -> Forall (eq (notice_of f n s)) ns ->
    (dropped = true <-> ns <> []) -> o_coll o' = o_coll (x_o x) -> executed f x n rest (set_o x o')
| X_cancels o' k s v more c :
    f_kind f n = Some k -> reacts k v = Some Cancels ->
    pending (o_w (x_o x)) n = (s, v) :: more -> In s (x_ongoing x) ->
    did f (popped (x_o x) rest) o' n s [] [] [mk_cancel n (f_scope f) (Some s) c] ->
    c = cause_triggered \/ c = cause_filtered -> o_coll o' = o_coll (x_o x) -> executed f x n rest (set_o x o')
| X_breaks o' k s v more :
    f_kind f n = Some k -> reacts k v = Some Breaks ->
    pending (o_w (x_o x)) n = (s, v) :: more -> In s (x_ongoing x) ->
    did f (popped (x_o x) rest) o' n s [] [] [] -> o_coll o' = o_coll (x_o x) ->
    executed f x n rest (broken f n (set_o x o'))
| X_collects o' min max t s v more :
    f_kind f n = Some (OCollect min max t) ->
    pending (o_w (x_o x)) n = (s, v) :: more -> In s (x_ongoing x) ->
    collected f n s t min max v (popped (x_o x) rest) o' -> executed f x n rest (set_o x o')
| X_out o' s v more :
    n = f_terminal f -> pending (o_w (x_o x)) n = (s, v) :: more -> In s (x_ongoing x) ->
    pulled f (popped (x_o x) rest) o' n -> executed f x n rest (finish f s (EOut s v) (set_o x o'))
| X_late o' s v more :
    n = f_terminal f -> pending (o_w (x_o x)) n = (s, v) :: more -> ~ In s (x_ongoing x) ->
    pulled f (popped (x_o x) rest) o' n -> executed f x n rest (broken f n (set_o x o')).

Lemma reacts_total k v : k <> OTerminate -> k <> OUnused -> (forall a b t, k <> OCollect a b t) ->
  exists r, reacts k v = Some r.
Proof.
  intros H1 H2 H3. destruct k; cbn; eauto; try congruence.
  - destruct v; eauto. destruct (length l =? length ts); eauto.
  - destruct (act v) as [[a b]|]; eauto.
  - destruct v; eauto.
  - destruct (f v); eauto.
  - destruct (f v); eauto.
Qed.

Lemma not_ready_ok f k n o : k <> OCancel -> k <> OTerminate -> k <> OUnused ->
  shaped f o -> working f n -> pending (o_w o) n = [] ->
  exists o', op_execute f k n o = (o', OpNotReady) /\ pulled f o o' n.
Proof.
  intros H1 H2 H3 Ho Hw Hp. destruct (take_pulled f o n Ho Hw) as [o1 [P E]]. rewrite Hp in E.
  exists o1. split; [|exact P]. destruct k; try congruence; cbn [op_execute];
    unfold map_execute, fork_clone_execute, fits, unzip_execute, branching_execute, spread_execute, filter_execute,
      cancel_filter_execute, collect_execute, with_input; rewrite ?Hp, E; reflexivity.
Qed.

Lemma pulled_none f o n : shaped f o -> pending (o_w o) n = [] -> pulled f o o n.
Proof.
  intros Ho Hp. split; try reflexivity; [|exact Ho]. intros m. unfold after_take.
  destruct (Nat.eqb_spec m n) as [E|]; [rewrite E, Hp|]; reflexivity.
Qed.

Lemma exec_executed f x n rest : built f -> base f x -> queue (x_o x) = n :: rest ->
  executed f x n rest (exec f x).
Proof.
  intros Hb B Hq. unfold exec. rewrite Hq. fold (popped (x_o x) rest).
  pose proof (popped_shaped f (x_o x) rest (b_shaped _ _ B)) as Ho.
  destruct (f_kind f n) as [k|] eqn:Ek.
  2:{ apply X_skip; [|apply pulled_none; [exact Ho|]]; rewrite pending_node;
        pose proof (proj1 Ho n) as Hn; rewrite Ek in Hn; cbn in Hn |- *; rewrite Hn; reflexivity. }
  destruct (unused f n) eqn:Eu.
  { assert (k = OUnused) as -> by (unfold unused in Eu; rewrite Ek in Eu; destruct k; congruence).
    cbn [op_execute]. apply X_skip; [|apply pulled_none; [exact Ho|]]; rewrite pending_node;
      pose proof (proj1 Ho n) as Hn; rewrite Ek in Hn; destruct Hn as [nd [En [Ei _]]];
      cbn in En |- *; rewrite En, Ei; reflexivity. }
  assert (Hku : k <> OUnused) by (intros ->; unfold unused in Eu; rewrite Ek in Eu; discriminate).
  assert (Hw : working f n) by (split; rewrite Ek; congruence).
  destruct (match k with OTerminate => true | _ => false end) eqn:Et.
  - assert (k = OTerminate) as -> by (destruct k; congruence).
    assert (Hn : n = f_terminal f) by (apply Hb, Ek).
    destruct (take_pulled f _ n Ho Hw) as [o1 [P E]]. unfold terminate. cbn [set_o x_o]. rewrite E.
    change (pending (o_w (popped (x_o x) rest)) n) with (pending (o_w (x_o x)) n).
    destruct (pending (o_w (x_o x)) n) as [|[s v] more] eqn:Ep.
    + exact (X_skip f x n rest o1 Ep P).
    + cbn [x_ongoing set_o]. destruct (existsb (Nat.eqb s) (x_ongoing x)) eqn:Es.
      * apply existsb_eqb in Es. exact (X_out f x n rest o1 s v more Hn Ep Es P).
      * apply (X_late f x n rest o1 s v more Hn Ep); [|exact P]. intros H. apply existsb_eqb in H. congruence.
  - assert (Hkt : k <> OTerminate) by (intros ->; discriminate).
    assert (Egoal : (match k with
       | OTerminate => terminate f n (set_o x (popped (x_o x) rest))
       | _ => match op_execute f k n (popped (x_o x) rest) with
          | (o1, OpOk) | (o1, OpNotReady) => set_o x o1
          | (o1, OpBroken) => broken f n (set_o x o1)
          | (o1, OpPanic) => tell (set_o x o1) (EPanic n) end end)
       = match op_execute f k n (popped (x_o x) rest) with
          | (o1, OpOk) | (o1, OpNotReady) => set_o x o1
          | (o1, OpBroken) => broken f n (set_o x o1)
          | (o1, OpPanic) => tell (set_o x o1) (EPanic n) end) by (destruct k; congruence || reflexivity).
    rewrite Egoal. clear Egoal Et.
    destruct (pending (o_w (x_o x)) n) as [|[s v] more] eqn:Ep.
    + destruct (match k with OCancel => true | _ => false end) eqn:Ec.
      * assert (k = OCancel) as -> by (destruct k; congruence).
        destruct (take_pulled f _ n Ho Hw) as [o1 [P E]]. cbn [op_execute]. unfold cancel_execute. rewrite E.
        change (pending (o_w (popped (x_o x) rest)) n) with (pending (o_w (x_o x)) n). rewrite Ep.
        exact (X_stale f x n rest o1 Ep Ek P).
      * assert (Hkc : k <> OCancel) by (intros ->; discriminate).
        destruct (not_ready_ok f k n _ Hkc Hkt Hku Ho Hw Ep) as [o1 [E P]]. rewrite E.
        exact (X_skip f x n rest o1 Ep P).
    + assert (Hn : n <> f_terminal f) by (intros H; apply Hkt; apply Hb in H; congruence).
      assert (Hs : In s (x_ongoing x)).
      { apply (b_pend _ _ B s v n); [rewrite Ep; left; reflexivity|exact Hn]. }
      assert (Ha : w_status (o_w (popped (x_o x) rest)) s = Some Active) by (apply (b_status _ _ B), Hs).
      destruct (match k with OCollect _ _ _ => true | _ => false end) eqn:Ec.
      * destruct k as [| | | | | | |min max t| | |]; try discriminate.
        destruct (collect_ok f n min max t _ s v more Hb Ho Ek Ep Ha) as [o' [E Hcol]]. rewrite E.
        exact (X_collects f x n rest o' min max t s v more Ek Ep Hs Hcol).
      * destruct (reacts_total k v Hkt Hku) as [r Hr]; [intros a b t ->; discriminate|].
        pose proof (react_ok f k n _ s v more r Hb Ho Ek Hr Ep Ha) as H. destruct r as [ms dropped| |]; cbn in H.
        -- destruct H as [o' [ns [E [D [F [Hd K]]]]]]. rewrite E.
           exact (X_sends f x n rest o' k s v more ms dropped ns Ek Hr Ep Hs D F Hd K).
        -- destruct H as [o' [c [E [D [Hc K]]]]]. rewrite E.
           exact (X_cancels f x n rest o' k s v more c Ek Hr Ep Hs D Hc K).
        -- destruct H as [o' [E [D K]]]. rewrite E.
           exact (X_breaks f x n rest o' k s v more Ek Hr Ep Hs D K).
Qed.

(** A whole scope being cancelled keeps everybody alive. *)
Lemma ask_base f x n s c : base f x -> base f (set_o x (ask_cancel f (x_o x) n s c)).
Proof.
  intros B. apply (base_change f x _ 0 [] [] [mk_cancel n (f_scope f) s c] B); [|congruence].
  apply ask_change, B.
Qed.

Lemma broken_base f x n : base f x -> base f (broken f n x).
Proof. intros B. apply base_tell; [reflexivity|discriminate|apply ask_base, B]. Qed.

Lemma broken_alive f x n : all_alive f (broken f n x).
Proof.
  intros s _. right. right. eexists. split; [apply in_or_app; right; left; reflexivity|]. cbn. auto.
Qed.

(** Sessions other than the one whose message was taken. *)
Lemma alive_did f o o' n rest s v more ms ns cs s' :
  pending (o_w o) n = (s, v) :: more -> did f (popped o rest) o' n s ms ns cs -> s' <> s ->
  alive f o s' -> alive f o' s'.
Proof.
  intros Hp [DP DS DQ DT DA DH] Hne [[m [[v' H1] H2]]|[[m H]|[c [H1 H2]]]].
  - left. exists m. split; [|exact H2]. exists v'. rewrite DP. apply in_or_app. left. unfold after_take.
    change (pending (o_w (popped o rest)) m) with (pending (o_w o) m).
    destruct (Nat.eqb_spec m n) as [->|]; [|exact H1]. rewrite Hp in H1 |- *. destruct H1 as [H1|H1]; [|exact H1].
    injection H1 as <- _. congruence.
  - right. left. exists m. rewrite DT. apply in_or_app. left. exact H.
  - right. right. exists c. split; [|exact H2]. rewrite DA. apply in_or_app. left. exact H1.
Qed.

(** The session whose message was taken, if something else keeps it alive. *)
Lemma alive_did_self f o o' n rest s v more ms ns cs :
  pending (o_w o) n = (s, v) :: more -> did f (popped o rest) o' n s ms ns cs ->
  (leads f n -> alive f o' s) -> alive f o s -> alive f o' s.
Proof.
  intros Hp [DP DS DQ DT DA DH] Hl [[m [[v' H1] H2]]|[[m H]|[c [H1 H2]]]].
  - destruct (Nat.eq_dec m n) as [->|Hne]; [apply Hl, H2|].
    left. exists m. split; [|exact H2]. exists v'. rewrite DP. apply in_or_app. left. unfold after_take.
    destruct (Nat.eqb_spec m n); [congruence|]. exact H1.
  - right. left. exists m. rewrite DT. apply in_or_app. left. exact H.
  - right. right. exists c. split; [|exact H2]. rewrite DA. apply in_or_app. left. exact H1.
Qed.

Lemma did_base f x o' n rest s v more ms ns cs : base f x -> queue (x_o x) = n :: rest ->
  pending (o_w (x_o x)) n = (s, v) :: more -> In s (x_ongoing x) ->
  did f (popped (x_o x) rest) o' n s ms ns cs -> base f (set_o x o').
Proof.
  intros B Hq Hp Hs [DP DS DQ DT DA DH].
  apply (base_did f x o' n rest s v more ms ns cs B Hq Hp DP DS DQ DT DA DH). auto.
Qed.

Lemma pulled_did f o o' n s : pulled f o o' n -> did f o o' n s [] [] [].
Proof. intros P. exact (pulled_change _ _ _ _ _ _ _ _ _ P (change_refl f o' s (pu_shaped _ _ _ _ P))). Qed.

Lemma pulled_skip f x o' n rest : base f x -> queue (x_o x) = n :: rest -> pending (o_w (x_o x)) n = [] ->
  pulled f (popped (x_o x) rest) o' n -> base f (set_o x o') /\ (forall s, alive f (x_o x) s -> alive f o' s).
Proof.
  intros B Hq Hp [P1 P2 P3 P4 P5].
  assert (Hpe : forall m, pending (o_w o') m = pending (o_w (x_o x)) m).
  { intros m. rewrite P1. unfold after_take. change (pending (o_w (popped (x_o x) rest)) m) with (pending (o_w (x_o x)) m).
    destruct (Nat.eqb_spec m n) as [->|]; [rewrite Hp|]; reflexivity. }
  split.
  - apply (base_skip f x o' n rest B Hq Hp Hpe); [rewrite P2; reflexivity|rewrite P3; reflexivity|exact P5].
  - intros s [[m [[v H1] H2]]|[[m H]|[c [H1 H2]]]].
    + left. exists m. split; [|exact H2]. exists v. rewrite Hpe. exact H1.
    + right. left. exists m. rewrite P3. exact H.
    + right. right. exists c. split; [|exact H2]. rewrite P3. exact H1.
Qed.

Lemma did_waits f o o' n s ms ns cs t v : did f o o' n s ms ns cs -> In (t, v) ms -> unused f t = false -> waits o' s t.
Proof.
  intros D Hin Hu. exists v. rewrite (di_pending _ _ _ _ _ _ _ _ D). apply in_or_app. right. apply in_map.
  apply sent_in, live_in. auto.
Qed.

Lemma combine_has (ts : list entity) (vs : list val) t : length vs = length ts -> In t ts ->
  exists v, In (t, v) (combine ts vs).
Proof.
  revert vs. induction ts as [|t0 ts IH]; intros [|v vs] Hl Hin; cbn in *; try discriminate; try contradiction.
  destruct Hin as [->|Hin]; [eauto|]. destruct (IH vs) as [v' H]; [lia|exact Hin|]. eauto.
Qed.

(** A node which reacts without dropping anything sends to all its targets. *)
Lemma sends_all k v ms dropped t : reacts k v = Some (Sends ms dropped) -> dropped = false ->
  In t (targets_of k) -> exists v', In (t, v') ms.
Proof.
  intros Hr Hd Ht. destruct k as [g t0|ts|ts|act ta tb|t0|g t0|g t0|min max t0| | |]; cbn [reacts targets_of] in *;
    try discriminate.
  - injection Hr as <- <-. destruct Ht as [<-|[]]. eexists. left. reflexivity.
  - injection Hr as <- <-. exists v. apply in_map_iff. eauto.
  - destruct v; try discriminate. destruct (Nat.eqb_spec (length l) (length ts)) as [E|]; [|discriminate].
    injection Hr as <- <-. apply combine_has; assumption.
  - destruct (act v) as [[a b]|]; [|discriminate]. injection Hr as <- <-. apply Bool.orb_false_iff in Hd.
    destruct Hd as [H1 H2]. destruct a as [a|]; [|discriminate]. destruct b as [b|]; [|discriminate].
    destruct Ht as [<-|[<-|[]]]; eexists; cbn; eauto.
  - destruct v; try discriminate. injection Hr as <- <-. destruct l as [|y l]; [discriminate|].
    destruct Ht as [<-|[]]. eexists. left. reflexivity.
  - destruct (g v) as [y|]; injection Hr as <- <-; [|discriminate]. destruct Ht as [<-|[]]. eexists. left. reflexivity.
  - destruct (g v) as [y|]; [|discriminate]. injection Hr as <- <-. destruct Ht as [<-|[]]. eexists. left. reflexivity.
Qed.

Lemma leads_target f n : leads f n -> n <> f_terminal f -> exists t, In t (node_targets f n) /\ leads f t.
Proof. intros [|n' t H1 H2] Hne; [congruence|eauto]. Qed.

Lemma exec_ok f x : built f -> base f x -> all_alive f x -> base f (exec f x) /\ all_alive f (exec f x).
Proof.
  intros Hb B A. destruct (queue (x_o x)) as [|n rest] eqn:Hq.
  { unfold exec. rewrite Hq. auto. }
  destruct (exec_executed f x n rest Hb B Hq) as
    [o' Hp P|o' Hp Hk P|o' k s v more ms dropped ns Hk Hr Hp Hs D F Hd K|o' k s v more c Hk Hr Hp Hs D Hc K
    |o' k s v more Hk Hr Hp Hs D K|o' min max t s v more Hk Hp Hs Hcol|o' s v more Hn Hp Hs P|o' s v more Hn Hp Hs P].
  - destruct (pulled_skip f x o' n rest B Hq Hp P) as [H1 H2]. split; [exact H1|]. intros s Hs. apply H2, A, Hs.
  - destruct (pulled_skip f x o' n rest B Hq Hp P) as [H1 H2].
    split; [apply broken_base, H1|apply broken_alive].
  - split; [exact (did_base _ _ _ _ _ _ _ _ _ _ _ B Hq Hp Hs D)|].
    intros s' Hs'. cbn [set_o x_o x_ongoing] in *. destruct (Nat.eq_dec s' s) as [->|Hne];
      [|exact (alive_did _ _ _ _ _ _ _ _ _ _ _ s' Hp D Hne (A s' Hs'))].
    apply (alive_did_self _ _ _ _ _ _ _ _ _ _ _ Hp D); [|apply A, Hs'].
    intros Hl. destruct dropped.
    + right. left. exists n. rewrite (di_told _ _ _ _ _ _ _ _ D). apply in_or_app. right.
      destruct ns as [|d ns]; [exfalso; apply Hd; reflexivity|]. inversion F; subst. left. reflexivity.
    + destruct (leads_target f n Hl) as [t [Ht Hlt]].
      { intros Hn. apply Hb in Hn. rewrite Hk in Hn. injection Hn as ->. discriminate. }
      unfold node_targets in Ht. rewrite Hk in Ht.
      destruct (sends_all k v ms false t Hr eq_refl Ht) as [v' Hv]. left. exists t. split; [|exact Hlt].
      exact (did_waits _ _ _ _ _ _ _ _ _ _ D Hv (leads_used f t Hb Hlt)).
  - split; [exact (did_base _ _ _ _ _ _ _ _ _ _ _ B Hq Hp Hs D)|].
    intros s' Hs'. cbn [set_o x_o x_ongoing] in *. destruct (Nat.eq_dec s' s) as [->|Hne];
      [|exact (alive_did _ _ _ _ _ _ _ _ _ _ _ s' Hp D Hne (A s' Hs'))].
    right. right. eexists. rewrite (di_asked _ _ _ _ _ _ _ _ D).
    split; [apply in_or_app; right; left; reflexivity|]. cbn. auto.
  - split; [|apply broken_alive]. apply broken_base. exact (did_base _ _ _ _ _ _ _ _ _ _ _ B Hq Hp Hs D).
  - assert (Ht : leads f n -> leads f t).
    { intros Hl. destruct (leads_target f n Hl) as [t' [Ht Hlt]].
      - intros Hn. apply Hb in Hn. congruence.
      - unfold node_targets in Ht. rewrite Hk in Ht. destruct Ht as [<-|[]]. exact Hlt. }
    destruct Hcol as [[D _]|[_ [_ [D|[D [m [Hr Hm]]]]]]];
      (split; [exact (did_base _ _ _ _ _ _ _ _ _ _ _ B Hq Hp Hs D)|]);
      intros s' Hs'; cbn [set_o x_o x_ongoing] in *; (destruct (Nat.eq_dec s' s) as [->|Hne];
      [|exact (alive_did _ _ _ _ _ _ _ _ _ _ _ s' Hp D Hne (A s' Hs'))]);
      (apply (alive_did_self _ _ _ _ _ _ _ _ _ _ _ Hp D); [|apply A, Hs']); intros Hl.
    + left. exists t. split; [|apply Ht, Hl].
      exact (did_waits _ _ _ _ _ _ _ _ t _ D (or_introl eq_refl) (leads_used f t Hb (Ht Hl))).
    + right. left. exists n. rewrite (di_told _ _ _ _ _ _ _ _ D). apply in_or_app. right. left. reflexivity.
    + left. exists m. split; [exact Hm|exact (reaches_leads f m n Hr Hl)].
  - pose proof (did_base _ _ _ _ _ _ _ _ _ _ _ B Hq Hp Hs (pulled_did _ _ _ _ s P)) as B1.
    split; [apply base_finish; [exact Hb|exact B1|reflexivity|discriminate]|].
    apply all_alive_finish; [exact Hb|exact B1|]. intros s' Hs' Hne. cbn [set_o x_o x_ongoing] in *.
    exact (alive_did _ _ _ _ _ _ _ _ _ _ _ s' Hp (pulled_did _ _ _ _ s P) Hne (A s' Hs')).
  - split; [|apply broken_alive]. apply broken_base.
    destruct P as [P1 P2 P3 P4 P5].
    apply (base_did f x o' n rest s v more [] [] [] B Hq Hp); try (rewrite ?P3, ?app_nil_r; reflexivity).
    + intros m. cbn. rewrite app_nil_r. exact (P1 m).
    + rewrite P2. reflexivity.
    + exact P5.
    + congruence.
Qed.

(** ** The other steps *)
Lemma roster_base f x r : base f x -> r_queue r = queue (x_o x) -> base f (set_o x (with_roster (x_o x) r)).
Proof.
  intros B Hr. split; cbn [set_o x_o x_ongoing x_initial x_log]; try apply B.
  intros n. cbn. rewrite Hr. apply (b_queue _ _ B n).
Qed.

Lemma finish_all_ok f c : forall l x, built f -> base f x ->
  let x' := fold_left (fun x s => finish f s (ECancelled s c) x) l x in
  base f x' /\ (forall s, In s (x_ongoing x') <-> In s (x_ongoing x) /\ ~ In s l).
Proof.
  induction l as [|s l IH]; intros x Hb B; cbn [fold_left].
  - split; [exact B|]. cbn. tauto.
  - destruct (IH (finish f s (ECancelled s c) x) Hb) as [H1 H2].
    { apply base_finish; [exact Hb|exact B|reflexivity|discriminate]. }
    split; [exact H1|]. intros s'. rewrite H2, ongoing_finish. cbn. intuition.
Qed.

Lemma do_cancel_ok f x : built f -> base f x -> all_alive f x -> base f (do_cancel f x) /\ all_alive f (do_cancel f x).
Proof.
  intros Hb B A. unfold do_cancel. destruct (asked (x_o x)) as [|c rest] eqn:Ea; [auto|].
  match goal with |- context [set_o x ?o] => set (o0 := o) end.
  assert (B0 : base f (set_o x o0)) by (apply roster_base; [exact B|reflexivity]).
  assert (A0 : forall s, In s (x_ongoing x) -> (c_target c = f_scope f /\ (c_session c = Some s \/ c_session c = None))
                 \/ alive f o0 s).
  { intros s Hs. destruct (A s Hs) as [H|[H|[c' [H1 H2]]]].
    - right. left. exact H.
    - right. right. left. exact H.
    - rewrite Ea in H1. destruct H1 as [<-|H1]; [auto|]. right. right. right. exists c'. auto. }
  destruct (Nat.eqb_spec (c_target c) (f_scope f)) as [Et|Et].
  - destruct (c_session c) as [s|] eqn:Es.
    + split; [apply base_finish; [exact Hb|exact B0|reflexivity|discriminate]|].
      apply all_alive_finish; [exact Hb|exact B0|]. intros s' Hs' Hne. cbn [set_o x_o x_ongoing] in *.
      destruct (A0 s' Hs') as [[_ [H|H]]|H]; congruence || exact H.
    + destruct (finish_all_ok f (c_cause c) (x_ongoing (set_o x o0)) (set_o x o0) Hb B0) as [H1 H2].
      split; [exact H1|]. intros s Hs. apply H2 in Hs. tauto.
  - split; [exact B0|]. intros s Hs. cbn [set_o x_o x_ongoing] in *. destruct (A0 s Hs) as [[H _]|H]; [congruence|exact H].
Qed.

Lemma notice_ok f x : built f -> base f x -> calm f x -> all_alive f x -> base f (notice f x) /\ all_alive f (notice f x).
Proof.
  intros Hb B Hcalm A. unfold notice. destruct (rev_case (told (x_o x))) as [E|[l [d E]]]; rewrite E.
  { cbn. auto. }
  rewrite pop_last_app. match goal with |- context [set_o x ?o] => set (o0 := o) end.
  assert (B0 : base f (set_o x o0)) by (apply roster_base; [exact B|reflexivity]).
  assert (A0 : forall s, In s (x_ongoing x) -> (d_source d = f_scope f /\ d_session d = s) \/ alive f o0 s).
  { intros s Hs. destruct (A s Hs) as [H|[[m H]|H]].
    - right. left. exact H.
    - rewrite E in H. apply in_app_or in H. destruct H as [H|[H|[]]].
      + right. right. left. exists m. exact H.
      + left. subst d. split; reflexivity.
    - right. right. right. exact H. }
  destruct (Nat.eqb_spec (d_source d) (f_scope f)) as [Ed|Ed].
  - destruct (validate_ok f (d_origin d) (d_session d) (set_o x o0) Hb B0 Hcalm)
      as [x' [b [Ev [B1 [_ [V1 [V2 [V3 [_ V5]]]]]]]]].
    rewrite Ev. cbn [fst]. split; [exact B1|]. intros s Hs.
    assert (Hs0 : In s (x_ongoing x)).
    { destruct b; [rewrite (proj1 (V1 eq_refl)) in Hs; exact Hs|]. apply V2 in Hs; [|reflexivity]. apply Hs. }
    destruct (Nat.eq_dec s (d_session d)) as [->|Hne].
    + destruct b; [apply V3; [reflexivity|exact Hs0]|]. apply V2 in Hs; [|reflexivity]. tauto.
    + apply V5; [exact Hne|]. destruct (A0 s Hs0) as [[_ H]|H]; [congruence|exact H].
  - split; [exact B0|]. intros s Hs. cbn [set_o x_o x_ongoing] in *. destruct (A0 s Hs) as [[H _]|H]; [congruence|exact H].
Qed.

Lemma endings_none f x s : base f x -> known s (x_log x) = false -> ~ In s (x_ongoing x) /\
  (forall m, ~ waits (x_o x) s m).
Proof.
  intros B Hk. split.
  - intros H. apply (b_run _ _ B) in H. destruct H. congruence.
  - intros m [v H]. apply (b_known _ _ B) in H. congruence.
Qed.

Lemma base_start f x s v o2 : built f -> base f x -> known s (x_log x) = false ->
  change f (with_w (x_o x) (mk_world (w_nodes (o_w (x_o x))) (emap_set (w_status (o_w (x_o x))) s (Some Active))
              (w_roster (o_w (x_o x))))) o2 s [(f_entry f, v)] [] [] ->
  base f (mk_x o2 (x_ongoing x ++ [s]) (x_initial x) (x_log x ++ [EStart s v])).
Proof.
  intros Hb B Hk C. destruct (endings_none f x s B Hk) as [Hns Hnw].
  assert (Hin : forall s' v' n, In (s', v') (pending (o_w o2) n) -> In (s', v') (pending (o_w (x_o x)) n) \/ s' = s).
  { intros s' v' n H. rewrite (ch_pending _ _ _ _ _ _ _ C) in H. apply in_app_or in H. destruct H as [H|H]; [left; exact H|].
    right. apply in_map_iff in H. destruct H as [v0 [E _]]. injection E as <- _. reflexivity. }
  assert (Hkn : forall s', known s' (x_log x ++ [EStart s v]) = known s' (x_log x) || Nat.eqb s' s)
    by (intros s'; rewrite known_app; reflexivity).
  assert (Hen : forall s', endings (mk_x o2 (x_ongoing x ++ [s]) (x_initial x) (x_log x ++ [EStart s v])) s'
                = endings x s').
  { intros s'. unfold endings. cbn [x_log]. rewrite filter_app. cbn. rewrite app_nil_r. reflexivity. }
  split; cbn [x_o x_ongoing x_initial x_log].
  - exact (ch_shaped _ _ _ _ _ _ _ C).
  - intros s'. rewrite (ch_status _ _ _ _ _ _ _ C). cbn -[emap_set].
    rewrite in_app_iff. destruct (Nat.eq_dec s' s) as [->|Hne].
    + rewrite emap_set_eq. cbn. tauto.
    + rewrite emap_set_neq by assumption. rewrite (b_status _ _ B). cbn. intuition congruence.
  - intros s' v' n H Hn. apply in_or_app. destruct (Hin _ _ _ H) as [H1| ->]; [left; exact (b_pend _ _ B _ _ _ H1 Hn)|].
    right. left. reflexivity.
  - intros s' v' n H. rewrite Hkn. destruct (Hin _ _ _ H) as [H1| ->].
    + rewrite (b_known _ _ B _ _ _ H1). reflexivity.
    + rewrite Nat.eqb_refl, Bool.orb_true_r. reflexivity.
  - intros n. rewrite (ch_pending _ _ _ _ _ _ _ C), (ch_queue _ _ _ _ _ _ _ C), app_length, map_length, count_occ_app.
    pose proof (b_queue _ _ B n) as H. pose proof (sent_length_le f n [(f_entry f, v)]).
    change (pending _ n) with (pending (o_w (x_o x)) n) at 1. cbn -[sent_to live count_occ]. cbn [map fst] in *. lia.
  - apply (b_init _ _ B).
  - apply (b_entry _ _ B).
  - intros s' H. rewrite Hkn, Hen. apply in_app_or in H. destruct H as [H|[<-|[]]].
    + destruct (b_run _ _ B s' H) as [H1 H2]. rewrite H1. auto.
    + rewrite Nat.eqb_refl, Bool.orb_true_r. split; [reflexivity|]. apply (b_new _ _ B), Hk.
  - intros s'. rewrite Hkn, Hen. intros H1 H2. apply (b_over _ _ B).
    + destruct (Nat.eqb_spec s' s) as [E|]; [|rewrite Bool.orb_false_r in H1; exact H1].
      exfalso. subst s'. apply H2, in_or_app. right. left. reflexivity.
    + intros H. apply H2, in_or_app. auto.
  - intros s'. rewrite Hkn, Hen. intros H. apply Bool.orb_false_iff in H. apply (b_new _ _ B), H.
Qed.

Lemma base_initial f x i : base f x ->
  (i = Some IConfirmed \/ i = Some IInvalidated -> circular f (f_nodes f) = false) ->
  (i = Some IConfirmed -> leads f (f_entry f) /\ unused f (f_entry f) = false) ->
  base f (mk_x (x_o x) (x_ongoing x) i (x_log x)).
Proof. intros B H1 H2. split; cbn [x_o x_ongoing x_initial x_log]; try apply B; assumption. Qed.

Definition sound (f : workflow) (x : xworld) : Prop := base f x /\ calm f x /\ all_alive f x.

Lemma calm_sub f x x' : calm f x -> (forall s, In s (x_ongoing x') -> In s (x_ongoing x)) -> calm f x'.
Proof.
  intros H Hs Hne. apply H. destruct (x_ongoing x') as [|s l] eqn:E; [congruence|]. intros E0.
  specialize (Hs s (or_introl eq_refl)). rewrite E0 in Hs. destruct Hs.
Qed.

Lemma start_ok f s v x : built f -> sound f x -> sound f (start f s v x).
Proof.
  intros Hb (B & Hc & A). unfold start. destruct (known s (x_log x)) eqn:Ek; [exact (conj B (conj Hc A))|].
  match goal with |- context [o_give ?o _ _ _] => set (o1 := o) end.
  assert (Hs1 : w_status (o_w o1) s = Some Active) by (cbn -[emap_set]; apply emap_set_eq).
  assert (He : f_kind f (f_entry f) <> None) by (apply (proj1 (proj2 Hb)), Hb).
  destruct (give_change f o1 (f_entry f) s v (b_shaped _ _ B) Hs1 He) as [o2 [E [C _]]]. rewrite E.
  set (x1 := mk_x o2 (x_ongoing x ++ [s]) (x_initial x) (x_log x ++ [EStart s v])).
  assert (B1 : base f x1) by (apply base_start; assumption).
  destruct (endings_none f x s B Ek) as [Hns Hnw].
  assert (A1 : forall s', In s' (x_ongoing x1) -> s' <> s -> alive f (x_o x1) s').
  { intros s' Hs' Hne. cbn [x1 x_ongoing] in Hs'. apply in_app_or in Hs'. destruct Hs' as [Hs'|[<-|[]]]; [|congruence].
    exact (alive_change _ _ _ _ _ _ _ _ C (A s' Hs')). }
  assert (Hsub : forall s', In s' (x_ongoing x1) -> s' <> s -> In s' (x_ongoing x)).
  { intros s' Hs' Hne. cbn [x1 x_ongoing] in Hs'. apply in_app_or in Hs'. destruct Hs' as [Hs'|[<-|[]]]; [exact Hs'|congruence]. }
  assert (Hent : forall m, waits o2 s m -> m = f_entry f /\ unused f (f_entry f) = false).
  { intros m [v' H]. rewrite (ch_pending _ _ _ _ _ _ _ C) in H. apply in_app_or in H. destruct H as [H|H].
    - exfalso. apply (Hnw m). exists v'. exact H.
    - apply in_map_iff in H. destruct H as [v0 [_ H]]. apply sent_in, live_in in H. destruct H as [[H|[]] Hu].
      injection H as <- _. cbn in Hu. auto. }
  assert (Hdown : forall n, downstream f (f_scope f) n = false).
  { intros n. apply downstream_outside, Hb. }
  assert (Hfin : forall i e, (forall s', ends s' e = Nat.eqb s s') -> (forall a b, e <> EStart a b) ->
            i = x_initial x \/ i = Some IError ->
            sound f (finish f s e (mk_x o2 (x_ongoing x1) i (x_log x1)))).
  { intros i e E1 E2 Hi.
    assert (B2 : base f (mk_x o2 (x_ongoing x1) i (x_log x1))).
    { destruct Hi as [-> | ->]; [exact B1|]. apply (base_initial f x1 (Some IError) B1).
      - intros [H|H]; discriminate.
      - discriminate. }
    split; [apply base_finish; assumption|]. split.
    - apply (calm_sub f x); [exact Hc|]. intros s' H. apply ongoing_finish in H. destruct H. apply Hsub; assumption.
    - apply all_alive_finish; [exact Hb|exact B2|exact A1]. }
  assert (Hval : circular f (f_nodes f) = false ->
            exists x2 b, validate f (f_scope f) s x1 = (x2, Some b) /\ sound f x2 /\ x_initial x2 = x_initial x /\
              (b = true -> leads f (f_entry f) /\ unused f (f_entry f) = false)).
  { intros Hcirc. assert (Hc1 : calm f x1) by (intros _; exact Hcirc).
    destruct (validate_ok f (f_scope f) s x1 Hb B1 Hc1) as [x2 [b [Ev [B2 [V0 [V1 [V2 [V3 [V4 V5]]]]]]]]].
    exists x2, b. split; [exact Ev|]. split; [|split; [exact V0|]].
    - split; [exact B2|]. split; [intros _; exact Hcirc|]. intros s' Hs'.
      destruct (Nat.eq_dec s' s) as [->|Hne].
      + destruct b; [|apply V2 in Hs'; [tauto|reflexivity]]. apply V3; [reflexivity|].
        cbn. apply in_or_app. right. left. reflexivity.
      + apply V5; [exact Hne|]. apply A1; [|exact Hne].
        destruct b; [rewrite (proj1 (V1 eq_refl)) in Hs'; exact Hs'|]. apply V2 in Hs'; [tauto|reflexivity].
    - intros Hbt. destruct (V4 Hbt Hdown) as [m [Hl Hm]]. destruct (Hent m Hm) as [-> Hu]. auto. }
  destruct (x_initial x) as [i|] eqn:Ei.
  - destruct i.
    + destruct (b_entry _ _ B Ei) as [Hl Hu].
      assert (Hcirc : circular f (f_nodes f) = false) by (apply (b_init _ _ B); auto).
      split; [exact B1|]. split; [intros _; exact Hcirc|]. intros s' Hs'.
      destruct (Nat.eq_dec s' s) as [->|Hne]; [|apply A1; assumption].
      left. exists (f_entry f). split; [|exact Hl]. exists v. cbn. rewrite (ch_pending _ _ _ _ _ _ _ C).
      apply in_or_app. right. apply in_map, sent_in, live_in. split; [left; reflexivity|exact Hu].
    + assert (Hcirc : circular f (f_nodes f) = false) by (apply (b_init _ _ B); auto).
      destruct (Hval Hcirc) as [x2 [b [Ev [S2 _]]]]. rewrite Ev. exact S2.
    + apply (Hfin (Some IError)); [reflexivity|discriminate|auto].
  - destruct (circular f (f_nodes f)) eqn:Ec.
    + apply (Hfin (Some IError)); [reflexivity|discriminate|auto].
    + destruct (Hval eq_refl) as [x2 [b [Ev [[B2 [C2 A2]] [_ Hl]]]]]. rewrite Ev.
      split; [|split; [exact C2|exact A2]]. apply base_initial; [exact B2|auto|].
      destruct b; [auto|discriminate].
Qed.

Lemma step_ok f x a : built f -> sound f x -> sound f (xstep f x a).
Proof.
  intros Hb HS. pose proof HS as (B & Hc & A). destruct a as [s v| | | |s]; cbn [xstep].
  - apply start_ok; assumption.
  - destruct (exec_ok f x Hb B A) as [H1 H2]. split; [exact H1|]. split; [|exact H2].
    apply (calm_sub f x _ Hc). intros s. destruct (queue (x_o x)) as [|n rest] eqn:Hq.
    + unfold exec. rewrite Hq. auto.
    + destruct (exec_executed f x n rest Hb B Hq); cbn; auto. rewrite ongoing_finish. cbn. tauto.
  - destruct (do_cancel_ok f x Hb B A) as [H1 H2]. split; [exact H1|]. split; [|exact H2].
    apply (calm_sub f x _ Hc). intros s. unfold do_cancel. destruct (asked (x_o x)) as [|c rest]; [auto|].
    destruct (c_target c =? f_scope f); [|auto]. destruct (c_session c).
    + rewrite ongoing_finish. cbn. tauto.
    + match goal with |- context [finish_all f _ ?y] => pose proof (finish_all_ok f (c_cause c) (x_ongoing y) y Hb) as H end.
      intros Hs. apply H in Hs; [exact (proj1 Hs)|]. apply roster_base; [exact B|reflexivity].
  - destruct (notice_ok f x Hb B Hc A) as [H1 H2]. split; [exact H1|]. split; [|exact H2].
    apply (calm_sub f x _ Hc). intros s. unfold notice. destruct (pop_last (told (x_o x))) as [l [d|]]; [|auto].
    destruct (d_source d =? f_scope f); [|auto].
    match goal with |- context [validate f ?a ?b ?y] =>
      assert (B0 : base f y) by (apply roster_base; [exact B|reflexivity]);
      destruct (validate_ok f a b y Hb B0 Hc) as [x' [r [Ev [_ [_ [V1 [V2 _]]]]]]] end.
    rewrite Ev. cbn [fst]. destruct r.
    + rewrite (proj1 (V1 eq_refl)). auto.
    + intros H. apply V2 in H; [exact (proj1 H)|reflexivity].
  - split; [apply ask_base, B|]. split; [exact Hc|]. intros s' Hs'.
    exact (alive_change _ _ _ 0 _ _ _ _ (ask_change f (x_o x) (f_scope f) (Some s) 0 cause_external (b_shaped _ _ B)) (A s' Hs')).
Qed.

Lemma fresh_sound f : built f -> sound f (fresh f).
Proof.
  intros Hb. split; [|split; [intros H; exfalso; apply H; reflexivity|intros s []]].
  assert (Hp : forall n, pending (o_w (x_o (fresh f))) n = []).
  { intros n. rewrite pending_node. cbn. destruct (f_kind f n) as [[]|]; reflexivity. }
  split; try (intros; rewrite ?Hp in *; cbn in *; intuition congruence || lia).
  split; [|intros n; reflexivity]. intros n. cbn.
  destruct (f_kind f n) as [[]|]; cbn; try reflexivity;
    (eexists _, _; split; [reflexivity|split; reflexivity]) || (eexists; split; [reflexivity|split; reflexivity]).
Qed.

Lemma run_ok f acts : built f -> forall x, sound f x -> sound f (xrun f acts x).
Proof.
  intros Hb. induction acts as [|a acts IH]; intros x Hs; [exact Hs|]. cbn. apply IH, step_ok; assumption.
Qed.

Lemma run_sound f acts : built f -> sound f (xrun f acts (fresh f)).
Proof. intros Hb. apply run_ok; [exact Hb|]. apply fresh_sound, Hb. Qed.

Lemma quiet_over f x s : sound f x -> quiet x -> ~ In s (x_ongoing x).
Proof.
  intros (B & _ & A) (Q1 & Q2 & Q3) Hs. destruct (A s Hs) as [[m [[v H] _]]|[[n H]|[c [H _]]]].
  - pose proof (b_queue _ _ B m) as Hl. rewrite Q1 in Hl. cbn in Hl. destruct (pending (o_w (x_o x)) m); [destruct H|].
    cbn in Hl. lia.
  - rewrite Q2 in H. destruct H.
  - rewrite Q3 in H. destruct H.
Qed.

Lemma started_known x s v : started x s v -> known s (x_log x) = true.
Proof.
  intros H. unfold known. apply existsb_exists. exists (EStart s v). split; [exact H|apply Nat.eqb_refl].
Qed.

Lemma quiet_ended f acts s v : built f -> let x := xrun f acts (fresh f) in
  quiet x -> started x s v -> exists e, endings x s = [e].
Proof.
  intros Hb x Hq Hs. pose proof (run_sound f acts Hb) as S. apply (b_over _ _ (proj1 S)).
  - apply (started_known _ _ v). exact Hs.
  - exact (quiet_over f _ s S Hq).
Qed.
