(** Proofs about the flush: what is left when it ends, and order across collections. *)
From Verif Require Import Base RosterModel FlushModel FlushSpec FlushProofs FlushProofs2 FlushProofs3.

Section FlushProofs4.
  Context {W item : Type}.
  Notation log := (list (event item)).
  Implicit Types (s : fstate W item) (P : job -> bool).
  Local Arguments count : simpl never.
  Local Arguments scheduled {item} l : simpl never.
  Local Arguments held : simpl never.
  Local Arguments executions {item} l : simpl never.
  Local Arguments queued {item} l : simpl never.

  Lemma count_purge_le P e l : count P (map JExec (filter (fun x => negb (Nat.eqb x e)) l)) <= count P (map JExec l).
  Proof.
    unfold count. induction l as [|x l IH]; [cbn; lia|]. cbn. destruct (Nat.eqb x e); cbn; destruct (P (JExec x)); cbn; lia.
  Qed.

  Lemma held_cmd_le P r c : count P (held (apply_cmd r c)) <= count P (held r) + count P (ordered c).
  Proof.
    destruct c; try (rewrite held_cmd by discriminate; lia). unfold held. cbn. rewrite !count_app.
    pose proof (count_purge_le P e (r_queue r)). pose proof (count_purge_le P e (r_deferred r)). lia.
  Qed.

  Definition fills P s s' : Prop :=
    exists l, f_log s' = f_log s ++ l /\ existsb is_collect l = false /\
      (existsb is_limit l = false -> count P (held (f_later s')) <= count P (held (f_later s)) + count P (scheduled l)).

  Lemma fills_trans P s1 s2 s3 : fills P s1 s2 -> fills P s2 s3 -> fills P s1 s3.
  Proof.
    intros (l1 & E1 & C1 & B1) (l2 & E2 & C2 & B2). exists (l1 ++ l2). rewrite E2, E1, app_assoc, !existsb_app, C1, C2.
    split; [reflexivity|]. split; [reflexivity|]. intros H. apply orb_false_iff in H as [H1 H2].
    rewrite scheduled_app, count_app. specialize (B1 H1). specialize (B2 H2). lia.
  Qed.

  Lemma fills_same P s s' : f_log s' = f_log s -> f_later s' = f_later s -> fills P s s'.
  Proof. intros E1 E2. exists []. rewrite app_nil_r, E2. split; [exact E1|]. split; [reflexivity|]. intros _. lia. Qed.

  Lemma fills_note P s e : is_collect e = false -> fills P s (note s e).
  Proof. intros E. exists [e]. cbn. rewrite E. split; [reflexivity|]. split; [reflexivity|]. intros _. lia. Qed.

  Lemma fills_issue P cmds s : fills P s (fold_left issue cmds s).
  Proof.
    revert s. induction cmds as [|[h c] cmds IH]; intros s; [apply fills_same; reflexivity|]. cbn [fold_left].
    eapply fills_trans; [|apply IH]. exists [EScheduled h c]. unfold issue. destruct h; cbn; split; try reflexivity; split; try reflexivity; intros _.
    - lia.
    - rewrite scheduled_one. apply held_cmd_le.
  Qed.

  Context (b : behaviour W item).

  Lemma fills_call P t s : fills P s (call b t s).
  Proof.
    unfold call. destruct (act b t (f_world s)) as [w cmds]. eapply fills_trans; [|apply fills_issue].
    eapply fills_trans; [|apply fills_note; reflexivity]. apply fills_same; reflexivity.
  Qed.

  Lemma fills_call_all P ts s : fills P s (call_all b ts s).
  Proof.
    revert s. induction ts as [|t ts IH]; intros s; [apply fills_same; reflexivity|].
    unfold call_all. cbn [fold_left]. eapply fills_trans; [apply fills_call|apply IH].
  Qed.

  Lemma fills_phase P s s' p : fills P s s' -> fills P s (set_phase s' p).
  Proof. intros H. eapply fills_trans; [exact H|]. apply fills_same; reflexivity. Qed.

  (** What waits in the deferred roster was scheduled since the last collection. *)
  Definition recent P s : Prop :=
    existsb is_limit (since is_collect (f_log s)) = false ->
    count P (held (f_later s)) <= count P (scheduled (since is_collect (f_log s))).

  Lemma fills_recent P s s' : fills P s s' -> recent P s -> recent P s'.
  Proof.
    intros (l & E & C & B) R. unfold recent in *. rewrite E, since_app by exact C. rewrite existsb_app. intros H.
    apply orb_false_iff in H as [H1 H2]. rewrite scheduled_app, count_app. specialize (R H1). specialize (B H2). lia.
  Qed.

  Lemma recent_collect P s : recent P (collect b s).
  Proof.
    unfold collect. set (s0 := note s ECollect). set (s1 := set_roster s0 _). destruct (removed b (f_world s1)) as [w services].
    pose proof (fills_call_all P (map TRemoved services) (set_world s1 w)) as F2. set (s2 := call_all b _ _) in *.
    set (s3 := set_later _ roster_new).
    assert (R3 : recent P s3 ).
    { unfold recent. intros _. cbn. rewrite held_new. lia. }
    clearbody s3. destruct (woken b (f_world s3)) as [w' awakened]. revert R3. apply fills_recent.
    apply fills_phase. eapply fills_trans; [|apply fills_call_all]. eapply fills_trans; [|apply fills_call_all].
    eapply fills_trans; [|apply fills_issue]. apply fills_same; reflexivity.
  Qed.

  Lemma fills_despawn P gone s : fills P s (fold_left (despawn_one b) gone s).
  Proof.
    revert s. induction gone as [|e gone IH]; intros s; [apply fills_same; reflexivity|]. cbn [fold_left].
    eapply fills_trans; [|apply IH]. unfold despawn_one. eapply fills_trans; [|apply fills_note; reflexivity]. apply fills_same; reflexivity.
  Qed.

  Lemma fills_top P s : fills P s (top b s).
  Proof.
    unfold top. destruct (ro_is_empty (f_roster s)); [apply fills_phase, fills_note; reflexivity|].
    pose proof (fills_despawn P (r_despawn (f_roster s)) (set_roster s (with_despawn (f_roster s) []))) as K.
    assert (K1 : fills P s (fold_left (despawn_one b) (r_despawn (f_roster s)) (set_roster s (with_despawn (f_roster s) [])))).
    { eapply fills_trans; [|exact K]. apply fills_same; reflexivity. }
    clear K. unfold despawn_one in K1. set (s1 := fold_left _ _ _) in *. clearbody s1. cbn.
    assert (GO : fills P s (set_phase (note (set_count (set_limits s1 (loop_limit b (f_world s1), channel_limit b (f_world s1))) (S (f_count s1))) EIter) (Clean ATop))).
    { apply fills_phase. eapply fills_trans; [exact K1|]. eapply fills_trans; [|apply fills_note; reflexivity]. apply fills_same; reflexivity. }
    destruct (loop_limit b (f_world s1)) as [limit|]; [destruct (limit <=? f_count s1)|]; try exact GO.
    apply fills_phase. eapply fills_trans; [exact K1|]. exists [ELimit (f_count s1); EEnd].
    cbn. rewrite <- app_assoc. split; [reflexivity|]. split; [reflexivity|discriminate].
  Qed.

  Lemma recent_step P s i : recent P s -> recent P (fstep b s i).
  Proof.
    assert (PO : forall s r, fills P s (set_roster s r)) by (intros; apply fills_same; reflexivity).
    intros H. destruct i as [| |f cmds]; cbn [fstep].
    - unfold tick. destruct (f_phase s) as [|n| | | |k|k| | |] eqn:PH.
      + exact H.
      + apply (fills_recent P s); [|exact H]. unfold receive. destruct (poll b (f_world s)) as [w its]. cbn [f_channel set_channel set_world].
        destruct (f_channel s ++ its) as [|i rest]; [apply fills_phase, fills_same; reflexivity|].
        match goal with |- context [call b (TItem i) ?x] => assert (K : fills P s (call b (TItem i) x)) end.
        { eapply fills_trans; [|apply fills_call]. apply fills_same; reflexivity. }
        match goal with K : fills P s ?x |- _ => set (s1 := x) in * end. clearbody s1.
        destruct (snd (f_limits s1)) as [limit|]; [destruct (limit <=? n)|]; try (apply fills_phase; exact K).
        apply fills_phase. eapply fills_trans; [exact K|apply fills_note; reflexivity].
      + apply recent_collect.
      + destruct (pop_last _) as [rest [d|]]; [|exact H]. apply (fills_recent P s); [|exact H]. eapply fills_trans; [apply PO|apply fills_call].
      + apply (fills_recent P s); [|exact H]. apply fills_top.
      + destruct (pop_last _) as [rest [d|]]; [|exact H]. apply (fills_recent P s); [|exact H]. eapply fills_trans; [apply PO|apply fills_call].
      + destruct (r_cancel (f_roster s)).
        * destruct k; try exact H. apply (fills_recent P s); [|exact H]. unfold counted. cbn.
          destruct (fst (f_limits s)); [destruct (_ <=? _)|]; try (apply fills_phase, fills_same; reflexivity).
          apply fills_phase. eapply fills_trans; [|apply fills_note; reflexivity]. apply fills_same; reflexivity.
        * apply (fills_recent P s); [|exact H]. eapply fills_trans; [apply PO|apply fills_call].
      + destruct (r_unblock (f_roster s)); [exact H|]. apply (fills_recent P s); [|exact H]. apply fills_phase. eapply fills_trans; [apply PO|apply fills_call].
      + destruct (r_queue (f_roster s)); [exact H|]. apply (fills_recent P s); [|exact H]. apply fills_phase. eapply fills_trans; [apply PO|apply fills_call].
      + destruct (r_awake (f_roster s)); [exact H|]. apply (fills_recent P s); [|exact H]. apply fills_phase. eapply fills_trans; [apply PO|apply fills_call].
    - destruct (f_phase s) eqn:PH; try exact H. apply (fills_recent P s); [|exact H]. apply fills_phase.
      eapply fills_trans; [apply (fills_note P s EStart); reflexivity|]. apply fills_same; reflexivity.
    - destruct (f_phase s) eqn:PH; try exact H. apply (fills_recent P s); [|exact H].
      eapply fills_trans; [|apply fills_issue]. apply fills_same; reflexivity.
  Qed.

  Lemma recent_run P w is : recent P (frun b w is).
  Proof.
    induction is as [|i is IH] using rev_ind; [intros _; cbn; rewrite held_new; lia|]. rewrite run_snoc. apply recent_step, IH.
  Qed.

  Lemma drained_run P w is : spared P (f_log (frun b w is)) -> f_phase (frun b w is) = Idle ->
    existsb is_limit (since is_collect (f_log (frun b w is))) = false ->
    count P (scheduled (f_log (frun b w is))) <=
      count P (done (f_log (frun b w is))) + count P (scheduled (since is_collect (f_log (frun b w is)))).
  Proof.
    intros SP PH NL. destruct (run_balance b w is P SP) as [B IE]. pose proof (recent_run P w is NL) as R.
    unfold balance in B. rewrite (held_empty P (f_roster (frun b w is))) in B by (apply IE, PH). lia.
  Qed.

  (** ** Order across collections: nothing overtakes the queue. *)
  Definition ahead s s' : Prop :=
    exists l, f_log s' = f_log s ++ l /\
      (unpurged l -> ~ In EEnd l -> exists more, executions l ++ r_queue (f_roster s') = r_queue (f_roster s) ++ more).

  Lemma ahead_trans s1 s2 s3 : ahead s1 s2 -> ahead s2 s3 -> ahead s1 s3.
  Proof.
    intros (l1 & E1 & Q1) (l2 & E2 & Q2). exists (l1 ++ l2). split; [rewrite E2, E1, app_assoc; reflexivity|].
    intros U NE. apply unpurged_app in U as [U1 U2]. rewrite in_app_iff in NE.
    destruct Q1 as [m1 Q1]; [assumption|tauto|]. destruct Q2 as [m2 Q2]; [assumption|tauto|].
    exists (m1 ++ m2). rewrite executions_app, <- app_assoc, Q2, app_assoc, Q1, <- app_assoc. reflexivity.
  Qed.

  Lemma fifo_ahead s s' : fifo s s' -> (forall l, f_log s' = f_log s ++ l -> ~ In ECollect l) -> ahead s s'.
  Proof. intros (l & E & Q) NC. exists l. split; [exact E|]. intros U NE. exists (queued l). apply Q; auto. Qed.

  Lemma ahead_same s s' : f_log s' = f_log s -> r_queue (f_roster s') = r_queue (f_roster s) -> ahead s s'.
  Proof. intros E1 E2. exists []. rewrite app_nil_r. split; [exact E1|]. intros _ _. exists []. rewrite app_nil_r, E2. reflexivity. Qed.

  Lemma ahead_call t s : executions [@ERun item t] = [] -> ahead s (call b t s).
  Proof.
    intros H. destruct (call_queue b t s) as (l & E & F & _ & Q). exists (ERun t :: l). split; [exact E|].
    change (ERun t :: l) with ([ERun t] ++ l). intros U _. apply unpurged_app in U as [_ U]. exists (queued l).
    rewrite executions_app, H, (Q U). destruct (scheduled_quiet l F) as (-> & _). reflexivity.
  Qed.

  Lemma ahead_call_all ts s : (forall t, In t ts -> executions [@ERun item t] = []) -> ahead s (call_all b ts s).
  Proof.
    revert s. induction ts as [|t ts IH]; intros s H; [apply ahead_same; reflexivity|]. unfold call_all. cbn [fold_left].
    eapply ahead_trans; [apply ahead_call, H; left; reflexivity|]. apply IH. intros t' Ht. apply H. right. exact Ht.
  Qed.

  Lemma ahead_issue cmds s : ahead s (fold_left issue cmds s).
  Proof.
    destruct (issue_all cmds s) as (l & E & F & EL & _). exists l. split; [exact E|]. intros U _. exists (queued l).
    rewrite (issue_queue _ _ l EL U). destruct (scheduled_quiet l F) as (-> & _). reflexivity.
  Qed.

  Lemma ahead_collect s : ahead s (collect b s).
  Proof.
    unfold collect. set (s0 := note s ECollect).
    set (s1 := set_roster s0 _).
    assert (K1 : ahead s s1).
    { exists [ECollect]. split; [reflexivity|]. intros _ _. exists (r_deferred (f_roster s)). reflexivity. }
    clearbody s1. destruct (removed b (f_world s1)) as [w services].
    set (s2 := call_all b _ _).
    assert (K2 : ahead s s2).
    { eapply ahead_trans; [exact K1|]. eapply ahead_trans; [|apply ahead_call_all]; [apply ahead_same; reflexivity|].
      intros t Ht. apply in_map_iff in Ht as (x & <- & _). reflexivity. }
    clearbody s2. set (s3 := set_later _ roster_new).
    assert (K3 : ahead s s3).
    { eapply ahead_trans; [exact K2|]. exists []. rewrite app_nil_r. split; [reflexivity|]. intros _ _. exists (r_queue (f_later s2)). reflexivity. }
    clearbody s3. destruct (woken b (f_world s3)) as [w' awakened]. set (s4 := fold_left issue _ _).
    assert (K4 : ahead s s4).
    { eapply ahead_trans; [exact K3|]. eapply ahead_trans; [|apply ahead_issue]. apply ahead_same; reflexivity. }
    clearbody s4.
    match goal with |- ahead s (set_phase ?x Validate) => apply (ahead_trans s x); [|apply ahead_same; reflexivity] end.
    eapply ahead_trans; [exact K4|]. eapply ahead_trans; apply ahead_call_all; intros t Ht; apply in_map_iff in Ht as (x & <- & _); reflexivity.
  Qed.

  Lemma ahead_step s i : idle_empty s -> ahead s (fstep b s i).
  Proof.
    intros H.
    assert (D : i = Tick /\ f_phase s = Collect \/ ~ (i = Tick /\ f_phase s = Collect)).
    { destruct i; try (right; intros [? _]; discriminate). destruct (f_phase s); try (right; intros [_ ?]; discriminate). left. auto. }
    destruct D as [[-> PH]|ND].
    - cbn. unfold tick. rewrite PH. apply ahead_collect.
    - pose proof (fifo_step b s i H) as FF. apply fifo_ahead; [exact FF|].
      (* no other step collects *)
      intros l E Hi. clear FF.
      assert (NC : fills (fun _ => true) s (fstep b s i)).
      { destruct i as [| |f cmds]; cbn [fstep].
        - unfold tick. destruct (f_phase s) as [|n| | | |k|k| | |] eqn:PH; try (exfalso; apply ND; auto; fail).
          + apply fills_same; reflexivity.
          + unfold receive. destruct (poll b (f_world s)) as [w its]. cbn [f_channel set_channel set_world].
            destruct (f_channel s ++ its) as [|i rest]; [apply fills_phase, fills_same; reflexivity|].
            match goal with |- context [call b (TItem i) ?x] => assert (K : fills (fun _ => true) s (call b (TItem i) x)) end.
            { eapply fills_trans; [|apply fills_call]. apply fills_same; reflexivity. }
            match goal with K : fills _ s ?x |- _ => set (s1 := x) in * end. clearbody s1.
            destruct (snd (f_limits s1)) as [limit|]; [destruct (limit <=? n)|]; try (apply fills_phase; exact K).
            apply fills_phase. eapply fills_trans; [exact K|apply fills_note; reflexivity].
          + destruct (pop_last _) as [rest [d|]]; [|apply fills_phase, fills_same; reflexivity]. eapply fills_trans; [|apply fills_call]. apply fills_same; reflexivity.
          + apply fills_top.
          + destruct (pop_last _) as [rest [d|]]; [|apply fills_phase, fills_same; reflexivity]. eapply fills_trans; [|apply fills_call]. apply fills_same; reflexivity.
          + destruct (r_cancel (f_roster s)).
            * destruct k; try (apply fills_phase, fills_same; reflexivity). unfold counted. cbn.
              destruct (fst (f_limits s)); [destruct (_ <=? _)|]; try (apply fills_phase, fills_same; reflexivity).
              apply fills_phase. eapply fills_trans; [|apply fills_note; reflexivity]. apply fills_same; reflexivity.
            * eapply fills_trans; [|apply fills_call]. apply fills_same; reflexivity.
          + destruct (r_unblock (f_roster s)); apply fills_phase; [apply fills_same; reflexivity|]. eapply fills_trans; [|apply fills_call]. apply fills_same; reflexivity.
          + destruct (r_queue (f_roster s)); apply fills_phase; [apply fills_same; reflexivity|]. eapply fills_trans; [|apply fills_call]. apply fills_same; reflexivity.
          + destruct (r_awake (f_roster s)); apply fills_phase; [apply fills_same; reflexivity|]. eapply fills_trans; [|apply fills_call]. apply fills_same; reflexivity.
        - destruct (f_phase s); try (apply fills_same; reflexivity). apply fills_phase.
          eapply fills_trans; [apply (fills_note _ s EStart); reflexivity|]. apply fills_same; reflexivity.
        - destruct (f_phase s); try (apply fills_same; reflexivity).
          eapply fills_trans; [|apply fills_issue]. apply fills_same; reflexivity. }
      destruct NC as (l' & E' & C & _). rewrite E in E'. apply app_inv_head in E'. subst l'.
      assert (X : existsb is_collect l = true) by (apply existsb_exists; exists ECollect; auto). congruence.
  Qed.

  Lemma ahead_run w is is' : ahead (frun b w is) (frun b w (is ++ is')).
  Proof.
    induction is' as [|i is' IH] using rev_ind.
    - rewrite app_nil_r. apply ahead_same; reflexivity.
    - rewrite app_assoc, run_snoc. eapply ahead_trans; [exact IH|]. apply ahead_step, idle_run.
  Qed.
End FlushProofs4.
