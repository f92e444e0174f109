(** Proofs about the flush: order of executions and limits. *)
From Verif Require Import Base RosterModel FlushModel FlushSpec FlushProofs.

Section FlushProofs2.
  Context {W item : Type}.
  Notation log := (list (event item)).
  Implicit Types (s : fstate W item).
  Local Arguments executions {item} l : simpl never.
  Local Arguments queued {item} l : simpl never.
  Local Arguments received {item} l : simpl never.

  Lemma executions_app (a b : log) : executions (a ++ b) = executions a ++ executions b.
  Proof. apply flat_map_app. Qed.
  Lemma queued_app (a b : log) : queued (a ++ b) = queued a ++ queued b.
  Proof. apply flat_map_app. Qed.
  Lemma received_app (a b : log) : received (a ++ b) = received a ++ received b.
  Proof. apply flat_map_app. Qed.

  Lemma unpurged_app (a b : log) : unpurged (a ++ b) <-> unpurged a /\ unpurged b.
  Proof.
    unfold unpurged. split.
    - intros H. split; intros e Hi; apply (H e), in_or_app; auto.
    - intros [H1 H2] e Hi. apply in_app_or in Hi as [Hi|Hi]; [apply (H1 e Hi)|apply (H2 e Hi)].
  Qed.

  Lemma scheduled_quiet (l : log) : Forall is_scheduled l ->
    executions l = [] /\ received l = [] /\ existsb is_start l = false /\ existsb is_collect l = false /\ filter is_iter l = [] /\
    ~ In ECollect l /\ ~ In EEnd l.
  Proof.
    induction 1 as [|e l (h & c & ->) _ (I1 & I2 & I3 & I4 & I5 & I6 & I7)]; [cbn; tauto|].
    unfold executions, received in *. cbn. repeat split; auto; intros [D|D]; try discriminate; auto.
  Qed.

  (** ** Order *)
  Lemma issue_queue cmds s (l : log) : l = map (fun hc => EScheduled (fst hc) (snd hc)) cmds -> unpurged l ->
    r_queue (f_roster (fold_left issue cmds s)) = r_queue (f_roster s) ++ queued l.
  Proof.
    intros -> U. revert s U. induction cmds as [|[h c] cmds IH]; intros s U; cbn [fold_left map fst snd].
    - unfold queued. cbn. symmetry. apply app_nil_r.
    - rewrite IH; [|intros e Hi; apply (U e); right; exact Hi].
      change (EScheduled h c :: ?l) with ([EScheduled h c] ++ l).
      match goal with |- context [EScheduled h c :: ?l] => change (EScheduled h c :: l) with ([@EScheduled item h c] ++ l) end.
      rewrite queued_app, app_assoc. f_equal. unfold issue, queued. destruct h; cbn; [|symmetry; apply app_nil_r].
      destruct c; cbn; rewrite ?app_nil_r; try reflexivity. exfalso. apply (U e). left. reflexivity.
  Qed.

  Context (b : behaviour W item).

  Lemma call_queue t s : exists l, f_log (call b t s) = f_log s ++ ERun t :: l /\ Forall is_scheduled l /\ same_rest s (call b t s) /\
    (unpurged l -> r_queue (f_roster (call b t s)) = r_queue (f_roster s) ++ queued l).
  Proof.
    unfold call. destruct (act b t (f_world s)) as [w cmds].
    destruct (issue_all cmds (note (set_world s w) (ERun t))) as (l & E & F & EL & R & _ & _).
    exists l. split; [rewrite E; cbn; rewrite <- app_assoc; reflexivity|]. split; [exact F|]. split; [exact R|].
    intros U. rewrite (issue_queue _ _ l EL U). reflexivity.
  Qed.

  Definition fifo s s' : Prop :=
    exists l, f_log s' = f_log s ++ l /\
      (unpurged l -> ~ In ECollect l -> ~ In EEnd l ->
       executions l ++ r_queue (f_roster s') = r_queue (f_roster s) ++ queued l).

  Lemma fifo_trans s1 s2 s3 : fifo s1 s2 -> fifo s2 s3 -> fifo s1 s3.
  Proof.
    intros (l1 & E1 & Q1) (l2 & E2 & Q2). exists (l1 ++ l2). split; [rewrite E2, E1, app_assoc; reflexivity|].
    intros U NC NE. apply unpurged_app in U as [U1 U2]. rewrite in_app_iff in NC, NE.
    rewrite executions_app, queued_app, app_assoc, <- Q1 by tauto. rewrite <- !app_assoc, Q2 by tauto. reflexivity.
  Qed.

  Lemma fifo_same s s' : f_log s' = f_log s -> r_queue (f_roster s') = r_queue (f_roster s) -> fifo s s'.
  Proof.
    intros E1 E2. exists []. rewrite app_nil_r. split; [exact E1|]. intros _ _ _. unfold executions, queued. cbn.
    rewrite app_nil_r, E2. reflexivity.
  Qed.

  Lemma fifo_note s e : executions [e] = [] -> queued [e] = [] -> fifo s (note s e).
  Proof. intros E1 E2. exists [e]. split; [reflexivity|]. intros _ _ _. rewrite E1, E2, app_nil_r. reflexivity. Qed.

  Lemma fifo_ends s s' l : f_log s' = f_log s ++ l -> In ECollect l \/ In EEnd l -> fifo s s'.
  Proof. intros E H. exists l. split; [exact E|]. intros _ N1 N2. exfalso. tauto. Qed.

  Lemma fifo_call t s : executions [ERun t] = [] -> fifo s (call b t s).
  Proof.
    intros H. destruct (call_queue t s) as (l & E & F & _ & Q). exists (ERun t :: l). split; [exact E|].
    change (ERun t :: l) with ([ERun t] ++ l). intros U _ _. apply unpurged_app in U as [_ U].
    rewrite executions_app, queued_app, H, (Q U). destruct (scheduled_quiet l F) as (-> & _). reflexivity.
  Qed.

  Lemma fifo_exec e rest s : r_queue (f_roster s) = e :: rest -> fifo s (call b (TExec e) (set_roster s (with_queue (f_roster s) rest))).
  Proof.
    intros EQ. destruct (call_queue (TExec e) (set_roster s (with_queue (f_roster s) rest))) as (l & E & F & _ & Q).
    exists (ERun (TExec e) :: l). split; [exact E|].
    change (ERun (TExec e) :: l) with ([ERun (TExec e)] ++ l). intros U _ _. apply unpurged_app in U as [_ U].
    rewrite executions_app, queued_app, (Q U), EQ. destruct (scheduled_quiet l F) as (-> & _). reflexivity.
  Qed.

  Lemma fifo_phase s s' p : fifo s s' -> fifo s (set_phase s' p).
  Proof. intros H. eapply fifo_trans; [exact H|]. apply fifo_same; reflexivity. Qed.

  Lemma collect_log s : exists l, f_log (collect b s) = f_log s ++ ECollect :: l /\
    executions l = [] /\ received l = [] /\ existsb is_start l = false /\ existsb is_collect l = false /\ filter is_iter l = [] /\
    f_limits (collect b s) = f_limits s /\ f_count (collect b s) = f_count s /\ f_phase (collect b s) = Validate.
  Proof.
    unfold collect. set (s0 := note s ECollect). set (s1 := set_roster s0 _).
    destruct (removed b (f_world s1)) as [w services].
    destruct (call_all_spec b (map TRemoved services) (set_world s1 w)) as (l2 & E2 & F2 & (_ & C2 & L2 & _) & _).
    { intros t Ht. apply in_map_iff in Ht as (x & <- & _). reflexivity. }
    set (s2 := call_all b _ _) in *. clearbody s2.
    set (s3 := set_later _ roster_new). destruct (woken b (f_world s3)) as [w' awakened].
    destruct (issue_all (map (fun e => (true, CAwake e)) awakened) (set_world s3 w')) as (l4 & E4 & F4 & _ & (_ & C4 & L4 & _) & _).
    set (s4 := fold_left issue _ _) in *. clearbody s4.
    set (t5 := map _ (filter snd _)). set (t6 := map _ (filter _ (unused b (f_world s4)))).
    assert (P5 : forall t, In t t5 -> exists x, t = TFinish x).
    { intros t Ht. apply in_map_iff in Ht as (x & <- & _). eexists. reflexivity. }
    assert (P6 : forall t, In t t6 -> exists x, t = TDrop x).
    { intros t Ht. apply in_map_iff in Ht as (x & <- & _). eexists. reflexivity. }
    assert (P2 : forall t, In t (map (@TRemoved item) services) -> exists x, t = TRemoved x).
    { intros t Ht. apply in_map_iff in Ht as (x & <- & _). eexists. reflexivity. }
    clearbody t5 t6.
    destruct (call_all_spec b t5 s4) as (l5 & E5 & F5 & (_ & C5 & L5 & _) & _).
    { intros t Ht. destruct (P5 t Ht) as [x ->]. reflexivity. }
    destruct (call_all_spec b t6 (call_all b t5 s4)) as (l6 & E6 & F6 & (_ & C6 & L6 & _) & _).
    { intros t Ht. destruct (P6 t Ht) as [x ->]. reflexivity. }
    assert (Q : forall ts (l : log), (forall t, In t ts -> exists x, t = TRemoved x \/ t = TFinish x \/ t = TDrop x) -> Forall (comes_from ts) l ->
      executions l = [] /\ received l = [] /\ existsb is_start l = false /\ existsb is_collect l = false /\ filter is_iter l = []).
    { clear. intros ts l HT. induction 1 as [|e l He _ (I1 & I2 & I3 & I4 & I5)]; [cbn; auto|].
      unfold executions, received in *. destruct He as [(h & c & ->)|(t & Ht & ->)]; [cbn; auto|].
      destruct (HT t Ht) as [x [->|[->| ->]]]; cbn; auto. }
    exists (l2 ++ l4 ++ l5 ++ l6).
    split; [cbn [set_phase f_log]; rewrite E6, E5, E4; unfold s3; cbn [set_world set_later set_roster f_log]; rewrite E2; unfold s1, s0; cbn;
      rewrite <- !app_assoc; reflexivity|].
    destruct (Q _ l2 (fun t Ht => match P2 t Ht with ex_intro _ x E => ex_intro _ x (or_introl E) end) F2) as (A1 & A2 & A3 & A4 & A5).
    destruct (Q _ l5 (fun t Ht => match P5 t Ht with ex_intro _ x E => ex_intro _ x (or_intror (or_introl E)) end) F5) as (B1 & B2 & B3 & B4 & B5).
    destruct (Q _ l6 (fun t Ht => match P6 t Ht with ex_intro _ x E => ex_intro _ x (or_intror (or_intror E)) end) F6) as (D1 & D2 & D3 & D4 & D5).
    destruct (scheduled_quiet l4 F4) as (G1 & G2 & G3 & G4 & G5 & _).
    rewrite !executions_app, !received_app, !existsb_app, !filter_app, A1, A2, A3, A4, A5, B1, B2, B3, B4, B5, D1, D2, D3, D4, D5, G1, G2, G3, G4, G5.
    repeat split; cbn; [rewrite L6, L5, L4|rewrite C6, C5, C4]; unfold s3; cbn; rewrite ?L2, ?C2; reflexivity.
  Qed.

  Lemma fifo_receive n s : fifo s (receive b n s).
  Proof.
    unfold receive. destruct (poll b (f_world s)) as [w items]. cbn [f_channel set_channel set_world].
    destruct (f_channel s ++ items) as [|i rest].
    - apply fifo_phase, fifo_same; reflexivity.
    - match goal with |- context [call b (TItem i) ?x] => assert (K : fifo s (call b (TItem i) x)) end.
      { eapply fifo_trans; [|apply fifo_call; reflexivity]. apply fifo_same; reflexivity. }
      match goal with K : fifo s ?x |- _ => set (s1 := x) in * end. clearbody s1.
      destruct (snd (f_limits s1)) as [limit|]; [destruct (limit <=? n)|]; try (apply fifo_phase; exact K).
      apply fifo_phase. eapply fifo_trans; [exact K|apply fifo_note; reflexivity].
  Qed.

  Lemma top_log s : exists l, f_log (top b s) = f_log s ++ l /\
    executions l = [] /\ received l = [] /\ existsb is_start l = false /\ existsb is_collect l = false /\
    ((In EEnd l /\ f_phase (top b s) = Idle /\ filter is_iter l = []) \/
     (f_phase (top b s) = Clean ATop /\ f_count (top b s) = S (f_count s) /\ filter is_iter l = [EIter] /\ queued l = [] /\
      r_queue (f_roster (top b s)) = r_queue (f_roster s) /\ f_limits (top b s) = (loop_limit b (f_world (top b s)), channel_limit b (f_world (top b s))) /\
      forall n, fst (f_limits (top b s)) = Some n -> f_count s < n)).
  Proof.
    unfold top. destruct (ro_is_empty (f_roster s)) eqn:E.
    { exists [EEnd]. cbn. repeat split; auto. }
    pose proof (despawned b (r_despawn (f_roster s)) (set_roster s (with_despawn (f_roster s) []))) as D.
    unfold despawn_one in D. set (s1 := fold_left _ _ _) in *. clearbody s1. destruct D as (E1 & E2 & E3 & (R1 & R2 & R3 & R4)).
    set (gone := r_despawn (f_roster s)) in *. clearbody gone. cbn in E1, E2, E3, R1, R2, R3, R4.
    assert (Q : let l := map (fun e => @ERun item (TDespawn e)) gone in
      executions l = [] /\ received l = [] /\ existsb is_start l = false /\ existsb is_collect l = false /\ filter is_iter l = [] /\ queued l = []).
    { clear. induction gone as [|e gone (I1 & I2 & I3 & I4 & I5 & I6)]; cbn in *; [repeat split; reflexivity|].
      unfold executions, received, queued in *. cbn. auto 10. }
    cbn zeta in Q. set (lg := map _ gone) in *. clearbody lg. destruct Q as (I1 & I2 & I3 & I4 & I5 & I6).
    cbn. destruct (loop_limit b (f_world s1)) as [limit|] eqn:LL; [destruct (limit <=? f_count s1) eqn:LC|]; cbn; rewrite E3.
    - exists (lg ++ [ELimit (f_count s1); EEnd]). rewrite <- !app_assoc. split; [reflexivity|].
      rewrite executions_app, received_app, !existsb_app, filter_app, I1, I2, I3, I4, I5. cbn.
      repeat split; auto. left. repeat split; auto. apply in_or_app. cbn. auto.
    - exists (lg ++ [EIter]). rewrite <- !app_assoc. split; [reflexivity|].
      rewrite executions_app, received_app, !existsb_app, filter_app, queued_app, I1, I2, I3, I4, I5, I6. cbn.
      repeat split; auto. right. rewrite E1, R2. cbn. repeat split; auto; [rewrite LL; reflexivity|]. intros n [= <-]. apply Nat.leb_gt in LC. rewrite <- R2. exact LC.
    - exists (lg ++ [EIter]). rewrite <- !app_assoc. split; [reflexivity|].
      rewrite executions_app, received_app, !existsb_app, filter_app, queued_app, I1, I2, I3, I4, I5, I6. cbn.
      repeat split; auto. right. rewrite E1, R2. cbn. repeat split; auto; [rewrite LL; reflexivity|discriminate].
  Qed.

  Lemma fifo_tick s : fifo s (tick b s).
  Proof.
    unfold tick. destruct (f_phase s) as [|n| | | |k|k| | |] eqn:PH.
    - apply fifo_same; reflexivity.
    - apply fifo_receive.
    - destruct (collect_log s) as (l & E & _). eapply fifo_ends; [exact E|cbn; auto].
    - destruct (pop_last _) as [rest [d|]]; [|apply fifo_phase, fifo_same; reflexivity].
      eapply fifo_trans; [|apply fifo_call; reflexivity]. apply fifo_same; reflexivity.
    - destruct (top_log s) as (l & E & X & _ & _ & _ & [(HE & _)|(_ & _ & _ & Q & RQ & _)]).
      + eapply fifo_ends; [exact E|auto].
      + exists l. split; [exact E|]. intros _ _ _. rewrite X, Q, RQ, app_nil_r. reflexivity.
    - destruct (pop_last _) as [rest [d|]]; [|apply fifo_phase, fifo_same; reflexivity].
      eapply fifo_trans; [|apply fifo_call; reflexivity]. apply fifo_same; reflexivity.
    - destruct (r_cancel (f_roster s)) as [|c rest].
      + destruct k; try (apply fifo_phase, fifo_same; reflexivity). unfold counted. cbn.
        destruct (fst (f_limits s)); [destruct (_ <=? _)|]; try (apply fifo_phase, fifo_same; reflexivity).
        apply fifo_phase. eapply fifo_trans; [|apply fifo_note; reflexivity]. apply fifo_same; reflexivity.
      + eapply fifo_trans; [|apply fifo_call; reflexivity]. apply fifo_same; reflexivity.
    - destruct (r_unblock (f_roster s)) as [|c rest]; [apply fifo_phase, fifo_same; reflexivity|].
      apply fifo_phase. eapply fifo_trans; [|apply fifo_call; reflexivity]. apply fifo_same; reflexivity.
    - destruct (r_queue (f_roster s)) as [|c rest] eqn:E; [apply fifo_phase, fifo_same; reflexivity|].
      apply fifo_phase, fifo_exec, E.
    - destruct (r_awake (f_roster s)) as [|c rest]; [apply fifo_phase, fifo_same; reflexivity|].
      apply fifo_phase. eapply fifo_trans; [|apply fifo_call; reflexivity]. apply fifo_same; reflexivity.
  Qed.

  Lemma fifo_step s i : idle_empty s -> fifo s (fstep b s i).
  Proof.
    intros H. destruct i as [| |f cmds]; cbn [fstep]; [apply fifo_tick| |]; destruct (f_phase s) eqn:PH; try (apply fifo_same; reflexivity).
    - exists [EStart]. split; [reflexivity|]. intros _ _ _. cbn. specialize (H PH). unfold ro_is_empty in H.
      destruct (r_queue (f_roster s)); [reflexivity|discriminate].
    - destruct (issue_all (map (fun c => (false, c)) cmds) (set_world s (f (f_world s)))) as (l & E & _ & EL & _).
      exists l. split; [exact E|]. intros U _ _. rewrite (issue_queue _ _ l EL U). cbn.
      replace (executions l) with (@nil entity); [reflexivity|]. rewrite EL. clear. unfold executions. rewrite map_map.
      induction cmds as [|c cmds IH]; [reflexivity|exact IH].
  Qed.

  Lemma idle_run w is : idle_empty (frun b w is).
  Proof. induction is as [|i is IH] using rev_ind; [intros _; reflexivity|]. rewrite run_snoc. apply keeps_step, IH. Qed.

  Lemma fifo_run w is is' : fifo (frun b w is) (frun b w (is ++ is')).
  Proof.
    induction is' as [|i is' IH] using rev_ind.
    - rewrite app_nil_r. apply fifo_same; reflexivity.
    - rewrite app_assoc, run_snoc. eapply fifo_trans; [exact IH|]. apply fifo_step, idle_run.
  Qed.
End FlushProofs2.
