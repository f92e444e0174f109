(** Proofs about the flush. *)
From Verif Require Import Base RosterModel FlushModel FlushSpec.

Lemma pop_last_some {A} (l : list A) r x : pop_last l = (r, Some x) -> l = r ++ [x].
Proof.
  destruct l as [|y l'] using rev_ind; [discriminate|]. rewrite pop_last_app. intros [= -> ->]. reflexivity.
Qed.
Lemma pop_last_none {A} (l : list A) r : pop_last l = (r, None) -> l = [].
Proof. destruct l as [|y l'] using rev_ind; [reflexivity|]. rewrite pop_last_app. discriminate. Qed.

Section FlushProofs.
  Context {W item : Type}.
  Notation log := (list (event item)).
  Implicit Types (s : fstate W item) (P : job -> bool).

  Lemma count_app P a b : count P (a ++ b) = count P a + count P b.
  Proof. unfold count. rewrite filter_app, app_length. reflexivity. Qed.
  Lemma count_nil P : count P [] = 0. Proof. reflexivity. Qed.
  Lemma scheduled_app (a b : log) : scheduled (a ++ b) = scheduled a ++ scheduled b.
  Proof. apply flat_map_app. Qed.
  Lemma done_app (a b : log) : done (a ++ b) = done a ++ done b.
  Proof. apply flat_map_app. Qed.
  Lemma spared_app P (a b : log) : spared P (a ++ b) <-> spared P a /\ spared P b.
  Proof.
    unfold spared. split.
    - intros H. split; intros h e Hi; apply (H h e), in_or_app; auto.
    - intros [H1 H2] h e Hi. apply in_app_or in Hi as [Hi|Hi]; eauto.
  Qed.

  Local Arguments count : simpl never.
  Local Arguments scheduled {item} l : simpl never.
  Local Arguments done {item} l : simpl never.
  Local Arguments held : simpl never.
  Lemma scheduled_one (e : event item) : scheduled [e] = match e with EScheduled _ c => ordered c | _ => [] end.
  Proof. unfold scheduled. cbn. apply app_nil_r. Qed.
  Lemma done_one (e : event item) : done [e] = match e with ERun t => performed t | _ => [] end.
  Proof. unfold done. cbn. apply app_nil_r. Qed.

  Definition balance P s : Prop :=
    count P (scheduled (f_log s)) = count P (done (f_log s)) + count P (held (f_roster s)) + count P (held (f_later s)).

  Lemma held_append P r r' : count P (held (ro_append r r')) = count P (held r) + count P (held r').
  Proof. unfold held. cbn. rewrite !map_app, !count_app. lia. Qed.
  Lemma held_new P : count P (held roster_new) = 0. Proof. reflexivity. Qed.
  Lemma held_deferrals P r : count P (held (ro_process_deferrals r)) = count P (held r).
  Proof. unfold held. cbn. rewrite !map_app, !count_app. cbn. rewrite ?count_nil. lia. Qed.
  Lemma held_empty P r : ro_is_empty r = true -> count P (held r) = 0.
  Proof.
    unfold ro_is_empty, held. destruct (r_queue r), (r_awake r), (r_deferred r), (r_cancel r), (r_unblock r), (r_disposed r),
      (r_cleanup r), (r_despawn r); cbn; try discriminate; reflexivity.
  Qed.

  Lemma count_purge P e l : P (JExec e) = false -> count P (map JExec (filter (fun x => negb (Nat.eqb x e)) l)) = count P (map JExec l).
  Proof.
    intros E. unfold count. induction l as [|x l IH]; [reflexivity|]. cbn. destruct (Nat.eqb_spec x e) as [->|NX]; cbn.
    - rewrite E. exact IH.
    - destruct (P (JExec x)); cbn; rewrite IH; reflexivity.
  Qed.

  Lemma held_cmd P r c : (forall e, c = CPurge e -> P (JExec e) = false) ->
    count P (held (apply_cmd r c)) = count P (held r) + count P (ordered c).
  Proof.
    intros H. unfold held. destruct c; cbn -[count];
      try (rewrite !map_app, !count_app; cbn; rewrite ?count_nil, ?map_app, ?count_app; lia).
    rewrite !count_app, !count_purge by (apply H; reflexivity). rewrite count_nil. lia.
  Qed.

  (** Only the log, the rosters and the world change by commands. *)
  Definition same_rest s s' : Prop :=
    f_channel s' = f_channel s /\ f_count s' = f_count s /\ f_limits s' = f_limits s /\ f_phase s' = f_phase s.

  Definition is_scheduled (e : event item) : Prop := exists h c, e = EScheduled h c.

  Lemma issue_all cmds s : exists l, f_log (fold_left issue cmds s) = f_log s ++ l /\ Forall is_scheduled l /\
    l = map (fun hc => EScheduled (fst hc) (snd hc)) cmds /\
    same_rest s (fold_left issue cmds s) /\ f_world (fold_left issue cmds s) = f_world s /\
    forall P, spared P l -> balance P s -> balance P (fold_left issue cmds s).
  Proof.
    revert s. induction cmds as [|[h c] cmds IH]; intros s; cbn [fold_left map].
    - exists []. rewrite app_nil_r. repeat split; auto.
    - destruct (IH (issue s (h, c))) as (l & E & F & EL & (R1 & R2 & R3 & R4) & W1 & B).
      exists (EScheduled h c :: l). repeat split.
      + rewrite E. unfold issue. destruct h; cbn; rewrite <- app_assoc; reflexivity.
      + constructor; [exists h, c; reflexivity|exact F].
      + rewrite EL. reflexivity.
      + rewrite R1. unfold issue. destruct h; reflexivity.
      + rewrite R2. unfold issue. destruct h; reflexivity.
      + rewrite R3. unfold issue. destruct h; reflexivity.
      + rewrite R4. unfold issue. destruct h; reflexivity.
      + rewrite W1. unfold issue. destruct h; reflexivity.
      + intros P SP BP. apply B; [intros h' e Hi; apply (SP h' e); right; exact Hi|].
        assert (HP : forall e, c = CPurge e -> P (JExec e) = false) by (intros e ->; apply (SP h e); left; reflexivity).
        unfold balance, issue in *. destruct h; cbn -[apply_cmd] in *;
          rewrite scheduled_app, done_app, !count_app, held_cmd, scheduled_one, done_one, count_nil by exact HP; lia.
  Qed.

  Context (b : behaviour W item).

  Lemma call_spec t s : exists l, f_log (call b t s) = f_log s ++ ERun t :: l /\ Forall is_scheduled l /\ same_rest s (call b t s) /\
    forall P, spared P l -> count P (scheduled (f_log s)) =
        count P (done (f_log s)) + count P (performed t) + count P (held (f_roster s)) + count P (held (f_later s)) ->
      balance P (call b t s).
  Proof.
    unfold call. destruct (act b t (f_world s)) as [w cmds].
    destruct (issue_all cmds (note (set_world s w) (ERun t))) as (l & E & F & _ & R & _ & B).
    exists l. split; [rewrite E; cbn; rewrite <- app_assoc; reflexivity|]. split; [exact F|]. split; [exact R|].
    intros P SP H. apply B; [exact SP|]. unfold balance. cbn. rewrite scheduled_app, done_app, !count_app, scheduled_one, done_one, count_nil. lia.
  Qed.

  Definition comes_from (ts : list (task item)) (e : event item) : Prop := is_scheduled e \/ exists t, In t ts /\ e = ERun t.

  Lemma call_all_spec ts s : (forall t, In t ts -> performed t = []) ->
    exists l, f_log (call_all b ts s) = f_log s ++ l /\ Forall (comes_from ts) l /\ same_rest s (call_all b ts s) /\
      forall P, spared P l -> balance P s -> balance P (call_all b ts s).
  Proof.
    revert s. induction ts as [|t ts IH]; intros s HT; unfold call_all; cbn [fold_left].
    - exists []. rewrite app_nil_r. repeat split; auto.
    - fold (call_all b ts (call b t s)). destruct (call_spec t s) as (l1 & E1 & F1 & (A1 & A2 & A3 & A4) & B1).
      destruct (IH (call b t s)) as (l2 & E2 & F2 & (C1 & C2 & C3 & C4) & B2); [intros; apply HT; right; assumption|].
      exists (ERun t :: l1 ++ l2). split; [rewrite E2, E1, <- app_assoc; reflexivity|]. split; [|split].
      + constructor; [right; exists t; split; [left|]; reflexivity|]. apply Forall_app. split.
        * eapply Forall_impl; [|exact F1]. intros e He. left. exact He.
        * eapply Forall_impl; [|exact F2]. intros e [He|(t' & Ht & ->)]; [left; exact He|right; exists t'; split; [right|]; auto].
      + repeat split; congruence.
      + intros P SP BP. change (ERun t :: l1 ++ l2) with ([ERun t] ++ l1 ++ l2) in SP. rewrite !spared_app in SP.
        apply B2; [apply SP|]. apply B1; [apply SP|]. rewrite (HT t (or_introl eq_refl)), count_nil. unfold balance in BP. lia.
  Qed.

  (** *** One step *)
  Definition quiet (l : log) : Prop := Forall (fun e => is_scheduled e \/ exists t, e = ERun t /\ performed t = []) l.

  Lemma quiet_scheduled (l : log) : Forall is_scheduled l -> quiet l.
  Proof. apply Forall_impl. auto. Qed.

  Definition keeps s s' : Prop :=
    exists l, f_log s' = f_log s ++ l /\ forall P, spared P l -> balance P s -> balance P s'.

  Lemma keeps_trans s1 s2 s3 : keeps s1 s2 -> keeps s2 s3 -> keeps s1 s3.
  Proof.
    intros (l1 & E1 & B1) (l2 & E2 & B2). exists (l1 ++ l2). split; [rewrite E2, E1, app_assoc; reflexivity|].
    intros P SP BP. apply spared_app in SP as [S1 S2]. auto.
  Qed.

  Lemma keeps_same s s' : f_log s' = f_log s -> f_roster s' = f_roster s -> f_later s' = f_later s -> keeps s s'.
  Proof. intros E1 E2 E3. exists []. rewrite app_nil_r. split; [exact E1|]. intros P _ B. unfold balance in *. rewrite E1, E2, E3. exact B. Qed.

  Lemma keeps_refl s : keeps s s.
  Proof. apply keeps_same; reflexivity. Qed.

  Lemma keeps_moved s s' : f_log s' = f_log s -> (forall P, count P (held (f_roster s')) + count P (held (f_later s')) =
      count P (held (f_roster s)) + count P (held (f_later s))) -> keeps s s'.
  Proof. intros E1 E2. exists []. rewrite app_nil_r. split; [exact E1|]. intros P _ B. unfold balance in *. specialize (E2 P). rewrite E1. lia. Qed.

  (** Events which are neither scheduling nor work. *)
  Definition silent (e : event item) : Prop := match e with EScheduled _ _ => False | ERun t => performed t = [] | _ => True end.
  Lemma keeps_note s e : silent e -> keeps s (note s e).
  Proof.
    intros H. exists [e]. split; [reflexivity|]. intros P _ B. unfold balance in *. cbn.
    rewrite scheduled_app, done_app, !count_app, scheduled_one, done_one.
    destruct e; cbn in H; try contradiction; rewrite ?H, ?count_nil; lia.
  Qed.

  (** A job is taken from the roster and done. *)
  Lemma keeps_call t s r : (forall P, count P (held (f_roster s)) = count P (held r) + count P (performed t)) ->
    keeps s (call b t (set_roster s r)).
  Proof.
    intros H. destruct (call_spec t (set_roster s r)) as (l & E & _ & _ & B). exists (ERun t :: l). split; [exact E|].
    intros P SP BP. change (ERun t :: l) with ([ERun t] ++ l) in SP. apply spared_app in SP as [_ SP].
    apply B; [exact SP|]. cbn. unfold balance in BP. specialize (H P). lia.
  Qed.

  Lemma keeps_quiet_call t s : performed t = [] -> keeps s (call b t s).
  Proof.
    intros H. destruct (call_spec t s) as (l & E & _ & _ & B). exists (ERun t :: l). split; [exact E|].
    intros P SP BP. change (ERun t :: l) with ([ERun t] ++ l) in SP. apply spared_app in SP as [_ SP].
    apply B; [exact SP|]. rewrite H, count_nil. unfold balance in BP. lia.
  Qed.

  Lemma keeps_call_all ts s : (forall t, In t ts -> performed t = []) -> keeps s (call_all b ts s).
  Proof. intros H. destruct (call_all_spec ts s H) as (l & E & _ & _ & B). exists l. auto. Qed.

  Lemma keeps_issue cmds s : keeps s (fold_left issue cmds s).
  Proof. destruct (issue_all cmds s) as (l & E & _ & _ & _ & _ & B). exists l. auto. Qed.

  Lemma keeps_phase s s' p : keeps s s' -> keeps s (set_phase s' p).
  Proof. intros H. eapply keeps_trans; [exact H|]. apply keeps_same; reflexivity. Qed.

  Lemma keeps_receive n s : keeps s (receive b n s).
  Proof.
    unfold receive. destruct (poll b (f_world s)) as [w items]. cbn [f_channel set_channel set_world].
    destruct (f_channel s ++ items) as [|i rest].
    - apply keeps_phase, keeps_same; reflexivity.
    - assert (K : keeps s (call b (TItem i) (set_channel (set_channel (set_world s w) (f_channel s ++ items)) rest))).
      { eapply keeps_trans; [|apply keeps_quiet_call; reflexivity]. apply keeps_same; reflexivity. }
      cbn [set_channel f_channel] in K. unfold set_channel in *. cbn in *.
      set (s1 := call b (TItem i) _) in *. clearbody s1.
      destruct (snd (f_limits s1)) as [limit|]; [destruct (limit <=? n)|]; try (apply keeps_phase; exact K).
      apply keeps_phase. eapply keeps_trans; [exact K|apply keeps_note; exact I].
  Qed.

  Lemma keeps_collect s : keeps s (collect b s).
  Proof.
    unfold collect. set (s0 := note s ECollect). assert (K0 : keeps s s0) by (apply keeps_note; exact I). clearbody s0.
    set (s1 := set_roster s0 _).
    assert (K1 : keeps s s1).
    { eapply keeps_trans; [exact K0|]. apply keeps_moved; [reflexivity|]. intros P. unfold s1. cbn. rewrite held_deferrals. reflexivity. }
    clearbody s1. destruct (removed b (f_world s1)) as [w services].
    set (s2 := call_all b _ _).
    assert (K2 : keeps s s2).
    { eapply keeps_trans; [exact K1|]. eapply keeps_trans; [|apply keeps_call_all]; [apply keeps_same; reflexivity|].
      intros t Ht. apply in_map_iff in Ht as (x & <- & _). reflexivity. }
    clearbody s2. set (s3 := set_later _ roster_new).
    assert (K3 : keeps s s3).
    { eapply keeps_trans; [exact K2|]. apply keeps_moved; [reflexivity|]. intros P. unfold s3. cbn. rewrite held_append, held_new. lia. }
    clearbody s3. destruct (woken b (f_world s3)) as [w' awakened].
    set (s4 := fold_left issue _ _).
    assert (K4 : keeps s s4).
    { eapply keeps_trans; [exact K3|]. eapply keeps_trans; [|apply keeps_issue]. apply keeps_same; reflexivity. }
    clearbody s4. apply keeps_phase.
    eapply keeps_trans; [exact K4|]. eapply keeps_trans; apply keeps_call_all; intros t Ht; apply in_map_iff in Ht as (x & <- & _); reflexivity.
  Qed.

  (** The entities which are despawned at the top of a turn. *)
  Definition despawn_one s e := note (set_world s (fst (act b (TDespawn e) (f_world s)))) (ERun (TDespawn e)).
  Lemma despawned gone s : f_roster (fold_left despawn_one gone s) = f_roster s /\ f_later (fold_left despawn_one gone s) = f_later s /\
    f_log (fold_left despawn_one gone s) = f_log s ++ map (fun e => ERun (TDespawn e)) gone /\ same_rest s (fold_left despawn_one gone s).
  Proof.
    revert s. induction gone as [|e gone IH]; intros s; cbn [fold_left map].
    - rewrite app_nil_r. repeat split.
    - destruct (IH (despawn_one s e)) as (E1 & E2 & E3 & (R1 & R2 & R3 & R4)).
      split; [rewrite E1; reflexivity|]. split; [rewrite E2; reflexivity|].
      split; [rewrite E3; cbn; rewrite <- app_assoc; reflexivity|]. repeat split; [rewrite R1|rewrite R2|rewrite R3|rewrite R4]; reflexivity.
  Qed.

  Lemma keeps_despawn s : keeps s (fold_left despawn_one (r_despawn (f_roster s)) (set_roster s (with_despawn (f_roster s) []))).
  Proof.
    destruct (despawned (r_despawn (f_roster s)) (set_roster s (with_despawn (f_roster s) []))) as (E1 & E2 & E3 & _).
    eexists. split; [exact E3|]. intros P _ B. unfold balance in *. rewrite E1, E2, E3. cbn.
    rewrite scheduled_app, done_app, !count_app.
    assert (D : forall l, count P (scheduled (map (fun e : entity => @ERun item (TDespawn e)) l)) = 0 /\
                 count P (done (map (fun e : entity => @ERun item (TDespawn e)) l)) = count P (map JDespawn l)).
    { induction l as [|e l [I1 I2]]; [split; reflexivity|]. cbn [map].
      change (@ERun item (TDespawn e) :: map (fun e => ERun (TDespawn e)) l) with ([@ERun item (TDespawn e)] ++ map (fun e => ERun (TDespawn e)) l).
      change (JDespawn e :: map JDespawn l) with ([JDespawn e] ++ map JDespawn l).
      rewrite scheduled_app, done_app, !count_app, I1, I2, scheduled_one, done_one, count_nil. split; reflexivity. }
    destruct (D (r_despawn (f_roster s))) as [D1 D2]. rewrite D1, D2.
    unfold held in *. cbn. rewrite !count_app in *. rewrite count_nil. lia.
  Qed.

  Lemma keeps_top s : (f_phase s <> Idle) -> keeps s (top b s) /\ (f_phase (top b s) = Idle -> ro_is_empty (f_roster (top b s)) = true).
  Proof.
    intros NI. unfold top. destruct (ro_is_empty (f_roster s)) eqn:E.
    - split; [|intros _; exact E]. apply keeps_phase, keeps_note. exact I.
    - pose proof (keeps_despawn s) as K. unfold despawn_one in K.
      set (s1 := fold_left _ _ _) in *. clearbody s1.
      set (s2 := set_limits s1 _). assert (K2 : keeps s s2) by (eapply keeps_trans; [exact K|apply keeps_same; reflexivity]).
      assert (GO : keeps s (set_phase (note (set_count s2 (S (f_count s2))) EIter) (Clean ATop))).
      { apply keeps_phase. eapply keeps_trans; [exact K2|]. eapply keeps_trans; [|apply keeps_note; exact I]. apply keeps_same; reflexivity. }
      clearbody s2. destruct (fst (f_limits s2)) as [limit|]; [destruct (limit <=? f_count s2)|].
      + split; [|intros _; reflexivity]. apply keeps_phase. eapply keeps_trans; [exact K2|].
        eapply keeps_trans; [|apply keeps_note; exact I]. eapply keeps_trans; [|apply keeps_note; exact I].
        apply keeps_moved; [reflexivity|]. intros P. cbn. rewrite held_append, held_new. lia.
      + split; [exact GO|discriminate].
      + split; [exact GO|discriminate].
  Qed.

  Lemma call_phase t s : f_phase (call b t s) = f_phase s.
  Proof. destruct (call_spec t s) as (l & _ & _ & (_ & _ & _ & E) & _). exact E. Qed.

  Lemma keeps_counted s : keeps s (counted s) /\ f_phase (counted s) <> Idle.
  Proof.
    unfold counted. cbn. destruct (fst (f_limits s)) as [limit|]; [destruct (limit <=? S (f_count s))|]; split; try discriminate.
    - apply keeps_phase. eapply keeps_trans; [|apply keeps_note; exact I]. apply keeps_same; reflexivity.
    - apply keeps_phase, keeps_same; reflexivity.
    - apply keeps_phase, keeps_same; reflexivity.
  Qed.

  Definition idle_empty s : Prop := f_phase s = Idle -> ro_is_empty (f_roster s) = true.

  Ltac taken E := intros P; unfold held; cbn; rewrite ?E; rewrite ?map_app, ?count_app; cbn;
    rewrite ?count_nil; repeat match goal with |- context [count P (?x :: ?l)] =>
      lazymatch l with [] => fail | _ => change (x :: l) with ([x] ++ l); rewrite (count_app P [x] l) end end; lia.

  Lemma keeps_tick s : idle_empty s -> keeps s (tick b s) /\ idle_empty (tick b s).
  Proof.
    intros H. unfold tick. destruct (f_phase s) as [|n| | | |k|k| | |] eqn:PH.
    - split; [apply keeps_refl|exact H].
    - split; [apply keeps_receive|]. unfold idle_empty, receive. destruct (poll b (f_world s)) as [w items]. cbn.
      destruct (f_channel s ++ items); [discriminate|]. destruct (snd (f_limits _)); [destruct (_ <=? n)|]; discriminate.
    - split; [apply keeps_collect|]. unfold idle_empty, collect. destruct (removed _ _), (woken _ _). discriminate.
    - destruct (pop_last (r_disposed (f_roster s))) as [rest [d|]] eqn:E.
      + apply pop_last_some in E. split; [apply keeps_call; taken E|]. unfold idle_empty. rewrite call_phase. cbn. congruence.
      + split; [apply keeps_phase, keeps_refl|discriminate].
    - apply keeps_top. congruence.
    - destruct (pop_last (r_cleanup (f_roster s))) as [rest [c|]] eqn:E.
      + apply pop_last_some in E. split; [apply keeps_call; taken E|]. unfold idle_empty. rewrite call_phase. cbn. congruence.
      + split; [apply keeps_phase, keeps_refl|discriminate].
    - destruct (r_cancel (f_roster s)) as [|c rest] eqn:E.
      + destruct k; try (split; [apply keeps_phase, keeps_refl|discriminate]).
        destruct (keeps_counted s) as [K NI]. split; [exact K|]. intros HI. contradiction.
      + split; [apply keeps_call; taken E|]. unfold idle_empty. rewrite call_phase. cbn. congruence.
    - destruct (r_unblock (f_roster s)) as [|u rest] eqn:E; [split; [apply keeps_phase, keeps_refl|discriminate]|].
      split; [apply keeps_phase, keeps_call; taken E|discriminate].
    - destruct (r_queue (f_roster s)) as [|u rest] eqn:E; [split; [apply keeps_phase, keeps_refl|discriminate]|].
      split; [apply keeps_phase, keeps_call; taken E|discriminate].
    - destruct (r_awake (f_roster s)) as [|u rest] eqn:E; [split; [apply keeps_phase, keeps_refl|discriminate]|].
      split; [apply keeps_phase, keeps_call; taken E|discriminate].
  Qed.

  Lemma keeps_step s i : idle_empty s -> keeps s (fstep b s i) /\ idle_empty (fstep b s i).
  Proof.
    intros H. destruct i as [| |f cmds]; cbn [fstep].
    - apply keeps_tick, H.
    - destruct (f_phase s) eqn:PH; try (split; [apply keeps_refl|exact H]).
      split; [|discriminate]. apply keeps_phase. eapply keeps_trans; [apply (keeps_note _ EStart I)|].
      apply keeps_moved; [reflexivity|]. intros P. cbn. rewrite held_new, (held_empty P (f_roster s)) by (apply H; exact PH). reflexivity.
    - destruct (f_phase s) eqn:PH; try (split; [apply keeps_refl|exact H]).
      split; [eapply keeps_trans; [|apply keeps_issue]; apply keeps_same; reflexivity|].
      intros HI. set (cs := map _ cmds).
      assert (R : forall cs s, f_roster (fold_left issue (map (fun c => (false, c)) cs) s) = f_roster s).
      { clear. induction cs as [|c cs IH]; intros s; [reflexivity|]. cbn [map fold_left]. rewrite IH. reflexivity. }
      unfold cs. rewrite R. cbn. apply H, PH.
  Qed.

  Lemma run_snoc w is i : frun b w (is ++ [i]) = fstep b (frun b w is) i.
  Proof. unfold frun. rewrite fold_left_app. reflexivity. Qed.

  Lemma run_balance w is P : spared P (f_log (frun b w is)) -> balance P (frun b w is) /\ idle_empty (frun b w is).
  Proof.
    induction is as [|i is IH] using rev_ind; intros SP; [split; [reflexivity|intros _; reflexivity]|].
    rewrite run_snoc in *.
    assert (IE : idle_empty (frun b w is)).
    { clear. induction is as [|i is IH] using rev_ind; [intros _; reflexivity|]. rewrite run_snoc. apply keeps_step, IH. }
    destruct (keeps_step _ i IE) as [(l & E & B) IE']. rewrite E in SP. apply spared_app in SP as [S1 S2].
    split; [|exact IE']. apply B; [exact S2|]. apply IH, S1.
  Qed.
End FlushProofs.
