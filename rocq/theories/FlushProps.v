(** C28 and C29: a flush neither loses nor repeats work, and its limits. *)
From Verif Require Import Base RosterModel FlushModel FlushSpec FlushProofs FlushProofs2 FlushProofs3 FlushProofs4.

(** At every moment of every run, whatever the operations do and whatever the limits are: of
    the jobs which are not purged, the number that was scheduled is the number that was done plus the number
    that still is in one of the two rosters. [P] may select a single job, so that this holds for each job. Between
    flushes all that remains is in the roster for the next flush. *)
Theorem C28_conserved {W item} (b : behaviour W item) w is P :
  spared P (f_log (frun b w is)) ->
  count P (scheduled (f_log (frun b w is))) =
    count P (done (f_log (frun b w is))) + count P (held (f_roster (frun b w is))) + count P (held (f_later (frun b w is))) /\
  (f_phase (frun b w is) = Idle -> count P (held (f_roster (frun b w is))) = 0).
Proof.
  intros SP. destruct (run_balance b w is P SP) as [B IE]. split; [exact B|]. intros PH. apply held_empty, IE, PH.
Qed.
Print Assumptions C28_conserved.

(** When a flush ends without having reached the limit, everything which was scheduled before its
    last collection was done. *)
Theorem C28_drained {W item} (b : behaviour W item) w is P :
  spared P (f_log (frun b w is)) -> f_phase (frun b w is) = Idle ->
  existsb is_limit (since is_collect (f_log (frun b w is))) = false ->
  count P (scheduled (f_log (frun b w is))) <=
    count P (done (f_log (frun b w is))) + count P (scheduled (since is_collect (f_log (frun b w is)))).
Proof. exact (drained_run b P w is). Qed.
Print Assumptions C28_drained.

(** Operations are executed in the order in which they were queued: from any moment on and until the next collection
    or the end of the flush, what is executed, followed by what is queued at the end, is what was queued at the beginning
    followed by what was queued since. *)
Theorem C28_order {W item} (b : behaviour W item) w is is' l :
  f_log (frun b w (is ++ is')) = f_log (frun b w is) ++ l -> unpurged l -> ~ In ECollect l -> ~ In EEnd l ->
  executions l ++ r_queue (f_roster (frun b w (is ++ is'))) = r_queue (f_roster (frun b w is)) ++ queued l.
Proof.
  intros E. destruct (fifo_run b w is is') as (l' & E' & Q). rewrite E in E'. apply app_inv_head in E'. subst l'. exact Q.
Qed.
Print Assumptions C28_order.

(** During a flush nothing overtakes what is queued, not even by collections. *)
Theorem C28_order_collect {W item} (b : behaviour W item) w is is' l :
  f_log (frun b w (is ++ is')) = f_log (frun b w is) ++ l -> unpurged l -> ~ In EEnd l ->
  exists more, executions l ++ r_queue (f_roster (frun b w (is ++ is'))) = r_queue (f_roster (frun b w is)) ++ more.
Proof.
  intros E. destruct (ahead_run b w is is') as (l' & E' & Q). rewrite E in E'. apply app_inv_head in E'. subst l'. exact Q.
Qed.
Print Assumptions C28_order_collect.

(** Purging a target removes all of its scheduled executions and nothing else. *)
Theorem C28_purge r e P :
  count P (held (apply_cmd r (CPurge e))) + count (fun j => P j && match j with JExec x => Nat.eqb x e | _ => false end) (held r) = count P (held r).
Proof.
  assert (K : forall l, count P (map JExec (filter (fun x => negb (Nat.eqb x e)) l)) +
    count (fun j => P j && match j with JExec x => Nat.eqb x e | _ => false end) (map JExec l) = count P (map JExec l)).
  { induction l as [|x l IH]; [reflexivity|]. unfold count in *. cbn. destruct (Nat.eqb_spec x e) as [->|NX]; cbn.
    - destruct (P (JExec e)); cbn; lia.
    - rewrite andb_false_r. destruct (P (JExec x)); cbn; lia. }
  assert (Z : forall A (f : A -> job) l, (forall a x, f a <> JExec x) ->
    count (fun j => P j && match j with JExec x => Nat.eqb x e | _ => false end) (map f l) = 0).
  { intros A f l N. induction l as [|a l IH]; [reflexivity|]. unfold count in *. cbn. destruct (f a) eqn:E; try (rewrite andb_false_r; exact IH).
    destruct (N _ _ E). }
  unfold held. cbn -[count]. rewrite !count_app. rewrite (Z _ JAwake), (Z _ JServe), (Z _ JCancel), (Z _ JValidate), (Z _ JCleanup), (Z _ JDespawn) by discriminate. pose proof (K (r_queue r)) as K1. pose proof (K (r_deferred r)) as K2. clear K Z. lia.
Qed.
Print Assumptions C28_purge.

(** A world for examples: the counter says how much was done. Executing 1 queues 2 and 3, defers 4 and requests a clean up;
    2 purges 3; clean up schedules 5 for later; waking 6 queues 7; 8 comes from a channel item. *)
Definition demo (limit climit : option nat) : behaviour nat nat :=
  {| loop_limit := fun _ => limit; channel_limit := fun _ => climit;
     act := fun t w => (S w, match t with
       | TExec 1 => [(true, CQueue 2); (true, CQueue 3); (true, CDefer 4); (true, CCleanup (mk_cleanup 0 0 0 0))]
       | TExec 2 => [(true, CPurge 3)]
       | TCleanup _ => [(false, CQueue 5)]
       | TAwake 6 => [(true, CQueue 7)]
       | TItem i => [(true, CQueue i)]
       | TExec 9 => [(true, CQueue 9)]
       | _ => [] end);
     poll := fun w => (S w, match w with 1 => [8] | _ => [] end);
     removed := fun w => (w, []);
     woken := fun w => (S w, if w <? 6 then [6] else []);
     unused := fun _ => [] |}.
Definition begin (e : entity) : list (input nat) := [Outside S [CQueue e]; Start].

Example C28_case :
  let s := frun (demo None None) 0 (begin 1 ++ repeat Tick 100) in
  f_phase s = Idle /\ executions (f_log s) = [8; 1; 2; 7; 4; 5] /\
  existsb is_limit (since is_collect (f_log s)) = false /\
  spared (fun j => match j with JExec 3 => false | _ => true end) (f_log s) /\
  length (scheduled (f_log s)) = 9 /\ length (done (f_log s)) = 8.
Proof.
  vm_compute. repeat split. intros h e H. repeat (destruct H as [H|H]; [try discriminate; injection H as _ <-; reflexivity|]). destruct H.
Qed.

Example C28_order_case :
  let is := begin 1 ++ repeat Tick 11 in
  let is' := repeat Tick 3 in
  exists l, f_log (frun (demo None None) 0 (is ++ is')) = f_log (frun (demo None None) 0 is) ++ l /\
    unpurged l /\ ~ In ECollect l /\ ~ In EEnd l /\ executions l = [1] /\ r_queue (f_roster (frun (demo None None) 0 is)) = [1] /\ queued l = [2; 3].
Proof.
  eexists. split; [vm_compute; reflexivity|].
  split; [intros e H; vm_compute in H; repeat (destruct H as [H|H]; [discriminate|]); destruct H|].
  split; [intros H; vm_compute in H; repeat (destruct H as [H|H]; [discriminate|]); destruct H|].
  split; [intros H; vm_compute in H; repeat (destruct H as [H|H]; [discriminate|]); destruct H|].
  vm_compute. auto.
Qed.

(** With the limit [n] for the loop a flush executes at most [n] operations. *)
Theorem C29_loop {W item} (b : behaviour W item) w is n :
  (forall w, loop_limit b w = Some n) -> length (executions (this_flush (f_log (frun b w is)))) <= n.
Proof.
  intros HL. destruct (limited_run b n w is HL) as (H1 & H2 & H3 & _). unfold execs, turns, bound in *.
  destruct n as [|n]; [|lia]. rewrite H1; lia.
Qed.
Print Assumptions C29_loop.

(** An operation which queues itself for ever is stopped by the limit. What remains is kept for the
    next flush. *)
Example C29_loop_case :
  let s := frun (demo (Some 5) None) 0 (begin 9 ++ repeat Tick 100) in
  f_phase s = Idle /\ executions (f_log s) = [8; 9; 9; 9] /\ In (ELimit 5) (f_log s) /\ r_queue (f_later s) = [9; 7].
Proof. vm_compute. repeat split. auto 50. Qed.

(** With the limit [n] for the channel, each collection receives at most [n + 1] items, *)
Theorem C29_channel_partial {W item} (b : behaviour W item) w is n :
  (forall w, channel_limit b w = Some n) -> length (received (since is_collect (f_log (frun b w is)))) <= S n.
Proof. intros HL. apply (capped_items n (frun b w is)), capped_run, HL. Qed.
Print Assumptions C29_channel_partial.

(** A channel which always has an item. *)
Definition flood (n : nat) : behaviour nat nat :=
  {| loop_limit := fun _ => None; channel_limit := fun _ => Some n;
     act := fun t w => (w, match t with TItem i => [(true, CQueue i)] | _ => [] end);
     poll := fun w => (S w, [w]); removed := fun w => (w, []); woken := fun w => (w, []); unused := fun _ => [] |}.

(** and it may be [n + 1], not [n], for every [n]; *)
Theorem C29_channel_refuted : forall n, exists (b : behaviour nat nat) w is,
  (forall w, channel_limit b w = Some n) /\ n < length (received (since is_collect (f_log (frun b w is)))).
Proof.
  intros n. exists (flood n), 0, (Start :: repeat Tick (S n)). split; [reflexivity|].
  assert (K : forall k, k <= S n -> let s := frun (flood n) 0 (Start :: repeat Tick k) in
    length (received (since is_collect (f_log s))) = k /\ (k <= n -> f_phase s = Receive k) /\ snd (f_limits s) = Some n /\ f_channel s = []).
  { induction k as [|k IH]; intros L; [cbn; auto|]. cbn zeta in *. destruct IH as (I1 & I2 & I3 & I4); [lia|].
    replace (Start :: repeat Tick (S k)) with ((Start :: repeat (@Tick nat) k) ++ [Tick])
      by (cbn [app]; rewrite <- repeat_cons; reflexivity).
    rewrite run_snoc. set (s := frun (flood n) 0 (Start :: repeat Tick k)) in *. clearbody s.
    cbn [fstep]. unfold tick. rewrite I2 by lia. unfold receive. cbn [poll flood]. rewrite I4. cbn [app set_channel set_world f_channel].
    match goal with |- context [call (flood n) (TItem ?i) ?x] => destruct (call_items (flood n) (TItem i) x) as (G & (C & _ & L1 & _)); set (s1 := call (flood n) (TItem i) x) in *; clearbody s1 end.
    cbn in C, L1. rewrite L1, I3. change (items s1 = items s + 1) in G. unfold items in G. rewrite I1 in G.
    destruct (n <=? k) eqn:LE; cbn -[received since]; rewrite ?L1.
    - apply Nat.leb_le in LE. split; [|split; [lia|auto]]. rewrite since_app by reflexivity. rewrite received_app, app_length, G. cbn. lia.
    - apply Nat.leb_gt in LE. split; [lia|]. auto. }
  destruct (K (S n) (le_n _)) as (E & _). rewrite E. lia.
Qed.
Print Assumptions C29_channel_refuted.

(** and the limit is for each collection: a single flush receives more. *)
Theorem C29_channel_flush_refuted : exists (b : behaviour nat nat) w is,
  (forall w, channel_limit b w = Some 2) /\ length (received (this_flush (f_log (frun b w is)))) = 9.
Proof. exists (flood 2), 0, (Start :: repeat Tick 55). split; [reflexivity|]. vm_compute. reflexivity. Qed.
Print Assumptions C29_channel_flush_refuted.

Example C29_channel_case :
  let s := frun (flood 2) 0 (Start :: repeat Tick 3) in
  received (since is_collect (f_log s)) = [0; 1; 2] /\ f_phase s = Collect.
Proof. vm_compute. auto. Qed.
