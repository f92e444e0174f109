(** Properties C32, C34, C35, C46 and C47 of promises. *)
From Verif Require Import Base PromiseModel PromiseSpec PromiseProofs.

(** ** C32: one stable outcome *)

Theorem C32_stable (T : Type) (acts : list (paction T)) : stable Pending (w_log (run acts)).
Proof. exact (run_stable acts). Qed.
Print Assumptions C32_stable.
Theorem C32_truthful (T : Type) (acts : list (paction T)) : truthful (w_log (run acts)).
Proof. exact (run_truthful acts). Qed.
Print Assumptions C32_truthful.
Theorem C32_once (T : Type) (acts : list (paction T)) :
  count is_sent (w_log (run acts)) <= 1 /\ count is_success (w_log (run acts)) <= 1.
Proof. exact (run_once acts). Qed.
Print Assumptions C32_once.
(** A sender and a receiver at work: the receiver looks before, takes the value and tries
    again; the sender tries to send twice. *)
Example C32_case :
  w_log (run [APeek; ASend (RAvailable 7); ASneak; AStore; ASneak; APeek; ATake; ASend RDisposed; AStore; ATake; ASneak; ADrop]) =
  [Saw Pending; Saw Pending; Sent (RAvailable 7); Saw Pending; Saw (Available 7); Took (Available 7);
   Took Taken; Saw Taken; Dropped Taken].
Proof. vm_compute. reflexivity. Qed.

(** Once a result was stored, the next look shows it, or that it was taken; a sender which
    goes away without sending stores [RDisposed]. *)
Theorem C32_delivered (T : Type) (acts : list (paction T)) (r : presult T) :
  In (Sent r) (w_log (run acts)) -> w_recv (run acts) = RIdle ->
  exists s, w_log (run (acts ++ [APeek])) = w_log (run acts) ++ [Saw s] /\
    (count is_success (w_log (run acts)) = 0 -> s = shows r) /\
    (count is_success (w_log (run acts)) = 1 -> s = Taken).
Proof. exact (run_delivered acts r). Qed.
Print Assumptions C32_delivered.
Example C32_delivered_case :
  let acts := [APoll 3; APollStore; AWait false false; ASend RDisposed; ASleep; AStore; ARecheck] : list (paction nat) in
  In (Sent RDisposed) (w_log (run acts)) /\ w_recv (run acts) = RIdle /\ count is_success (w_log (run acts)) = 0.
Proof. vm_compute. auto 10. Qed.

(** ** C34: wait_mut *)

(** Partial: the result was not there yet when the wait began. *)
Theorem C34_waited_partial (T : Type) (acts : list (paction T)) : waited false (w_log (run acts)).
Proof. exact (run_waited acts). Qed.
Print Assumptions C34_waited_partial.
(** The wait begins, sleeps, wakes up without reason, and gets the value. *)
Example C34_waited_partial_case :
  w_log (run [ASend (RAvailable 7); AWait true false; ASleep; ASpurious; ARecheck; AStore; ASleep; AStore; ARecheck]) =
  [Waits true false; Sent (RAvailable 7); Waited true (Available 7)].
Proof. vm_compute. reflexivity. Qed.

(** If the result is there already, [wait_mut] returns and the promise is still pending. *)
Theorem C34_sent_before_refuted :
  exists acts : list (paction nat), ~ waited true (w_log (run acts)).
Proof.
  exists [ASend (RAvailable 7); AStore; AWait true false]. intros H.
  apply (H [Sent (RAvailable 7)] [] Pending [] eq_refl); [intros e []|auto|reflexivity].
Qed.
Print Assumptions C34_sent_before_refuted.

(** ** C35: the callback for dropped promises *)

(** Partial: a registration which begins before the drop is complete by then. *)
Theorem C35_callback_partial (T : Type) (acts : list (paction T)) :
  let l := w_log (run acts) in
  in_time l -> NoDup (registered l) ->
  (In (Dropped Pending) l -> forall f, last_opt (registered l) = Some f -> count (is_callback f) l = 1) /\
  (~ In (Dropped Pending) l -> no_callback l).
Proof. exact (run_callback acts). Qed.
Print Assumptions C35_callback_partial.
Example C35_callback_partial_case :
  let l := w_log (run ([AOnDrop 1; ARegister; APeek; ADrop; AOnDrop 2; ASend (RAvailable 7)])) in
  in_time l /\ NoDup (registered l) /\ In (Dropped Pending) l /\
  l = [Register 1; Registered 1; Saw Pending; Dropped Pending; Callback 1; Register 2; Callback 2; Refused (RAvailable 7)].
Proof.
  cbv zeta. set (l := w_log _). vm_compute in l. subst l. split; [|split; [|split; [cbn; auto 10|reflexivity]]].
  - intros l1 f l2 s l3 E.
    repeat (destruct l1 as [|? l1]; cbn in E; [try discriminate E|try discriminate E; injection E as _ E]).
    + injection E as <- E. destruct l2 as [|? l2]; cbn in E; [discriminate|injection E as <- E]. cbn. auto.
    + injection E as <- E. exfalso.
      repeat (destruct l2 as [|? l2]; cbn in E; try discriminate E; injection E as _ E).
  - cbn. repeat constructor; cbn; intuition discriminate.
Qed.

(** The promise is dropped while the callback is being registered. *)
Theorem C35_race_refuted :
  exists acts : list (paction nat), let l := w_log (run acts) in
    In (Registered 1) l /\ In (Dropped Pending) l /\ no_callback l.
Proof.
  exists [AOnDrop 1; ADrop; ARegister]. vm_compute. split; [auto|]. split; [auto|].
  intros f Hi. repeat (destruct Hi as [Hi|Hi]; [discriminate|]). exact Hi.
Qed.
Print Assumptions C35_race_refuted.

(** ** C46: tasks which wait for a promise are woken up *)

(** Partial: the result was not stored before the poll ended. *)
Theorem C46_wakes_partial (T : Type) (acts : list (paction T)) : wakes false (w_log (run acts)).
Proof. exact (run_wakes acts). Qed.
Print Assumptions C46_wakes_partial.
Example C46_wakes_partial_case :
  w_log (run [APoll 3; APollStore; APoll 4; APollStore; ASend (RCancelled 5); AStore; APoll 4]) =
  [Parked 3; Parked 4; Sent (RCancelled 5); Woken 4; Took (Cancelled 5)] :> list (pevent nat).
Proof. vm_compute. reflexivity. Qed.

(** A result stored between the two locks of [poll]: the task sleeps and nobody wakes it. *)
Theorem C46_lost_wakeup_refuted :
  exists acts : list (paction nat), w_log (run acts) = [Sent (RAvailable 7); Parked 3] /\ ~ wakes true (w_log (run acts)).
Proof.
  exists [ASend (RAvailable 7); APoll 3; AStore; APollStore]. split; [vm_compute; reflexivity|]. intros H.
  apply (H [Sent (RAvailable 7)] 3 [] eq_refl); [intros k []|exists (RAvailable 7); cbn; auto|auto].
Qed.
Print Assumptions C46_lost_wakeup_refuted.

(** ** C47: interrupts *)

(** Partial: the waiter sleeps when the interrupter is triggered. *)
Theorem C47_interrupted_partial (T : Type) (acts : list (paction T)) (m : bool) (l1 l2 : list (pevent T)) :
  w_recv (run acts) = RAsleep m true ->
  w_log (run acts) = l1 ++ Waits m true :: l2 -> (forall e, In e l2 -> hears e = false) ->
  exists s, w_log (run (acts ++ [AInterrupt; ARecheck])) = w_log (run acts) ++ [Interrupt; Waited m s].
Proof. exact (run_interrupt acts m l1 l2). Qed.
Print Assumptions C47_interrupted_partial.
Example C47_interrupted_partial_case :
  let acts := [AInterrupt; AReset; AWait true true; ASleep; AOnDrop 1; ARegister] : list (paction nat) in
  w_recv (run acts) = RAsleep true true /\
  w_log (run acts) = [Interrupt] ++ Waits true true :: [Register 1; Registered 1].
Proof. vm_compute. auto. Qed.

(** A wait which begins after the interrupter was triggered, and not reset since, returns at
    once. *)
Theorem C47_triggered (T : Type) (acts more : list (paction T)) (m : bool) :
  Forall (fun a => a <> AReset) more ->
  w_recv (run (acts ++ AInterrupt :: more)) = RIdle ->
  exists s, w_log (run ((acts ++ AInterrupt :: more) ++ [AWait m true])) =
            w_log (run (acts ++ AInterrupt :: more)) ++ [Waits m true; Waited m s].
Proof. exact (run_triggered acts more m). Qed.
Print Assumptions C47_triggered.
Example C47_triggered_case :
  let acts := [AWait true true; ASleep] : list (paction nat) in
  let more := [ARecheck; APeek; AOnDrop 1] : list (paction nat) in
  Forall (fun a => a <> AReset) more /\ w_recv (run (acts ++ AInterrupt :: more)) = RIdle.
Proof. cbv zeta. split; [repeat constructor; discriminate|vm_compute; reflexivity]. Qed.

(** The interrupter is triggered after the waiter has looked at its flag and before it
    sleeps: however often it is triggered later, the waiter sleeps until a result comes. *)
Theorem C47_lost_interrupt_refuted :
  exists acts : list (paction nat),
    In Interrupt (w_log (run acts)) /\
    forall more, Forall no_help more -> (forall m s, ~ In (Waited m s) (w_log (run (acts ++ more)))) /\
      w_recv (run (acts ++ more)) <> RIdle.
Proof.
  exists [AWait true true; AInterrupt; ASleep]. split; [vm_compute; auto|]. intros more H.
  assert (S : sleeper (run ([AWait true true; AInterrupt; ASleep] ++ more : list (paction nat)))).
  { unfold run. rewrite fold_left_app. apply sleeper_run; [exact H|]. split; [exists true; reflexivity|]. split; [reflexivity|].
    intros m s. vm_compute. intuition discriminate. }
  destruct S as ((m & R) & _ & W). split; [exact W|]. congruence.
Qed.
Print Assumptions C47_lost_interrupt_refuted.
