(** Properties C18, C19, C20, C21, C22, C23 and C36: asynchronous services with serial and
    parallel delivery. *)
From Verif Require Import Base DeliveryModel DeliverySpec DeliveryProofs DeliveryProofs2.

(** Label 7; the first preempts. *)
Definition pre7 := mk_instr 7 true false.
Definition low7 := mk_instr 7 false false.
Definition keep7 := mk_instr 7 false true.
Definition low8 := mk_instr 8 false false.

(** A serial service: request 0 in progress, 1 (label 7), 2 (ensured), 3 (label 8) and 4
    (no instruction) waiting. *)
Definition serial_case : list (event nat) :=
  [Request 10 1 (Some low7) 100; Request 11 1 (Some low7) 101; Request 12 2 (Some keep7) 102;
   Request 13 2 (Some low8) 103; Request 14 3 None 104].

(** ** C18: one request at a time, in the order of arrival *)

(** Partial: while no attempt at stopping a request has met one that was over. Missing: the
    claim for the remaining histories, where it is false, see [C18_stop_failure_refuted]. *)
Theorem C18_one_at_a_time_partial (V : Type) (es : list (event V)) :
  let w := run new_serial es in as_stopfail w = [] -> length (working w) <= 1.
Proof. exact (serial_one es). Qed.
Print Assumptions C18_one_at_a_time_partial.
Example C18_one_at_a_time_partial_case :
  let w := run new_serial (serial_case ++ [Request 15 3 (Some pre7) 105; Cancelled 0; Unblock everything_alive]) in
  as_stopfail w = [] /\ working w = [2] /\ map d_task (waiting w) = [3; 4; 5].
Proof. vm_compute. auto. Qed.

Theorem C18_arrival_order (V : Type) (es : list (event V)) :
  let w := run new_serial es in
  as_recv w = seq 0 (as_next w) /\
  subsequence (as_start w ++ map d_task (waiting w)) (as_recv w).
Proof. exact (serial_order es). Qed.
Print Assumptions C18_arrival_order.
Example C18_arrival_order_case :
  let w := run new_serial (serial_case ++ [Ready 0; Unblock everything_alive; Ready 1; Unblock everything_alive]) in
  as_start w = [0; 1; 2] /\ map d_task (waiting w) = [3; 4] /\ as_recv w = [0; 1; 2; 3; 4].
Proof. vm_compute. auto. Qed.

(** A preempting request finds in the register of the service a request which has already
    completed (its unblocking is still to be handled). Stopping it fails, which unblocks the
    service a second time: two requests are then worked on together. *)
Theorem C18_stop_failure_refuted :
  exists es : list (event nat), let w := run new_serial es in
    length (working w) = 2 /\ as_panic w = false.
Proof.
  exists [Request 10 1 (Some low7) 100; Request 11 1 None 101; Request 12 1 None 102; Ready 0;
          Request 13 1 (Some pre7) 103; Unblock everything_alive; Unblock everything_alive].
  vm_compute. auto.
Qed.
Print Assumptions C18_stop_failure_refuted.

(** ** C19: preemption discards exactly what it should *)
Theorem C19_preempt_waiting_serial (V : Type) (w : asrv V) (n s : entity) inc v :
  reachable w -> is_serial w -> i_preempt inc = true ->
  let w' := step w (Request n s (Some inc) v) in
  exists kept dropped, separated (fun o => gives_way inc (d_instr o)) (waiting w) dropped kept /\
    as_disp w' = as_disp w ++ map (fun o => (d_task o, Supplanted n s)) dropped /\
    ((waiting w' = kept ++ [mk_order n s (as_next w) v (Some inc)] /\ as_start w' = as_start w)
     \/ (waiting w' = kept /\ as_start w' = as_start w ++ [as_next w] /\
         (as_stopfail w = [] -> working w = []))).
Proof. exact (serial_preempt w n s inc v). Qed.
Print Assumptions C19_preempt_waiting_serial.
Example C19_preempt_waiting_serial_case :
  let w := run new_serial serial_case in let w' := step w (Request 15 3 (Some pre7) 105) in
  reachable w /\ is_serial w /\ map d_task (waiting w) = [1; 2; 3; 4] /\
  as_disp w' = [(1, Supplanted 15 3)] /\ map d_task (waiting w') = [2; 3; 4; 5].
Proof.
  split; [exists new_serial, serial_case; split; [left|]; reflexivity|].
  split; [apply serial_kind|]. vm_compute. auto.
Qed.

Theorem C19_preempt_waiting_label (V : Type) (w : asrv V) (n s : entity) inc v :
  reachable w -> is_parallel w -> i_preempt inc = true ->
  let w' := step w (Request n s (Some inc) v) in let l := i_label inc in
  exists kept dropped, separated (fun o => gives_way inc (d_instr o)) (waiting_on w l) dropped kept /\
    as_disp w' = as_disp w ++ map (fun o => (d_task o, Supplanted n s)) dropped /\
    (forall l', l' <> l -> waiting_on w' l' = waiting_on w l') /\
    ((waiting_on w' l = kept ++ [mk_order n s (as_next w) v (Some inc)] /\ as_start w' = as_start w)
     \/ (waiting_on w' l = kept /\ as_start w' = as_start w ++ [as_next w] /\
         (as_stopfail w = [] -> working_on w l = []))).
Proof. exact (label_preempt w n s inc v). Qed.
Print Assumptions C19_preempt_waiting_label.
(** Requests 0 (label 7), 3 (label 8), 4 (none) and 5 (label 9) start at once. *)
Definition parallel_case : list (event nat) :=
  serial_case ++ [Request 16 1 (Some (mk_instr 9 false false)) 106; Request 17 1 (Some low8) 107].
Example C19_preempt_waiting_label_case :
  let w := run new_parallel parallel_case in let w' := step w (Request 15 3 (Some pre7) 105) in
  reachable w /\ is_parallel w /\ map d_task (waiting_on w 7) = [1; 2] /\ as_start w = [0; 3; 4; 5] /\
  as_disp w' = [(1, Supplanted 15 3)] /\ map d_task (waiting_on w' 7) = [2; 7] /\
  map d_task (waiting_on w' 8) = [6].
Proof.
  split; [exists new_parallel, parallel_case; split; [right|]; reflexivity|].
  split; [apply parallel_kind|]. vm_compute. auto 10.
Qed.

(** The request in progress. Partial: while no stop has failed, as for C18; afterwards two
    requests of a label may be in progress and only the one registered is stopped. *)
Theorem C19_preempt_in_progress_partial (V : Type) (w : asrv V) (n s : entity) inc v t :
  reachable w -> as_stopfail w = [] -> i_preempt inc = true ->
  In t (as_tasks w) -> running t = true ->
  let w' := step w (Request n s (Some inc) v) in
  (gives_way inc (t_instr t) ->
     In (capture t None (Some (Supplanted n s))) (as_cancels w') /\
     (forall t', In t' (as_tasks w') -> t_id t' = t_id t -> running t' = false) /\
     as_cancels w' = as_cancels w ++ [capture t None (Some (Supplanted n s))]) /\
  (~ gives_way inc (t_instr t) -> In t (as_tasks w')).
Proof. exact (serve_stops w n s inc v t). Qed.
Print Assumptions C19_preempt_in_progress_partial.
Example C19_preempt_in_progress_partial_case :
  let w := run new_parallel parallel_case in let w' := step w (Request 15 3 (Some pre7) 105) in
  as_stopfail w = [] /\ map t_id (filter running (as_tasks w)) = [0; 3; 4; 5] /\
  map t_id (filter running (as_tasks w')) = [3; 4; 5] /\
  map (fun c => (c_task c, c_cause c)) (as_cancels w') = [(0, Some (Supplanted 15 3))].
Proof. vm_compute. auto. Qed.

(** A request which does not preempt discards and stops nothing. *)
Theorem C19_no_preemption (V : Type) (w : asrv V) (n s : entity) i v :
  reachable w -> (forall inc, i = Some inc -> i_preempt inc = false) ->
  let w' := step w (Request n s i v) in
  as_disp w' = as_disp w /\ as_cancels w' = as_cancels w /\
  (forall t, In t (as_tasks w) -> In t (as_tasks w')) /\
  (is_serial w -> (waiting w' = waiting w ++ [mk_order n s (as_next w) v i] /\ as_start w' = as_start w)
              \/ (waiting w' = waiting w /\ as_start w' = as_start w ++ [as_next w])).
Proof. exact (serve_gentle w n s i v). Qed.
Print Assumptions C19_no_preemption.
Example C19_no_preemption_case :
  let w := run new_serial serial_case in let w' := step w (Request 15 3 (Some low7) 105) in
  as_disp w' = [] /\ map d_task (waiting w') = [1; 2; 3; 4; 5].
Proof. vm_compute. auto. Qed.

(** A request is never reported as discarded twice. *)
Theorem C19_reported_once (V : Type) (w : asrv V) : reachable w -> NoDup (map fst (as_disp w)).
Proof. exact (reported_once w). Qed.
Print Assumptions C19_reported_once.
Example C19_reported_once_case :
  map fst (as_disp (run new_serial (serial_case ++ [Request 15 3 (Some pre7) 105; Cancelled 0;
    Unblock everything_alive; Request 16 3 (Some pre7) 106]))) = [1; 0; 5].
Proof. vm_compute. reflexivity. Qed.

(** ** C20: never idle while requests wait *)
Theorem C20_never_panics (V : Type) (w : asrv V) : reachable w -> as_panic w = false.
Proof. exact (never_panics w). Qed.
Print Assumptions C20_never_panics.
Example C20_never_panics_case : reachable (run new_serial serial_case).
Proof. exists new_serial, serial_case. split; [left|]; reflexivity. Qed.

Theorem C20_idle_means_empty (V : Type) (w : asrv V) :
  reachable w -> is_serial w -> working w = [] -> as_unblock w = [] -> waiting w = [].
Proof. exact (idle_empty w). Qed.
Print Assumptions C20_idle_means_empty.
Example C20_idle_means_empty_case :
  let w := run new_serial [Request 10 1 (Some low7) 100; Request 11 1 (Some low7) 101; Ready 0;
    Unblock everything_alive; Clean 11 1 0; Cancelled 0; Unblock everything_alive] in
  working w = [] /\ as_unblock w = [] /\ as_start w = [0; 1] /\ as_done w = [0] /\ as_cleaned w = [1].
Proof. vm_compute. auto 10. Qed.

Theorem C20_idle_means_empty_label (V : Type) (w : asrv V) l :
  reachable w -> is_parallel w -> working_on w l = [] -> ~ In (Some l) (as_unblock w) -> waiting_on w l = [].
Proof. exact (idle_empty_label w l). Qed.
Print Assumptions C20_idle_means_empty_label.
Example C20_idle_means_empty_label_case :
  let w := run new_parallel (parallel_case ++ [Ready 0; Unblock everything_alive; Ready 1; Unblock everything_alive;
    Ready 2; Unblock everything_alive]) in
  working_on w 7 = [] /\ as_unblock w = [] /\ as_done w = [0; 1; 2] /\ working w = [3; 4; 5].
Proof. vm_compute. auto 10. Qed.

(** The oldest waiting request is started by events which only let work end. *)
Theorem C20_next_starts (V : Type) (w : asrv V) o q :
  reachable w -> is_serial w -> waiting w = o :: q ->
  exists es, Forall ends_work es /\ In (d_task o) (as_start (run w es)).
Proof. exact (serial_progress w o q). Qed.
Print Assumptions C20_next_starts.
Example C20_next_starts_case :
  exists o q, waiting (run new_serial serial_case) = o :: q /\
    ~ In (d_task o) (as_start (run new_serial serial_case)).
Proof.
  exists (mk_order 11 1 1 101 (Some low7)). eexists. split; [vm_compute; reflexivity|].
  vm_compute. intuition discriminate.
Qed.

Theorem C20_next_starts_label (V : Type) (w : asrv V) l o q :
  reachable w -> is_parallel w -> waiting_on w l = o :: q ->
  exists es, Forall ends_work es /\ In (d_task o) (as_start (run w es)).
Proof. exact (label_progress w l o q). Qed.
Print Assumptions C20_next_starts_label.
Example C20_next_starts_label_case :
  exists o q, waiting_on (run new_parallel parallel_case) 7 = o :: q /\
    ~ In (d_task o) (as_start (run new_parallel parallel_case)).
Proof.
  exists (mk_order 11 1 1 101 (Some low7)). eexists. split; [vm_compute; reflexivity|].
  vm_compute. intuition discriminate.
Qed.

(** ** C21: labels are independent *)

(** What a parallel service answers to what concerns one label is what a serial service of
    its own would answer, whatever else is asked of it. Before the first request of the
    label nothing of it can complete. Partial: about the queues of the service; together
    with [C21_one_per_label_partial] and the other theorems about labels, but not stated as
    a simulation of the whole service. *)
Theorem C21_label_like_serial_partial (V : Type) l (pre : list (qop (V:=V))) o post :
  Forall (fun x => concerns l x = true -> exists s, x = QCleanup s) pre ->
  labelled l (d_instr o) = true ->
  let ops := pre ++ QInsert o :: post in
  filter (fun p => concerns l (fst p)) (snd (qrun (Parallel []) ops))
  = snd (qrun (Serial serial_new) (filter (concerns l) ops)).
Proof.
  intros Hp Ho. symmetry. apply (qrun_first l pre o post []); [reflexivity| |assumption|assumption].
  eapply Forall_impl; [|exact Hp]. intros x Hx l' -> ->. cbn in Hx. rewrite Nat.eqb_refl in Hx.
  destruct (Hx eq_refl). discriminate.
Qed.
Print Assumptions C21_label_like_serial_partial.
Example C21_label_like_serial_partial_case :
  let o id i := mk_order 10 1 id 5 i in
  let ops := [QCleanup 4; QInsert (o 0 (Some low8))] ++ QInsert (o 1 (Some low7)) ::
             [QInsert (o 2 (Some low8)); QInsert (o 3 (Some low7)); QPop (Some 8); QInsert (o 4 None);
              QInsert (o 5 (Some pre7)); QPop (Some 7); QPop (Some 7)] in
  map snd (snd (qrun (Serial serial_new) (filter (concerns 7) ops)))
  = [ANone; AInsert (Immediate (Some (Some 7)) 5); AInsert (Queued [] None (Some 7));
     AInsert (Queued [stop_order (o 3 (Some low7))] (Some (stop_active (active_of (o 1 (Some low7))))) (Some 7));
     APop (Some (Some (o 5 (Some pre7)))); APop (Some None)].
Proof. vm_compute. reflexivity. Qed.

Theorem C21_unlabelled_start_at_once (V : Type) (w : asrv V) (n s : entity) v :
  reachable w -> is_parallel w ->
  let w' := step w (Request n s None v) in
  as_start w' = as_start w ++ [as_next w] /\ as_del w' = as_del w /\
  as_tasks w' = as_tasks w ++ [mk_task (as_next w) n s None None TRun None] /\
  as_cancels w' = as_cancels w.
Proof. exact (unlabelled_starts w n s v). Qed.
Print Assumptions C21_unlabelled_start_at_once.
Example C21_unlabelled_start_at_once_case :
  let w := run new_parallel parallel_case in
  is_parallel w /\ as_start (step w (Request 18 1 None 108)) = [0; 3; 4; 5; 7].
Proof. split; [apply parallel_kind|]. vm_compute. reflexivity. Qed.

(** Partial as [C18_one_at_a_time_partial]. *)
Theorem C21_one_per_label_partial (V : Type) (es : list (event V)) l :
  let w := run new_parallel es in as_stopfail w = [] -> length (working_on w l) <= 1.
Proof. exact (label_one es l). Qed.
Print Assumptions C21_one_per_label_partial.
Example C21_one_per_label_partial_case :
  let w := run new_parallel (parallel_case ++ [Request 15 3 (Some pre7) 105]) in
  as_stopfail w = [] /\ working_on w 7 = [0] /\ working w = [3; 4; 5; 0].
Proof. vm_compute. auto. Qed.

(** ** C22: cleaning the session in progress lets the service go on *)

(** Partial: asynchronous services; see the continuous services for the refutation. *)
Theorem C22_async_goes_on_partial (V : Type) (w : asrv V) n (s : entity) c t o q :
  reachable w -> is_serial w -> In t (as_tasks w) -> running t = true -> t_node t = n -> t_session t = s ->
  waiting (step w (Clean n s c)) = o :: q ->
  exists es, Forall ends_cancelled_work es /\ In (d_task o) (as_start (run (step w (Clean n s c)) es)).
Proof. exact (clean_goes_on w n s c t o q). Qed.
Print Assumptions C22_async_goes_on_partial.
Example C22_async_goes_on_partial_case :
  let w := run new_serial serial_case in
  (exists t, In t (as_tasks w) /\ running t = true /\ t_node t = 10 /\ t_session t = 1) /\
  map d_task (waiting (step w (Clean 10 1 0))) = [2; 3; 4].
Proof.
  split; [|vm_compute; reflexivity].
  vm_compute. eexists. split; [left; reflexivity|auto].
Qed.

(** ** C23: cleaning one node *)

(** Request 1 was issued by node 11, and node 10 is cleaned. *)
Theorem C23_other_node_discarded_refuted :
  exists (w : asrv nat) o, reachable w /\ In o (waiting w) /\ d_source o <> 10 /\
    let w' := step w (Clean 10 1 0) in
    ~ In o (waiting w') /\ ~ In (d_task o) (as_start w') /\ ~ In (d_task o) (map fst (as_disp w')).
Proof.
  exists (run new_serial serial_case), (mk_order 11 1 1 101 (Some low7)).
  split; [exists new_serial, serial_case; split; [left|]; reflexivity|].
  split; [vm_compute; auto|]. split; [discriminate|]. vm_compute. intuition discriminate.
Qed.
Print Assumptions C23_other_node_discarded_refuted.

(** Partial: the requests of other sessions. Missing: those of the same session issued by
    other nodes, for which the claim is false. *)
Theorem C23_other_sessions_kept_partial (V : Type) (w : asrv V) (n s : entity) c :
  let w' := step w (Clean n s c) in
  filter (fun o => negb (Nat.eqb (d_session o) s)) (waiting w')
  = filter (fun o => negb (Nat.eqb (d_session o) s)) (waiting w) /\
  (forall o, In o (waiting w') <-> In o (waiting w) /\ d_session o <> s).
Proof. exact (clean_others w n s c). Qed.
Print Assumptions C23_other_sessions_kept_partial.
Example C23_other_sessions_kept_partial_case :
  map d_task (waiting (step (run new_serial serial_case) (Clean 12 2 0))) = [1; 4].
Proof. vm_compute. reflexivity. Qed.

(** The requests in progress of other nodes or sessions go on. *)
Theorem C23_tasks_of_others_kept (V : Type) (w : asrv V) (n s : entity) c t :
  reachable w -> In t (as_tasks w) -> listed n s t = false -> In t (as_tasks (step w (Clean n s c))).
Proof. exact (clean_other_tasks w n s c t). Qed.
Print Assumptions C23_tasks_of_others_kept.
Example C23_tasks_of_others_kept_case :
  let w := run new_parallel parallel_case in
  map t_id (filter (fun t => negb (listed 10 1 t)) (as_tasks w)) = [3; 4; 5] /\
  map t_id (filter running (as_tasks (step w (Clean 10 1 0)))) = [3; 4; 5].
Proof. vm_compute. auto. Qed.

(** ** C36: every request has exactly one outcome *)

(** Waiting, worked on, answered, disposed, cleaned away with its session or dropped with
    its requester: every request received is in exactly one of these, exactly once. *)
Theorem C36_one_outcome (V : Type) (w : asrv V) : reachable w ->
  Permutation (as_recv w) (whereabouts w) /\ NoDup (whereabouts w).
Proof. exact (one_whereabouts w). Qed.
Print Assumptions C36_one_outcome.
Definition outcome_case : list (event nat) :=
  serial_case ++ [Request 15 3 (Some pre7) 105; Cancelled 0; Unblock everything_alive; Ready 2;
                  Unblock (fun n => negb (Nat.eqb n 13)); Clean 14 3 0; Cancelled 0].
Example C36_one_outcome_case :
  let w := run new_serial outcome_case in
  as_recv w = [0; 1; 2; 3; 4; 5] /\ as_done w = [2] /\ map fst (as_disp w) = [1; 0] /\
  as_cleaned w = [5; 4] /\ as_dropped w = [3] /\ waiting w = [] /\ working w = [].
Proof. vm_compute. auto 10. Qed.

(** The service is unblocked once for each request it worked on. Partial: while no stop has
    failed, see [C18_stop_failure_refuted]. *)
Theorem C36_unblocked_once_partial (V : Type) (w : asrv V) :
  reachable w -> is_serial w -> as_stopfail w = [] -> length (working w) + length (as_unblock w) <= 1.
Proof. exact (serial_tokens w). Qed.
Print Assumptions C36_unblocked_once_partial.
Example C36_unblocked_once_partial_case :
  let w := run new_serial outcome_case in as_stopfail w = [] /\ as_unblock w = [None].
Proof. vm_compute. auto. Qed.

(** The node is told that it is clean, once all the cancellations made on its behalf are
    over. Partial: when no request of the node is already being stopped; otherwise the
    claim is false, see [C36_cleanup_hangs_refuted]. *)
Theorem C36_clean_notice_partial (V : Type) (w : asrv V) (n s : entity) c es :
  reachable w ->
  (forall t, In t (as_tasks w) -> t_node t = n -> t_clean t <> Some c) ->
  (forall t, In t (as_tasks w) -> t_node t = n -> t_session t = s -> t_mode t = TRun \/ t_mode t = TCleaning) ->
  (forall s', ~ In (Clean n s' c) es) ->
  let w' := run (step w (Clean n s c)) es in
  In (n, c) (as_notified w') \/ exists x, In x (as_cancels w') /\ c_node x = n /\ c_clean x = Some c.
Proof. exact (clean_notice w n s c es). Qed.
Print Assumptions C36_clean_notice_partial.
(** Two requests of node 10 and one of node 11 in progress. *)
Definition notice_case : list (event nat) :=
  [Request 10 1 None 100; Request 11 1 None 101; Request 10 1 None 102].
Example C36_clean_notice_partial_case :
  let w := run new_parallel notice_case in
  (forall t, In t (as_tasks w) -> t_node t = 10 -> t_clean t <> Some 5) /\
  (forall t, In t (as_tasks w) -> t_node t = 10 -> t_session t = 1 -> t_mode t = TRun \/ t_mode t = TCleaning) /\
  as_notified (run (step w (Clean 10 1 5)) [Cancelled 1]) = [] /\
  as_notified (run (step w (Clean 10 1 5)) [Cancelled 1; Ready 1; Cancelled 0]) = [(10, 5)].
Proof.
  split; [|split; [|vm_compute; auto]]; intros t Ht; vm_compute in Ht;
    (repeat destruct Ht as [<-|Ht]; try discriminate; auto); destruct Ht.
Qed.

(** The session is cleaned while its request is being stopped in favour of another one: the
    node is never told. *)
Theorem C36_cleanup_hangs_refuted :
  exists w : asrv nat, reachable w /\
    as_cancels (run w [Cancelled 0; Unblock everything_alive]) = [] /\
    (exists x, In x (as_cancels w) /\ c_node x = 10 /\ c_session x = 1) /\
    let w' := run (step w (Clean 10 1 5)) [Cancelled 0; Unblock everything_alive; Ready 1; Unblock everything_alive] in
    as_tasks w' = [] /\ as_cancels w' = [] /\ as_unblock w' = [] /\ waiting w' = [] /\ as_notified w' = [].
Proof.
  exists (run new_serial [Request 10 1 (Some low7) 100; Request 11 2 (Some pre7) 101]).
  split; [exists new_serial; eexists; split; [left|]; reflexivity|].
  split; [vm_compute; reflexivity|].
  split; [vm_compute; eexists; split; [left; reflexivity|auto]|].
  vm_compute. auto 10.
Qed.
Print Assumptions C36_cleanup_hangs_refuted.
