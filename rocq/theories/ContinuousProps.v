(** Property C42, and C18, C19, C20, C21, C22 and C23 for continuous services. *)
From Verif Require Import Base DeliveryModel DeliverySpec DeliveryProofs DeliveryProofs2 DeliveryProps
  ContinuousModel ContinuousSpec ContinuousProofs.

Definition all_alive (e : entity) : bool := true.
Notation req n s i v := (CRequest all_alive n s i v).

(** A parallel service with four requests in progress; the one of node 12 and session 2 has
    the label 7, and another one of label 7 waits. *)
Definition four : list (cevent nat nat) :=
  [req 10 1 None 100; req 11 1 None 101; req 12 2 (Some low7) 102; req 13 2 None 103; req 14 3 (Some low7) 104].

(** ** C42: responses of a continuous service *)

(** Partial: the answers are delivered before any request is discarded. Missing: the other
    histories, where it is false, see [C42_stale_index_refuted]. *)
Theorem C42_retires_partial (V R : Type) (w : csrv V R) (xs : list (nat * R)) (es : list (cevent V R)) alive :
  cs_commands w = [] -> Forall calm es ->
  let w' := crun w (CCycle xs :: es ++ [CApply alive]) in
  let acc := first_answers (length (cs_queue w)) [] xs in
  NoDup (map fst acc) /\
  exists ans news, Forall2 (answers (cs_queue w)) acc ans /\
    cs_given w' = cs_given w ++ filter (fun a => alive (an_source a)) ans /\
    cs_lost w' = cs_lost w ++ filter (fun a => negb (alive (an_source a))) ans /\
    cs_queue w' = unanswered 0 (map fst acc) (cs_queue w) ++ news /\
    cs_start w' = cs_start w ++ map co_task news /\
    cs_oob w' = cs_oob w /\ cs_commands w' = [].
Proof. exact (cycle_retires w xs es alive). Qed.
Print Assumptions C42_retires_partial.
(** The service answers the third request, the first one, the third one once more and a
    request which does not exist, while another request comes in. *)
Example C42_retires_partial_case :
  let w := crun new_cparallel four in
  let w' := crun w (CCycle [(2, 72); (0, 70); (2, 99); (5, 98)] :: [req 15 4 None 105] ++ [CApply (fun e => negb (Nat.eqb e 10))]) in
  cs_commands w = [] /\ Forall calm [req 15 4 None 105 : cevent nat nat] /\
  map co_task (cs_queue w) = [0; 1; 2; 3] /\
  cs_given w' = [mk_answer 2 12 2 2 72] /\ cs_lost w' = [mk_answer 0 10 1 0 70] /\
  map co_task (cs_queue w') = [1; 3; 5; 4].
Proof.
  split; [reflexivity|]. split; [constructor; [cbn; discriminate|constructor]|]. vm_compute. auto.
Qed.

(** What the service sees in the course of a cycle: exactly the requests it has not
    answered, in their order, and their number. *)
Theorem C42_view (V R : Type) (q : list (corder V)) (xs : list (nat * R)) :
  let d := fold_left (respond q) xs [] in
  map snd (view q d) = unanswered 0 (map fst (first_answers (length q) [] xs)) q /\
  view_len q d = length (view q d).
Proof. exact (view_during q xs). Qed.
Print Assumptions C42_view.
Example C42_view_case :
  let q := cs_queue (crun new_cparallel four) in let d := fold_left (respond q) [(2, 72); (0, 70); (2, 99); (5, 98)] [] in
  map fst (view q d) = [1; 3] /\ view_len q d = 2.
Proof. vm_compute. auto. Qed.

(** The answer to request 0 is on its way when a preempting request stops request 0. The
    answer is still handed over, so that request 0 is both supplanted and answered, and the
    preempting request is taken off the queue without an answer. *)
Theorem C42_stale_index_refuted :
  exists es : list (cevent nat nat), let w := crun new_cserial es in
    cs_given w = [mk_answer 0 10 1 0 77] /\ cs_disp w = [(0, Supplanted 11 2)] /\
    cs_recv w = [0; 1] /\ cs_start w = [0; 1] /\ cs_queue w = [] /\ c_waiting w = [] /\ cs_swept w = [].
Proof.
  exists [req 10 1 (Some low7) 100; CCycle [(0, 77)]; req 11 2 (Some pre7) 101; CApply all_alive].
  vm_compute. auto 10.
Qed.
Print Assumptions C42_stale_index_refuted.

(** The answer is on its way when the session of the request is cleaned up: the index is out
    of bounds, which panics. *)
Theorem C42_out_of_bounds_refuted :
  exists es : list (cevent nat nat), cs_oob (crun new_cserial es) = true.
Proof. exists [req 10 1 None 100; CCycle [(0, 77)]; CClean 10 1; CApply all_alive]. reflexivity. Qed.
Print Assumptions C42_out_of_bounds_refuted.

(** ** C18 *)
Definition cserial_case : list (cevent nat nat) :=
  [req 10 1 (Some low7) 100; req 11 1 (Some low7) 101; req 12 2 (Some keep7) 102; req 13 2 (Some low8) 103; req 14 3 None 104].

Theorem C18_continuous_arrival_order (V R : Type) (w : csrv V R) : c_reachable w -> c_is_serial w ->
  cs_recv w = seq 0 (cs_next w) /\ subsequence (cs_start w ++ map d_task (c_waiting w)) (cs_recv w).
Proof. exact (c_order w). Qed.
Print Assumptions C18_continuous_arrival_order.
Example C18_continuous_arrival_order_case :
  let w := crun new_cserial (cserial_case ++ [CCycle [(0, 70)]; CApply all_alive]) in
  c_reachable w /\ c_is_serial w /\ cs_start w = [0; 1] /\ map d_task (c_waiting w) = [2; 3; 4].
Proof.
  split; [eexists _, _; split; [left|]; reflexivity|]. split; [apply c_serial_kind|]. vm_compute. auto.
Qed.

(** Partial: as long as no attempt at stopping a request has met one which was over.
    Missing: the other histories, where it is false, see [C18_continuous_two_refuted]. *)
Theorem C18_continuous_one_at_a_time_partial (V R : Type) (w : csrv V R) : c_reachable w -> c_is_serial w ->
  cs_stopfail w = [] -> length (cs_queue w) <= 1.
Proof. exact (c_one w). Qed.
Print Assumptions C18_continuous_one_at_a_time_partial.
Example C18_continuous_one_at_a_time_partial_case :
  let w := crun new_cserial (cserial_case ++ [req 15 3 (Some pre7) 105]) in
  c_reachable w /\ c_is_serial w /\ cs_stopfail w = [] /\ map co_task (cs_queue w) = [2] /\ length (c_waiting w) = 3.
Proof.
  split; [eexists _, _; split; [left|]; reflexivity|]. split; [apply c_serial_kind|]. vm_compute. auto.
Qed.

(** The session of the request in progress is cleaned up; two preempting requests then both
    fail to stop it and unblock the service twice. *)
Theorem C18_continuous_two_refuted :
  exists es : list (cevent nat nat), let w := crun new_cserial es in
    length (cs_queue w) = 2 /\ cs_panic w = false /\ cs_oob w = false.
Proof.
  exists [req 10 1 (Some low7) 100; CClean 10 1; req 11 2 (Some (mk_instr 7 true true)) 101; req 12 2 (Some pre7) 102;
          CUnblock all_alive; CUnblock all_alive].
  vm_compute. auto.
Qed.
Print Assumptions C18_continuous_two_refuted.

(** ** C19 *)
Theorem C19_continuous_preempt (V R : Type) (w : csrv V R) (n s : entity) inc v :
  c_reachable w -> c_is_serial w -> i_preempt inc = true ->
  let w' := cstep w (CRequest (fun _ => true) n s (Some inc) v) in
  let new := mk_order n s (cs_next w) v (Some inc) in
  exists kept dropped, separated (fun o => gives_way inc (d_instr o)) (c_waiting w) dropped kept /\
    ((c_waiting w = [] /\ c_waiting w' = [] /\ cs_start w' = cs_start w ++ [cs_next w] /\ cs_disp w' = cs_disp w) \/
     (exists stopped started, cs_disp w' = cs_disp w ++ map (fun o => (d_task o, Supplanted n s)) dropped
                                 ++ map (fun x => (x, Supplanted n s)) stopped /\
        started ++ c_waiting w' = kept ++ [new] /\ cs_start w' = cs_start w ++ map d_task started /\
        length stopped <= 1 /\ length started <= length stopped)).
Proof. exact (c_preempt w n s inc v). Qed.
Print Assumptions C19_continuous_preempt.
Example C19_continuous_preempt_case :
  let w := crun new_cserial cserial_case in
  let w' := cstep w (CRequest (fun _ => true) 15 3 (Some pre7) 105) in
  c_reachable w /\ c_is_serial w /\ i_preempt pre7 = true /\
  cs_disp w' = [(1, Supplanted 15 3); (0, Supplanted 15 3)] /\ cs_start w' = [0; 2] /\
  map d_task (c_waiting w') = [3; 4; 5].
Proof.
  split; [eexists _, _; split; [left|]; reflexivity|]. split; [apply c_serial_kind|]. vm_compute. auto.
Qed.

(** ** C20 *)
Theorem C20_continuous_never_panics (V R : Type) (w : csrv V R) : c_reachable w -> cs_panic w = false.
Proof. exact (c_no_panic w). Qed.
Print Assumptions C20_continuous_never_panics.

(** Partial: as long as no request in progress has been swept away by the cleanup of its
    session. Missing: the other histories, where it is false, see
    [C22_continuous_wedged_refuted]. *)
Theorem C20_continuous_idle_means_empty_partial (V R : Type) (w : csrv V R) : c_reachable w -> c_is_serial w ->
  cs_swept w = [] -> cs_queue w = [] -> c_waiting w = [].
Proof. exact (c_idle w). Qed.
Print Assumptions C20_continuous_idle_means_empty_partial.
Example C20_continuous_idle_means_empty_partial_case :
  let w := crun new_cserial ([req 10 1 (Some low7) 100; req 11 1 (Some low7) 101; CCycle [(0, 70)]; CApply all_alive;
                              CClean 30 9; CCycle [(0, 71)]; CApply all_alive] : list (cevent nat nat)) in
  c_reachable w /\ c_is_serial w /\ cs_swept w = [] /\ cs_queue w = [] /\ cs_start w = [0; 1].
Proof.
  split; [eexists _, _; split; [left|]; reflexivity|]. split; [apply c_serial_kind|]. vm_compute. auto.
Qed.

Theorem C20_continuous_idle_label_partial (V R : Type) (w : csrv V R) (l : nat) : c_reachable w -> c_is_parallel w ->
  cs_swept w = [] -> c_working_on w l = [] -> filter (fun o => labelled l (d_instr o)) (c_waiting w) = [].
Proof. exact (c_idle_label w l). Qed.
Print Assumptions C20_continuous_idle_label_partial.
Example C20_continuous_idle_label_partial_case :
  let w := crun new_cparallel (four ++ [req 16 5 (Some low8) 106; req 17 5 (Some low8) 107;
                                        CCycle [(2, 72)]; CApply all_alive; CCycle [(4, 72)]; CApply all_alive]) in
  c_reachable w /\ c_is_parallel w /\ cs_swept w = [] /\ c_working_on w 7 = [] /\ cs_start w = [0; 1; 2; 3; 5; 4] /\
  map d_task (c_waiting w) = [6].
Proof.
  split; [eexists _, _; split; [right|]; reflexivity|]. split; [apply c_parallel_kind|]. vm_compute. auto 10.
Qed.

Theorem C20_continuous_next_starts (V R : Type) (w : csrv V R) x o r (v : R) :
  c_reachable w -> c_is_serial w -> cs_commands w = [] -> cs_queue w = [x] -> c_waiting w = o :: r ->
  let w' := crun w [CCycle [(0, v)]; CApply (fun _ => true)] in
  c_waiting w' = r /\ cs_start w' = cs_start w ++ [d_task o] /\ map co_task (cs_queue w') = [d_task o] /\
  cs_given w' = cs_given w ++ [mk_answer 0 (co_source x) (co_session x) (co_task x) v].
Proof. exact (c_next_starts w x o r v). Qed.
Print Assumptions C20_continuous_next_starts.
Example C20_continuous_next_starts_case :
  let w := crun new_cserial cserial_case in
  c_reachable w /\ c_is_serial w /\ cs_commands w = [] /\ map co_task (cs_queue w) = [0] /\
  map d_task (c_waiting w) = [1; 2; 3; 4].
Proof.
  split; [eexists _, _; split; [left|]; reflexivity|]. split; [apply c_serial_kind|]. vm_compute. auto.
Qed.

(** ** C21 *)
Theorem C21_continuous_one_per_label_partial (V R : Type) (w : csrv V R) (l : nat) : c_reachable w -> c_is_parallel w ->
  cs_stopfail w = [] -> length (c_working_on w l) <= 1.
Proof. exact (c_one_label w l). Qed.
Print Assumptions C21_continuous_one_per_label_partial.
Example C21_continuous_one_per_label_partial_case :
  let w := crun new_cparallel (four ++ [req 15 3 (Some pre7) 105]) in
  c_reachable w /\ c_is_parallel w /\ cs_stopfail w = [] /\ map co_task (c_working_on w 7) = [5] /\
  map co_task (cs_queue w) = [0; 1; 3; 5].
Proof.
  split; [eexists _, _; split; [right|]; reflexivity|]. split; [apply c_parallel_kind|]. vm_compute. auto.
Qed.

(** ** C22 *)

(** Cleaning up the session of the request in progress wedges a serial continuous service
    for good: whatever happens next, short of a preempting request or another cleanup,
    nothing is started any more and the requests keep waiting. *)
Theorem C22_continuous_wedged_refuted (V R : Type) (w : csrv V R) (n ss : entity) (es : list (cevent V R)) :
  c_reachable w -> c_is_serial w -> cs_commands w = [] -> cs_unblock w = [] ->
  (forall o, In o (cs_queue w) -> co_session o = ss) ->
  (exists o, In o (c_waiting w) /\ d_session o <> ss) ->
  Forall not_stopping es ->
  let w' := crun w (CClean n ss :: es) in
  cs_start w' = cs_start w /\
  exists more, c_waiting w' = filter (fun o => negb (Nat.eqb (d_session o) ss)) (c_waiting w) ++ more.
Proof. exact (wedged w n ss es). Qed.
Print Assumptions C22_continuous_wedged_refuted.
Example C22_continuous_wedged_refuted_case :
  let w := crun new_cserial cserial_case in
  let es := [CUnblock all_alive; CCycle [(0, 70); (1, 71)]; CApply all_alive; req 15 3 (Some low7) 105] in
  c_reachable w /\ c_is_serial w /\ cs_commands w = [] /\ cs_unblock w = [] /\
  (forall o, In o (cs_queue w) -> co_session o = 1) /\
  (exists o, In o (c_waiting w) /\ d_session o <> 1) /\ Forall not_stopping es /\
  cs_start (crun w (CClean 10 1 :: es)) = [0] /\ map d_task (c_waiting (crun w (CClean 10 1 :: es))) = [2; 3; 4; 5].
Proof.
  split; [eexists _, _; split; [left|]; reflexivity|]. split; [apply c_serial_kind|].
  split; [reflexivity|]. split; [reflexivity|].
  split; [vm_compute; intros o [<-|[]]; reflexivity|].
  split; [vm_compute; eexists; split; [right; left; reflexivity|discriminate]|].
  split; [repeat constructor; cbn; intros inc [= <-]; reflexivity|]. vm_compute. auto.
Qed.

(** ** C23 *)

(** Cleaning up node 11 for session 1 takes away the requests of node 10 of that session,
    both the one in progress and the one waiting. *)
Theorem C23_continuous_other_node_refuted :
  exists es : list (cevent nat nat), let w := crun new_cserial es in
    map co_source (cs_queue w) = [10] /\ map d_source (c_waiting w) = [10] /\
    cs_queue (cstep w (CClean 11 1)) = [] /\ c_waiting (cstep w (CClean 11 1)) = [].
Proof. exists [req 10 1 None 100; req 10 1 None 101]. vm_compute. auto. Qed.
Print Assumptions C23_continuous_other_node_refuted.
