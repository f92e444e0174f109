(** Model of the continuous services of src/service/continuous.rs. No proofs in this file. *)
From Verif Require Import Base DeliveryModel.

Section Continuous.
Context {V R : Type}.

(** src/service/continuous.rs:575-581 [ContinuousOrder]. [co_block]: the label of its
    blocker. *)
Record corder := mk_corder {
  co_source : entity; co_session : entity; co_task : entity; co_data : V;
  co_block : option (option nat) }.

(** src/service/continuous.rs:598-605 [DeliverResponse] (the provider is the service). *)
Record answer := mk_answer {
  an_index : nat; an_source : entity; an_session : entity; an_task : entity; an_data : R }.

(** A continuous service: its [Delivery], its [ContinuousQueueStorage] (490-493), the
    [DeliverResponses] commands which have not been applied yet (592-595), the blockers in
    the roster. The lists from [cs_recv] on record what happened and are only used to state
    properties; [cs_given]: responses handed to the target of the requester; [cs_lost]:
    responses whose requester is gone; [cs_swept]: requests taken out of the queue by a
    session cleanup; [cs_oob]: an index was out of bounds, which panics. *)
Record csrv := mk_csrv {
  cs_del : delivery V;
  cs_queue : list corder;
  cs_commands : list (list answer);
  cs_unblock : list (option nat);
  cs_next : entity;
  cs_recv : list entity;
  cs_start : list entity;
  cs_given : list answer;
  cs_lost : list answer;
  cs_disp : list (entity * cause);
  cs_dropped : list entity;
  cs_swept : list entity;
  cs_stopfail : list entity;
  cs_panic : bool;
  cs_oob : bool }.

Definition csrv_new (d : delivery V) : csrv :=
  mk_csrv d [] [] [] 0 [] [] [] [] [] [] [] [] false false.

(** src/service/continuous.rs:952-967 with src/service/delivery.rs:133-139. *)
Definition new_cserial : csrv := csrv_new (Serial serial_new).
Definition new_cparallel : csrv := csrv_new (Parallel []).

Definition c_set_del (w : csrv) d := mk_csrv d (cs_queue w) (cs_commands w) (cs_unblock w) (cs_next w)
  (cs_recv w) (cs_start w) (cs_given w) (cs_lost w) (cs_disp w) (cs_dropped w) (cs_swept w)
  (cs_stopfail w) (cs_panic w) (cs_oob w).
Definition c_set_queue (w : csrv) q := mk_csrv (cs_del w) q (cs_commands w) (cs_unblock w) (cs_next w)
  (cs_recv w) (cs_start w) (cs_given w) (cs_lost w) (cs_disp w) (cs_dropped w) (cs_swept w)
  (cs_stopfail w) (cs_panic w) (cs_oob w).
Definition c_set_commands (w : csrv) c := mk_csrv (cs_del w) (cs_queue w) c (cs_unblock w) (cs_next w)
  (cs_recv w) (cs_start w) (cs_given w) (cs_lost w) (cs_disp w) (cs_dropped w) (cs_swept w)
  (cs_stopfail w) (cs_panic w) (cs_oob w).
Definition c_set_unblock (w : csrv) u := mk_csrv (cs_del w) (cs_queue w) (cs_commands w) u (cs_next w)
  (cs_recv w) (cs_start w) (cs_given w) (cs_lost w) (cs_disp w) (cs_dropped w) (cs_swept w)
  (cs_stopfail w) (cs_panic w) (cs_oob w).
Definition c_receive (w : csrv) := mk_csrv (cs_del w) (cs_queue w) (cs_commands w) (cs_unblock w)
  (S (cs_next w)) (cs_recv w ++ [cs_next w]) (cs_start w) (cs_given w) (cs_lost w) (cs_disp w)
  (cs_dropped w) (cs_swept w) (cs_stopfail w) (cs_panic w) (cs_oob w).
Definition c_log_given (w : csrv) a := mk_csrv (cs_del w) (cs_queue w) (cs_commands w) (cs_unblock w)
  (cs_next w) (cs_recv w) (cs_start w) (cs_given w ++ [a]) (cs_lost w) (cs_disp w) (cs_dropped w)
  (cs_swept w) (cs_stopfail w) (cs_panic w) (cs_oob w).
Definition c_log_lost (w : csrv) a := mk_csrv (cs_del w) (cs_queue w) (cs_commands w) (cs_unblock w)
  (cs_next w) (cs_recv w) (cs_start w) (cs_given w) (cs_lost w ++ [a]) (cs_disp w) (cs_dropped w)
  (cs_swept w) (cs_stopfail w) (cs_panic w) (cs_oob w).
Definition c_log_disp (w : csrv) l := mk_csrv (cs_del w) (cs_queue w) (cs_commands w) (cs_unblock w)
  (cs_next w) (cs_recv w) (cs_start w) (cs_given w) (cs_lost w) (cs_disp w ++ l) (cs_dropped w)
  (cs_swept w) (cs_stopfail w) (cs_panic w) (cs_oob w).
Definition c_log_dropped (w : csrv) l := mk_csrv (cs_del w) (cs_queue w) (cs_commands w) (cs_unblock w)
  (cs_next w) (cs_recv w) (cs_start w) (cs_given w) (cs_lost w) (cs_disp w) (cs_dropped w ++ l)
  (cs_swept w) (cs_stopfail w) (cs_panic w) (cs_oob w).
Definition c_log_swept (w : csrv) l := mk_csrv (cs_del w) (cs_queue w) (cs_commands w) (cs_unblock w)
  (cs_next w) (cs_recv w) (cs_start w) (cs_given w) (cs_lost w) (cs_disp w) (cs_dropped w)
  (cs_swept w ++ l) (cs_stopfail w) (cs_panic w) (cs_oob w).
Definition c_log_stopfail (w : csrv) i := mk_csrv (cs_del w) (cs_queue w) (cs_commands w) (cs_unblock w)
  (cs_next w) (cs_recv w) (cs_start w) (cs_given w) (cs_lost w) (cs_disp w) (cs_dropped w)
  (cs_swept w) (cs_stopfail w ++ [i]) (cs_panic w) (cs_oob w).
Definition c_log_panic (w : csrv) := mk_csrv (cs_del w) (cs_queue w) (cs_commands w) (cs_unblock w)
  (cs_next w) (cs_recv w) (cs_start w) (cs_given w) (cs_lost w) (cs_disp w) (cs_dropped w)
  (cs_swept w) (cs_stopfail w) true (cs_oob w).
Definition c_log_oob (w : csrv) := mk_csrv (cs_del w) (cs_queue w) (cs_commands w) (cs_unblock w)
  (cs_next w) (cs_recv w) (cs_start w) (cs_given w) (cs_lost w) (cs_disp w) (cs_dropped w)
  (cs_swept w) (cs_stopfail w) (cs_panic w) true.

(** src/service/continuous.rs:844-871 [serve_continuous_request]. *)
Definition c_start (w : csrv) (id node session : entity) (v : V) (block : option (option nat)) : csrv :=
  mk_csrv (cs_del w) (cs_queue w ++ [mk_corder node session id v block]) (cs_commands w)
    (cs_unblock w) (cs_next w) (cs_recv w) (cs_start w ++ [id]) (cs_given w) (cs_lost w) (cs_disp w)
    (cs_dropped w) (cs_swept w) (cs_stopfail w) (cs_panic w) (cs_oob w).

(** src/service/continuous.rs:873-938 [serve_next_continuous_request]; [alive]: the nodes
    which still have a target. *)
Fixpoint c_serve_next (fuel : nat) (alive : entity -> bool) (label : option nat) (w : csrv) : csrv :=
  match pop_next (cs_del w) label with
  | None => c_log_panic w
  | Some (d, None) => c_set_del w d
  | Some (d, Some o) =>
      let w := c_set_del w d in
      if alive (d_source o) then
        c_start w (d_task o) (d_source o) (d_session o) (d_request o)
          (Some (option_map i_label (d_instr o)))
      else
        match fuel with
        | 0 => w
        | S fuel => c_serve_next fuel alive label (c_log_dropped w [d_task o])
        end
  end.

Definition c_next (alive : entity -> bool) (label : option nat) (w : csrv) : csrv :=
  c_serve_next (length (queued (cs_del w))) alive label w.

(** src/service/continuous.rs:788-793 and 797. *)
Fixpoint take_task (id : entity) (q : list corder) : option (corder * list corder) :=
  match q with
  | [] => None
  | o :: r =>
      if Nat.eqb (co_task o) id then Some (o, r)
      else match take_task id r with Some (x, r') => Some (x, o :: r') | None => None end
  end.

(** src/service/continuous.rs:783-819: the request in progress is stopped. *)
Definition c_stop (w : csrv) (alive : entity -> bool) (st : stoppage) (by_node by_session : entity)
  (label : option nat) : csrv :=
  let w :=
    match take_task (st_task st) (cs_queue w) with
    | Some (o, q) =>
        match co_block o with
        | Some l => c_next alive l (c_set_queue w q)
        | None => c_set_unblock (c_set_queue w q) (cs_unblock w ++ [label])
        end
    | None => c_set_unblock (c_log_stopfail w (st_task st)) (cs_unblock w ++ [label])
    end in
  c_log_disp w [(st_task st, Supplanted by_node by_session)].

(** src/service/continuous.rs:723-841 [serve] for a request whose input has been taken. *)
Definition c_serve (w : csrv) (alive : entity -> bool) (node session : entity) (i : option instr)
  (v : V) : csrv :=
  let id := cs_next w in
  let w := c_receive w in
  let '(d, u) := insert_new_order (cs_del w) (mk_order node session id v i) in
  let w := c_set_del w d in
  match u with
  | Immediate blocking request => c_start w id node session request blocking
  | Queued cancelled st label =>
      let w := c_log_disp w (map (fun c => (st_task c, Supplanted node session)) cancelled) in
      match st with
      | Some st => c_stop w alive st node session label
      | None => w
      end
  | AssertFailed => c_log_panic w
  end.

(** src/service/continuous.rs:143-156 [DeliveredQueue], 278-302 [get_mut] and 412-424
    [respond]: the service answers the request at an index of the queue, unless there is
    none or it has answered it before in this cycle. Visiting the requests with [for_each]
    (308-324) makes the same check. *)
Definition contains_key (i : nat) (d : list answer) : bool :=
  existsb (fun a => Nat.eqb (an_index a) i) d.
Definition respond (q : list corder) (d : list answer) (x : nat * R) : list answer :=
  match nth_error q (fst x) with
  | Some o =>
      if contains_key (fst x) d then d
      else d ++ [mk_answer (fst x) (co_source o) (co_session o) (co_task o) (snd x)]
  | None => d
  end.

(** src/service/continuous.rs:159-217: what is left to look at during the cycle. *)
Fixpoint view_from (i : nat) (q : list corder) (d : list answer) : list (nat * corder) :=
  match q with
  | [] => []
  | o :: r => if contains_key i d then view_from (S i) r d else (i, o) :: view_from (S i) r d
  end.
Definition view (q : list corder) (d : list answer) := view_from 0 q d.
Definition view_len (q : list corder) (d : list answer) : nat := length q - length d.

(** One run of the system of the service, with the [Drop] of its query (465-488). *)
Definition cycle (w : csrv) (xs : list (nat * R)) : csrv :=
  match fold_left (respond (cs_queue w)) xs [] with
  | [] => w
  | d => c_set_commands w (cs_commands w ++ [d])
  end.

(** src/service/continuous.rs:693-709 [try_retire_request]: [SmallVec::remove] panics when
    there is no such index. *)
Definition retire (alive : entity -> bool) (w : csrv) (i : nat) : csrv :=
  match remove_nth i (cs_queue w) with
  | Some (o, q) =>
      match co_block o with
      | Some l => c_next alive l (c_set_queue w q)
      | None => c_set_queue w q
      end
  | None => c_log_oob w
  end.

(** src/service/continuous.rs:661 [sort_by], a stable sort, largest index first. *)
Fixpoint insert_index (i : nat) (l : list nat) : list nat :=
  match l with
  | [] => [i]
  | j :: r => if Nat.leb i j then j :: insert_index i r else i :: j :: r
  end.
Definition sort_indices (l : list nat) : list nat := fold_left (fun acc i => insert_index i acc) l [].

(** src/service/continuous.rs:613-628 with 679-691 [try_give_response]. The disposal sent for
    nodes with streams (630-647) and the despawning of the task are left out. *)
Definition give (alive : entity -> bool) (w : csrv) (a : answer) : csrv :=
  if alive (an_source a) then c_log_given w a else c_log_lost w a.

(** src/service/continuous.rs:607-677 [DeliverResponses::apply] for the oldest command. *)
Definition apply (w : csrv) (alive : entity -> bool) : csrv :=
  match cs_commands w with
  | [] => w
  | d :: ds =>
      fold_left (retire alive) (sort_indices (map an_index d))
        (fold_left (give alive) d (c_set_commands w ds))
  end.

(** src/operation/operate_service.rs:91-115 [OperateService::cleanup] for a continuous
    service, with src/service/continuous.rs:519-530 [ContinuousQueueStorage::cleanup]. The
    node cleaned plays no part. *)
Definition c_clean (w : csrv) (session : entity) : csrv :=
  let gone := filter (fun o => Nat.eqb (co_session o) session) (cs_queue w) in
  c_log_swept
    (c_set_del (c_set_queue w (filter (fun o => negb (Nat.eqb (co_session o) session)) (cs_queue w)))
       (delivery_cleanup (cs_del w) session))
    (map co_task gone).

(** src/flush.rs:132-136. *)
Definition c_unblock (w : csrv) (alive : entity -> bool) : csrv :=
  match cs_unblock w with
  | [] => w
  | l :: us => c_next alive l (c_set_unblock w us)
  end.

Inductive cevent :=
| CRequest (alive : entity -> bool) (node session : entity) (i : option instr) (v : V)
| CCycle (xs : list (nat * R))
| CApply (alive : entity -> bool)
| CUnblock (alive : entity -> bool)
| CClean (node session : entity).

Definition cstep (w : csrv) (e : cevent) : csrv :=
  match e with
  | CRequest alive n s i v => c_serve w alive n s i v
  | CCycle xs => cycle w xs
  | CApply alive => apply w alive
  | CUnblock alive => c_unblock w alive
  | CClean n s => c_clean w s
  end.

Definition crun (w : csrv) (es : list cevent) : csrv := fold_left cstep es w.

End Continuous.

Arguments corder : clear implicits.
Arguments answer : clear implicits.
Arguments csrv : clear implicits.
Arguments cevent : clear implicits.
