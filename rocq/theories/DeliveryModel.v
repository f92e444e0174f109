(** Model of src/service/delivery.rs, of the asynchronous services of
    src/service/async_srv.rs and of the tasks of src/operation/operate_task.rs.
    No proofs in this file. *)
From Verif Require Import Base.

(** src/service.rs:263-267 [DeliveryInstructions]. Labels are interned, only their
    equality matters. *)
Record instr := mk_instr { i_label : nat; i_preempt : bool; i_ensure : bool }.

(** src/service/delivery.rs:115-122 [ActiveDelivery]. *)
Record active := mk_active {
  a_source : entity; a_session : entity; a_task : entity; a_instr : option instr }.

(** src/service/delivery.rs:249-255 [DeliveryStoppage]. *)
Record stoppage := mk_stoppage { st_source : entity; st_session : entity; st_task : entity }.

Section Delivery.
Context {V : Type}.

(** src/service/delivery.rs:105-113 [DeliveryOrder]. *)
Record order := mk_order {
  d_source : entity; d_session : entity; d_task : entity; d_request : V; d_instr : option instr }.

(** src/service/delivery.rs:183-186 [SerialDelivery], the queue oldest first. *)
Record serial := mk_serial { s_delivering : option active; s_queue : list order }.

(** src/service/delivery.rs:197-204 [SerialDelivery::default]. *)
Definition serial_new : serial := mk_serial None [].

(** src/service/delivery.rs:126-130 [Delivery] and 206-208 [ParallelDelivery]: the map
    from labels to queues is an association list. *)
Inductive delivery :=
| Serial (s : serial)
| Parallel (ls : list (nat * serial)).

(** HashMap::get and HashMap::insert for the labels of a parallel service. *)
Fixpoint lget (l : nat) (ls : list (nat * serial)) : option serial :=
  match ls with
  | [] => None
  | (l', s) :: r => if Nat.eqb l l' then Some s else lget l r
  end.

Fixpoint lset (l : nat) (s : serial) (ls : list (nat * serial)) : list (nat * serial) :=
  match ls with
  | [] => [(l, s)]
  | (l', s') :: r => if Nat.eqb l l' then (l', s) :: r else (l', s') :: lset l s r
  end.

(** src/service/delivery.rs:232-247 [DeliveryUpdate]; [AssertFailed]: the assertion of
    line 284 fails. *)
Inductive update :=
| Immediate (blocking : option (option nat)) (request : V)
| Queued (cancelled : list stoppage) (stop : option stoppage) (label : option nat)
| AssertFailed.

(** src/service/delivery.rs:285-290 and 84-89. *)
Definition active_of (o : order) : active :=
  mk_active (d_source o) (d_session o) (d_task o) (d_instr o).

(** src/service/delivery.rs:318-322. *)
Definition stop_order (o : order) : stoppage := mk_stoppage (d_source o) (d_session o) (d_task o).

(** src/service/delivery.rs:329-333. *)
Definition stop_active (a : active) : stoppage := mk_stoppage (a_source a) (a_session a) (a_task a).

(** src/service/delivery.rs:310-312 [should_discard], 316 and 328. *)
Definition should_discard (incoming : instr) (prior : option instr) : bool :=
  match prior with
  | Some p => Nat.eqb (i_label p) (i_label incoming) && negb (i_ensure p)
  | None => false
  end.

(** src/service/delivery.rs:276-345 [insert_serial_order]. *)
Definition insert_serial_order (s : serial) (o : order) : serial * update :=
  match s_delivering s with
  | None =>
      match s_queue s with
      | [] => (mk_serial (Some (active_of o)) [],
               Immediate (Some (option_map i_label (d_instr o))) (d_request o))
      | _ :: _ => (s, AssertFailed)
      end
  | Some a =>
      match d_instr o with
      | None => (mk_serial (Some a) (s_queue s ++ [o]), Queued [] None None)
      | Some inc =>
          if i_preempt inc then
            let discard e := should_discard inc (d_instr e) in
            (mk_serial (Some a) (filter (fun e => negb (discard e)) (s_queue s) ++ [o]),
             Queued (map stop_order (filter discard (s_queue s)))
               (if should_discard inc (a_instr a) then Some (stop_active a) else None)
               (Some (i_label inc)))
          else (mk_serial (Some a) (s_queue s ++ [o]), Queued [] None (Some (i_label inc)))
      end
  end.

(** src/service/delivery.rs:257-274 [insert_new_order]. *)
Definition insert_new_order (d : delivery) (o : order) : delivery * update :=
  match d with
  | Serial s => let '(s', u) := insert_serial_order s o in (Serial s', u)
  | Parallel ls =>
      match d_instr o with
      | Some i =>
          let s := match lget (i_label i) ls with Some s => s | None => serial_new end in
          let '(s', u) := insert_serial_order s o in (Parallel (lset (i_label i) s' ls), u)
      | None => (Parallel ls, Immediate None (d_request o))
      end
  end.

(** src/service/delivery.rs:56-95 [pop_next_delivery_impl]. *)
Definition pop_impl (s : serial) : serial * option order :=
  match s_queue s with
  | [] => (mk_serial None [], None)
  | o :: q => (mk_serial (Some (active_of o)) q, Some o)
  end.

(** src/service/delivery.rs:29-54 [pop_next_delivery]: [None] for the two panics. *)
Definition pop_next (d : delivery) (label : option nat) : option (delivery * option order) :=
  match d with
  | Serial s => let '(s', o) := pop_impl s in Some (Serial s', o)
  | Parallel ls =>
      match label with
      | None => None
      | Some l =>
          match lget l ls with
          | None => None
          | Some s => let '(s', o) := pop_impl s in Some (Parallel (lset l s' ls), o)
          end
      end
  end.

(** src/service/delivery.rs:189-191 and 192-194. *)
Definition serial_contains (s : serial) (ss : entity) : bool :=
  existsb (fun o => Nat.eqb (d_session o) ss) (s_queue s).
Definition serial_cleanup (s : serial) (ss : entity) : serial :=
  mk_serial (s_delivering s) (filter (fun o => negb (Nat.eqb (d_session o) ss)) (s_queue s)).

(** src/service/delivery.rs:141-158, 219-223 [contains_session] and 160-180, 224-228
    [cleanup]. The node which is cleaned plays no part beyond naming the provider. *)
Definition contains_session (d : delivery) (ss : entity) : bool :=
  match d with
  | Serial s => serial_contains s ss
  | Parallel ls => existsb (fun p => serial_contains (snd p) ss) ls
  end.
Definition delivery_cleanup (d : delivery) (ss : entity) : delivery :=
  match d with
  | Serial s => Serial (serial_cleanup s ss)
  | Parallel ls => Parallel (map (fun p => (fst p, serial_cleanup (snd p) ss)) ls)
  end.

(** The waiting requests of a service, over all its queues (no counterpart in the code). *)
Definition queued (d : delivery) : list order :=
  match d with
  | Serial s => s_queue s
  | Parallel ls => flat_map (fun p => s_queue (snd p)) ls
  end.

(** ** Tasks *)

(** How far a task of src/operation/operate_task.rs has got: running; its [OperateTask]
    component has been taken by [stop_task] (436-453) and [AlreadyStopping] is set; its
    future has been taken by [OperateTask::cleanup] (323-359); its entity is gone but the
    node still lists it. *)
Inductive tmode := TRun | TStopping | TCleaning | TGone.

(** A task entity: src/operation/operate_task.rs:68-82 [OperateTask] together with its
    [ActiveTask] (461-465) in the list of the node, whose [being_cleaned] is [t_clean] (a
    cleanup id). [t_block]: the label of the blocker it still holds. [t_instr]: the
    instructions of the request, kept to state properties. *)
Record task := mk_task {
  t_id : entity; t_node : entity; t_session : entity; t_instr : option instr;
  t_block : option (option nat); t_mode : tmode; t_clean : option nat }.

(** src/disposal.rs: the two causes of interest, [Disposal::supplanted] (by a request of a
    node in a session) and [Disposal::task_despawned]. *)
Inductive cause := Supplanted (node session : entity) | TaskDespawned.

(** A cancellation under way: the closure sent by [Drop] (146-165) or by
    [OperateTask::cleanup] (337-346), which runs once the future has been cancelled. *)
Record cancelling := mk_cancelling {
  c_task : entity; c_node : entity; c_session : entity; c_instr : option instr;
  c_block : option (option nat); c_clean : option nat; c_cause : option cause }.

(** An asynchronous service together with the tasks it runs. [as_unblock]: the blockers
    in the roster, oldest first. The lists from [as_recv] on record what happened and are
    only used to state properties: request ids received and started, responses given,
    disposals emitted, requests ended by a cleanup, requests dropped because their node
    is gone, failures to stop a task, nodes reported clean (with the cleanup id), panics. *)
Record asrv := mk_asrv {
  as_del : delivery;
  as_tasks : list task;
  as_cancels : list cancelling;
  as_unblock : list (option nat);
  as_next : entity;
  as_recv : list entity;
  as_start : list entity;
  as_done : list entity;
  as_disp : list (entity * cause);
  as_cleaned : list entity;
  as_dropped : list entity;
  as_stopfail : list entity;
  as_notified : list (entity * nat);
  as_panic : bool }.

Definition asrv_new (d : delivery) : asrv :=
  mk_asrv d [] [] [] 0 [] [] [] [] [] [] [] [] false.

(** src/service/delivery.rs:133-139. *)
Definition new_serial : asrv := asrv_new (Serial serial_new).
Definition new_parallel : asrv := asrv_new (Parallel []).

Definition set_del (w : asrv) d := mk_asrv d (as_tasks w) (as_cancels w) (as_unblock w) (as_next w)
  (as_recv w) (as_start w) (as_done w) (as_disp w) (as_cleaned w) (as_dropped w) (as_stopfail w)
  (as_notified w) (as_panic w).
Definition set_tasks (w : asrv) ts := mk_asrv (as_del w) ts (as_cancels w) (as_unblock w) (as_next w)
  (as_recv w) (as_start w) (as_done w) (as_disp w) (as_cleaned w) (as_dropped w) (as_stopfail w)
  (as_notified w) (as_panic w).
Definition set_cancels (w : asrv) cs := mk_asrv (as_del w) (as_tasks w) cs (as_unblock w) (as_next w)
  (as_recv w) (as_start w) (as_done w) (as_disp w) (as_cleaned w) (as_dropped w) (as_stopfail w)
  (as_notified w) (as_panic w).
Definition set_unblock (w : asrv) us := mk_asrv (as_del w) (as_tasks w) (as_cancels w) us (as_next w)
  (as_recv w) (as_start w) (as_done w) (as_disp w) (as_cleaned w) (as_dropped w) (as_stopfail w)
  (as_notified w) (as_panic w).
Definition receive (w : asrv) := mk_asrv (as_del w) (as_tasks w) (as_cancels w) (as_unblock w)
  (S (as_next w)) (as_recv w ++ [as_next w]) (as_start w) (as_done w) (as_disp w) (as_cleaned w)
  (as_dropped w) (as_stopfail w) (as_notified w) (as_panic w).
Definition log_done (w : asrv) i := mk_asrv (as_del w) (as_tasks w) (as_cancels w) (as_unblock w)
  (as_next w) (as_recv w) (as_start w) (as_done w ++ [i]) (as_disp w) (as_cleaned w) (as_dropped w)
  (as_stopfail w) (as_notified w) (as_panic w).
Definition log_disp (w : asrv) l := mk_asrv (as_del w) (as_tasks w) (as_cancels w) (as_unblock w)
  (as_next w) (as_recv w) (as_start w) (as_done w) (as_disp w ++ l) (as_cleaned w) (as_dropped w)
  (as_stopfail w) (as_notified w) (as_panic w).
Definition log_cleaned (w : asrv) l := mk_asrv (as_del w) (as_tasks w) (as_cancels w) (as_unblock w)
  (as_next w) (as_recv w) (as_start w) (as_done w) (as_disp w) (as_cleaned w ++ l) (as_dropped w)
  (as_stopfail w) (as_notified w) (as_panic w).
Definition log_dropped (w : asrv) l := mk_asrv (as_del w) (as_tasks w) (as_cancels w) (as_unblock w)
  (as_next w) (as_recv w) (as_start w) (as_done w) (as_disp w) (as_cleaned w) (as_dropped w ++ l)
  (as_stopfail w) (as_notified w) (as_panic w).
Definition log_stopfail (w : asrv) i := mk_asrv (as_del w) (as_tasks w) (as_cancels w) (as_unblock w)
  (as_next w) (as_recv w) (as_start w) (as_done w) (as_disp w) (as_cleaned w) (as_dropped w)
  (as_stopfail w ++ [i]) (as_notified w) (as_panic w).
Definition log_notified (w : asrv) l := mk_asrv (as_del w) (as_tasks w) (as_cancels w) (as_unblock w)
  (as_next w) (as_recv w) (as_start w) (as_done w) (as_disp w) (as_cleaned w) (as_dropped w)
  (as_stopfail w) (as_notified w ++ l) (as_panic w).
Definition log_panic (w : asrv) := mk_asrv (as_del w) (as_tasks w) (as_cancels w) (as_unblock w)
  (as_next w) (as_recv w) (as_start w) (as_done w) (as_disp w) (as_cleaned w) (as_dropped w)
  (as_stopfail w) (as_notified w) true.

(** src/service/async_srv.rs:222-327 [serve_async_request]: run the service and add the
    task, with src/operation/operate_task.rs:112-123 and 174-200. The provider and its
    service are taken to exist and the streams of the node to be set up. *)
Definition start (w : asrv) (id node session : entity) (i : option instr)
  (block : option (option nat)) : asrv :=
  mk_asrv (as_del w) (as_tasks w ++ [mk_task id node session i block TRun None]) (as_cancels w)
    (as_unblock w) (as_next w) (as_recv w) (as_start w ++ [id]) (as_done w) (as_disp w)
    (as_cleaned w) (as_dropped w) (as_stopfail w) (as_notified w) (as_panic w).

Definition find_task (ts : list task) (id : entity) : option task :=
  find (fun t => Nat.eqb (t_id t) id) ts.

Definition map_task (id : entity) (f : task -> task) (ts : list task) : list task :=
  map (fun t => if Nat.eqb (t_id t) id then f t else t) ts.

(** The blocker has been handed over to a cancellation. *)
Definition with_mode (m : tmode) (t : task) : task :=
  mk_task (t_id t) (t_node t) (t_session t) (t_instr t) None m (t_clean t).

(** src/operation/operate_task.rs:137-165: what [Drop] and [OperateTask::cleanup] capture. *)
Definition capture (t : task) (clean : option nat) (c : option cause) : cancelling :=
  mk_cancelling (t_id t) (t_node t) (t_session t) (t_instr t) (t_block t) clean c.

(** src/service/async_srv.rs:160-195 with src/operation/operate_task.rs:436-453
    [stop_task]. A task being cleaned has neither a future nor a blocker left and has
    finished normally, so dropping it does nothing (132-135). *)
Definition stop (w : asrv) (st : stoppage) (by_node by_session : entity) (label : option nat) : asrv :=
  match find_task (as_tasks w) (st_task st) with
  | Some t =>
      match t_mode t with
      | TRun =>
          set_cancels
            (set_tasks w (map_task (t_id t) (with_mode TStopping) (as_tasks w)))
            (as_cancels w ++ [capture t None (Some (Supplanted by_node by_session))])
      | TStopping => w
      | TCleaning => set_tasks w (map_task (t_id t) (with_mode TStopping) (as_tasks w))
      | TGone => set_unblock (log_stopfail w (st_task st)) (as_unblock w ++ [label])
      end
  | None => set_unblock (log_stopfail w (st_task st)) (as_unblock w ++ [label])
  end.

(** src/service/async_srv.rs:96-219 [serve] for a request whose input has been taken. *)
Definition serve (w : asrv) (node session : entity) (i : option instr) (v : V) : asrv :=
  let id := as_next w in
  let w := receive w in
  let '(d, u) := insert_new_order (as_del w) (mk_order node session id v i) in
  let w := set_del w d in
  match u with
  | Immediate blocking _ => start w id node session i blocking
  | Queued cancelled st label =>
      let w := log_disp w (map (fun c => (st_task c, Supplanted node session)) cancelled) in
      match st with
      | Some st => stop w st node session label
      | None => w
      end
  | AssertFailed => log_panic w
  end.

(** src/service/async_srv.rs:342-394: the loop of [serve_next_async_request], at most as
    many rounds as there are requests in the queue plus one. [alive]: the nodes which
    still have a target (361-366). *)
Fixpoint serve_next (fuel : nat) (alive : entity -> bool) (label : option nat) (w : asrv) : asrv :=
  match pop_next (as_del w) label with
  | None => log_panic w
  | Some (d, None) => set_del w d
  | Some (d, Some o) =>
      let w := set_del w d in
      if alive (d_source o) then
        start w (d_task o) (d_source o) (d_session o) (d_instr o)
          (Some (option_map i_label (d_instr o)))
      else
        match fuel with
        | 0 => w
        | S fuel => serve_next fuel alive label (log_dropped w [d_task o])
        end
  end.

(** src/operation/operate_task.rs:373-428 [cleanup_task]. *)
Definition same_clean (c : nat) (t : task) : bool :=
  match t_clean t with Some c' => Nat.eqb c' c | None => false end.
Definition cleanup_task (w : asrv) (id node : entity) (block : option (option nat))
  (clean : option nat) : asrv :=
  let w := match block with
           | Some l => set_unblock w (as_unblock w ++ [l])
           | None => w
           end in
  let ts := filter (fun t => negb (Nat.eqb (t_id t) id)) (as_tasks w) in
  let w := set_tasks w ts in
  match clean with
  | Some c =>
      if existsb (fun t => Nat.eqb (t_node t) node && same_clean c t) ts then w
      else log_notified w [(node, c)]
  | None => w
  end.

(** src/operation/operate_task.rs:202-321 [OperateTask::execute] when the future is ready.
    The notice for nodes with streams (260-279) is left out. When it is pending nothing
    changes; the case of a task despawned while it is polled is [TGone]. *)
Definition poll_ready (w : asrv) (id : entity) : asrv :=
  match find_task (as_tasks w) id with
  | Some t =>
      match t_mode t with
      | TRun => cleanup_task (log_done w id) id (t_node t) (t_block t) None
      | _ => w
      end
  | None => w
  end.

(** src/operation/operate_task.rs:153-163 and 339-343: a cancellation has completed. They
    may complete in any order. *)
Definition cancelled (w : asrv) (k : nat) : asrv :=
  match remove_nth k (as_cancels w) with
  | Some (c, cs) =>
      let w := cleanup_task (set_cancels w cs) (c_task c) (c_node c) (c_block c) (c_clean c) in
      match c_cause c with
      | Some r => log_disp w [(c_task c, r)]
      | None => log_cleaned w [c_task c]
      end
  | None => w
  end.

(** src/operation/operate_task.rs:323-359 [OperateTask::cleanup] as called by 493-496. *)
Definition clean_task (c : nat) (w : asrv) (id : entity) : asrv :=
  match find_task (as_tasks w) id with
  | Some t =>
      match t_mode t with
      | TRun =>
          set_cancels
            (set_tasks w (map_task id (with_mode TCleaning) (as_tasks w)))
            (as_cancels w ++ [capture t (Some c) None])
      | TCleaning => cleanup_task w id (t_node t) None (Some c)
      | TStopping | TGone => w
      end
  | None => w
  end.

(** src/operation/operate_service.rs:91-115 [OperateService::cleanup] for an asynchronous
    service, with src/operation/operate_task.rs:468-499 [ActiveTasksStorage::cleanup]. *)
Definition listed (node session : entity) (t : task) : bool :=
  Nat.eqb (t_node t) node && Nat.eqb (t_session t) session.
Definition clean_node (w : asrv) (node session : entity) (c : nat) : asrv :=
  let gone := filter (fun o => Nat.eqb (d_session o) session) (queued (as_del w)) in
  let w := log_cleaned (set_del w (delivery_cleanup (as_del w) session)) (map d_task gone) in
  let ids := map t_id (filter (listed node session) (as_tasks w)) in
  match ids with
  | [] => log_notified w [(node, c)]
  | _ =>
      let mark t := if listed node session t
                    then mk_task (t_id t) (t_node t) (t_session t) (t_instr t) (t_block t)
                           (t_mode t) (Some c)
                    else t in
      fold_left (clean_task c) ids (set_tasks w (map mark (as_tasks w)))
  end.

(** src/operation/operate_task.rs:126-167: the entity of a task is despawned by somebody
    else. *)
Definition despawn_task (w : asrv) (id : entity) : asrv :=
  match find_task (as_tasks w) id with
  | Some t =>
      match t_mode t with
      | TRun =>
          set_cancels
            (set_tasks w (map_task id (with_mode TGone) (as_tasks w)))
            (as_cancels w ++ [capture t None (Some TaskDespawned)])
      | _ => set_tasks w (map_task id (with_mode TGone) (as_tasks w))
      end
  | None => w
  end.

(** src/flush.rs:132-136: one blocker is taken from the roster. *)
Definition unblock (w : asrv) (alive : entity -> bool) : asrv :=
  match as_unblock w with
  | [] => w
  | l :: us => serve_next (length (queued (as_del w))) alive l (set_unblock w us)
  end.

Inductive event :=
| Request (node session : entity) (i : option instr) (v : V)
| Ready (id : entity)
| Cancelled (k : nat)
| Unblock (alive : entity -> bool)
| Clean (node session : entity) (c : nat)
| Despawn (id : entity).

Definition step (w : asrv) (e : event) : asrv :=
  match e with
  | Request n s i v => serve w n s i v
  | Ready id => poll_ready w id
  | Cancelled k => cancelled w k
  | Unblock alive => unblock w alive
  | Clean n s c => clean_node w n s c
  | Despawn id => despawn_task w id
  end.

Definition run (w : asrv) (es : list event) : asrv := fold_left step es w.

End Delivery.

Arguments order : clear implicits.
Arguments serial : clear implicits.
Arguments delivery : clear implicits.
Arguments update : clear implicits.
Arguments asrv : clear implicits.
Arguments event : clear implicits.
