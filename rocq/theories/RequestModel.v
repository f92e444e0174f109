(** Requests on their way from a node to a service: src/service/internal.rs 147-243
    ([service_hook], [dispatch_service]), src/operation/operate_service.rs 76-89 and 147-215
    (executing the node, disposing of requests for missing services), and the tracking of
    despawned services (internal.rs 92-111, src/flush.rs 216-239).

    What services do is arbitrary: [run] says whether the service lets a request wait (the
    [DeliveryUpdate::Queued] of src/service/async_srv.rs 145-200, workflow.rs 203-224 and the queue
    of a continuous service) and otherwise what its system does while it runs.  Which order is
    popped next and what supplants what is in DeliveryModel and ContinuousModel; here the oldest
    order is served next.  Tasks, responses and streams are not part of this model. *)
From Verif Require Import Base.

Section Request.
  Context {V U : Type}.

  (** A node made by [OperateService::setup] (operate_service.rs 57-74): [ProviderStorage] and the
      [InputStorage], oldest input first.  [DisposeForUnavailableService] (68) is always inserted
      along with [ProviderStorage] (also in injection.rs 92-95) and so not a field. *)
  Record snode := mk_snode { sn_prov : entity; sn_inputs : list (entity * V) }.

  (** A request that waits in the [Delivery] component (src/service/delivery.rs 105-113) or in the
      [ContinuousQueueStorage] (src/service/continuous.rs 575-581) of its provider. *)
  Record sorder := mk_sorder { so_prov : entity; so_src : entity; so_sess : entity; so_req : V }.

  (** internal.rs 214-219 [PendingServiceRequest]; the target and the instructions play no role. *)
  Record pending := mk_pending { pd_prov : entity; pd_src : entity }.

  (** What can be observed, in the order in which it happens.  The requests of [RvDisposed] are
      dropped by the code (operate_service.rs 202), only the session is told. *)
  Inductive revent :=
  | RvIssued (n s : entity) (v : V)            (* an input was given to the node *)
  | RvServed (p n s : entity) (v : V)          (* the service ran *)
  | RvQueued (p n s : entity) (v : V)          (* the service lets the request wait *)
  | RvNext (p n s : entity) (v : V)            (* the service ran for a request that waited *)
  | RvDisposed (p n s : entity) (v : V).       (* [Disposal::service_unavailable(p, n)] for the session *)

  Record rworld := mk_rworld {
    rw_nodes : list (entity * snode);          (* in the order of the query, operate_service.rs 161 *)
    rw_alive : entity -> bool;                 (* has a [ServiceHook] *)
    rw_tracked : entity -> bool;               (* its hook has a [ServiceLifecycle] *)
    rw_removed : list entity;                  (* the channel of [ServiceLifecycleChannel] *)
    rw_orders : list sorder;
    rw_roster : list entity;                   (* [OperationRoster::queue]: nodes to execute *)
    rw_queue : list pending;                   (* [ServiceQueue::queue], front first *)
    rw_user : U;
    rw_log : list revent }.

  Definition set_nodes (w : rworld) (ns : list (entity * snode)) : rworld :=
    mk_rworld ns (rw_alive w) (rw_tracked w) (rw_removed w) (rw_orders w) (rw_roster w) (rw_queue w)
      (rw_user w) (rw_log w).
  Definition set_orders (w : rworld) (os : list sorder) : rworld :=
    mk_rworld (rw_nodes w) (rw_alive w) (rw_tracked w) (rw_removed w) os (rw_roster w) (rw_queue w)
      (rw_user w) (rw_log w).
  Definition set_roster (w : rworld) (r : list entity) : rworld :=
    mk_rworld (rw_nodes w) (rw_alive w) (rw_tracked w) (rw_removed w) (rw_orders w) r (rw_queue w)
      (rw_user w) (rw_log w).
  Definition set_queue (w : rworld) (q : list pending) : rworld :=
    mk_rworld (rw_nodes w) (rw_alive w) (rw_tracked w) (rw_removed w) (rw_orders w) (rw_roster w) q
      (rw_user w) (rw_log w).
  Definition set_user (w : rworld) (u : U) : rworld :=
    mk_rworld (rw_nodes w) (rw_alive w) (rw_tracked w) (rw_removed w) (rw_orders w) (rw_roster w)
      (rw_queue w) u (rw_log w).
  Definition add_log (w : rworld) (l : list revent) : rworld :=
    mk_rworld (rw_nodes w) (rw_alive w) (rw_tracked w) (rw_removed w) (rw_orders w) (rw_roster w)
      (rw_queue w) (rw_user w) (rw_log w ++ l).

  Fixpoint find_node (n : entity) (l : list (entity * snode)) : option snode :=
    match l with
    | [] => None
    | (m, x) :: l' => if Nat.eqb n m then Some x else find_node n l'
    end.

  Fixpoint put_inputs (n : entity) (i : list (entity * V)) (l : list (entity * snode))
    : list (entity * snode) :=
    match l with
    | [] => []
    | (m, x) :: l' =>
        if Nat.eqb n m then (m, mk_snode (sn_prov x) i) :: l' else (m, x) :: put_inputs n i l'
    end.

  (** src/input.rs 120-180 [give_input] without what happens for ended sessions; nothing happens
      for a node that does not exist.  The roster entry is added by [OpGive] below. *)
  Definition give (n s : entity) (v : V) (w : rworld) : rworld :=
    match find_node n (rw_nodes w) with
    | None => w
    | Some x =>
        add_log (set_nodes w (put_inputs n (sn_inputs x ++ [(s, v)]) (rw_nodes w))) [RvIssued n s v]
    end.

  (** operate_service.rs 194-215 [dispose_for_unavailable_service]: all inputs, oldest first. *)
  Definition dispose_node (p : entity) (w : rworld) (n : entity) : rworld :=
    match find_node n (rw_nodes w) with
    | None => w
    | Some x =>
        add_log (set_nodes w (put_inputs n [] (rw_nodes w)))
          (map (fun sv => RvDisposed p n (fst sv) (snd sv)) (sn_inputs x))
    end.

  (** operate_service.rs 147-181 [dispose_for_despawned_service]. *)
  Definition dispose_service (p : entity) (w : rworld) : rworld :=
    fold_left (dispose_node p)
      (map fst (filter (fun nx => Nat.eqb (sn_prov (snd nx)) p) (rw_nodes w))) w.

  (** Despawning a service: the queue of waiting requests is a component of it and goes with it,
      dropping the hook sends a notice if it is tracked (internal.rs 107-111). *)
  Definition despawn (p : entity) (w : rworld) : rworld :=
    if rw_alive w p then
      mk_rworld (rw_nodes w) (fun q => if Nat.eqb q p then false else rw_alive w q)
        (fun q => if Nat.eqb q p then false else rw_tracked w q)
        (if rw_tracked w p then rw_removed w ++ [p] else rw_removed w)
        (filter (fun o => negb (Nat.eqb (so_prov o) p)) (rw_orders w))
        (rw_roster w) (rw_queue w) (rw_user w) (rw_log w)
    else w.

  (** What the system of a service can do to this world while it runs. *)
  Inductive action :=
  | AcRequest (n s : entity) (v : V)   (* give an input and execute the node, in a nested flush *)
  | AcDespawn (p : entity).

  (** [None]: the request waits; [Some]: the service runs and does these things. *)
  Variable run : U -> entity -> entity -> entity -> V -> U * option (list action).

  (** Executing a node while services are delivered: operate_service.rs 76-89 and internal.rs
      214-228. *)
  Definition enqueue (n : entity) (w : rworld) : rworld :=
    match find_node n (rw_nodes w) with
    | None => w
    | Some x => set_queue w (rw_queue w ++ [mk_pending (sn_prov x) n])
    end.

  Definition act (w : rworld) (a : action) : rworld :=
    match a with
    | AcRequest n s v => enqueue n (give n s v w)
    | AcDespawn p => despawn p w
    end.

  (** [service_hook] (internal.rs 147-184) with [ServiceTrait::serve]: the oldest input of the node
      is taken (e.g. blocking.rs 92-98, async_srv.rs 109-113); without input nothing happens
      ([NotReady]).  That a component other than the hook is missing (blocking.rs 121-131) is not
      modelled. *)
  Definition serve (q : pending) (w : rworld) : rworld :=
    match find_node (pd_src q) (rw_nodes w) with
    | None => w
    | Some x =>
        match sn_inputs x with
        | [] => w
        | (s, v) :: rest =>
            let w1 := set_nodes w (put_inputs (pd_src q) rest (rw_nodes w)) in
            match run (rw_user w) (pd_prov q) (pd_src q) s v with
            | (u, None) =>
                add_log (set_orders (set_user w1 u)
                           (rw_orders w ++ [mk_sorder (pd_prov q) (pd_src q) s v]))
                  [RvQueued (pd_prov q) (pd_src q) s v]
            | (u, Some acts) =>
                fold_left act acts
                  (add_log (set_user w1 u) [RvServed (pd_prov q) (pd_src q) s v])
            end
        end
    end.

  (** The last element and the others: [VecDeque::pop_back]. *)
  Fixpoint pop_back (q : list pending) : option (pending * list pending) :=
    match q with
    | [] => None
    | x :: q' =>
        match pop_back q' with
        | None => Some (x, [])
        | Some (y, r) => Some (y, x :: r)
        end
    end.

  (** The loop of internal.rs 232-241; [prov] is the provider of the request that started it.
      [None]: more than [fuel] rounds. *)
  Fixpoint deliver (fuel : nat) (prov : entity) (w : rworld) : option rworld :=
    match pop_back (rw_queue w) with
    | None => Some w
    | Some (q, rest) =>
        match fuel with
        | 0 => None
        | S fuel' =>
            let w1 := set_queue w rest in
            if rw_alive w (pd_prov q)
            then deliver fuel' prov (serve q w1)
            else deliver fuel' prov (dispose_service prov w1)
        end
    end.

  (** Executing a node from a flush: operate_service.rs 76-89, internal.rs 201-243. *)
  Definition exec_node (fuel : nat) (n : entity) (w : rworld) : option rworld :=
    match find_node n (rw_nodes w) with
    | None => Some w
    | Some x => deliver fuel (sn_prov x) (enqueue n w)
    end.

  (** The first order of a provider, and the others. *)
  Fixpoint pop_order (p : entity) (l : list sorder) : option (sorder * list sorder) :=
    match l with
    | [] => None
    | o :: l' =>
        if Nat.eqb (so_prov o) p then Some (o, l')
        else match pop_order p l' with
             | None => None
             | Some (x, r) => Some (x, o :: r)
             end
    end.

  (** serve_next_async_request (async_srv.rs 329-395), serve_next_workflow_request (workflow.rs
      280-351): nothing if the provider is gone. *)
  Definition serve_next (p : entity) (w : rworld) : rworld :=
    match pop_order p (rw_orders w) with
    | None => w
    | Some (o, rest) =>
        add_log (set_orders w rest) [RvNext (so_prov o) (so_src o) (so_sess o) (so_req o)]
    end.

  (** flush.rs 216-239, one collection: removed services first, then new ones are tracked. *)
  Definition collect (w : rworld) : rworld :=
    fold_left (fun w p => dispose_service p w) (rw_removed w)
      (mk_rworld (rw_nodes w) (rw_alive w) (rw_alive w) [] (rw_orders w) (rw_roster w) (rw_queue w)
         (rw_user w) (rw_log w)).

  (** What happens from outside, in any order. *)
  Inductive rop :=
  | OpGive (n s : entity) (v : V)      (* a node gets an input, from an impulse or another node *)
  | OpExec                             (* the flush executes the next node of the roster *)
  | OpNext (p : entity)                (* the service becomes free for the next request that waits *)
  | OpDespawn (p : entity)
  | OpCollect.

  Inductive rstep : rworld -> rop -> rworld -> Prop :=
  | rs_give : forall w n s v,
      rstep w (OpGive n s v)
        (let w1 := give n s v w in set_roster w1 (rw_roster w1 ++ [n]))
  | rs_exec : forall w n r fuel w',
      rw_roster w = n :: r -> exec_node fuel n (set_roster w r) = Some w' -> rstep w OpExec w'
  | rs_next : forall w p, rstep w (OpNext p) (serve_next p w)
  | rs_despawn : forall w p, rstep w (OpDespawn p) (despawn p w)
  | rs_collect : forall w, rstep w OpCollect (collect w).

  (** A world in which nothing was requested yet. *)
  Definition rfresh (w : rworld) : Prop :=
    NoDup (map fst (rw_nodes w)) /\
    (forall n x, In (n, x) (rw_nodes w) -> sn_inputs x = []) /\
    rw_orders w = [] /\ rw_roster w = [] /\ rw_queue w = [] /\ rw_log w = [].

  Inductive rreach (w0 : rworld) : rworld -> Prop :=
  | rr_refl : rreach w0 w0
  | rr_step : forall w o w', rreach w0 w -> rstep w o w' -> rreach w0 w'.
End Request.
Arguments snode : clear implicits.
Arguments sorder : clear implicits.
Arguments revent : clear implicits.
Arguments rworld : clear implicits.
Arguments action : clear implicits.
Arguments rop : clear implicits.
