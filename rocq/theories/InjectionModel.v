(** Injecting requests into services that come with the message: src/operation/injection.rs.

    One injection node. The services are the environment: a task entity made for a request may
    respond once, or its request may be disposed of, at any time after it was started, and its
    cleanup ([OperateService::cleanup], src/operation/operate_service.rs 91-115) may be finished at
    once or later. Not modelled: streams, the disposals themselves, and that sessions which have
    ended refuse inputs (src/input.rs 203-217, see InputModel). *)
From Verif Require Import Base ScopeModel.

Section Injection.
  Context {V R : Type}.

  (** What the service has done with the request of a task entity. *)
  Inductive tstate :=
  | TRunning                    (* in progress, or waiting for the service *)
  | TAnswered                   (* the response was given to the finish entity *)
  | TDisposed                   (* there will be no response *)
  | TStopping (id : entity)     (* cleanup [id] waits for it *)
  | TStopped.                   (* cleaned up *)

  (** injection.rs 89-99: the task entity, with the session of its input (105-109) and its
      [SingleTargetStorage]. *)
  Record itask := mk_itask { it_sess : entity; it_fin : entity; it_state : tstate }.

  (** injection.rs 260-264 [Injected]. *)
  Record injected := mk_injected { in_sess : entity; in_task : entity; in_fin : entity }.

  (** What can be observed, in the order in which it happens. *)
  Inductive ievent :=
  | JvIssued (s : entity) (v : V)         (* the node got a request with a service *)
  | JvStarted (s t : entity) (v : V)      (* handed to the service on task entity t *)
  | JvResponse (s t : entity) (r : R)     (* the service responded *)
  | JvDisposed (s t : entity)             (* the request was disposed of *)
  | JvOut (s t : entity) (r : R)          (* the response went on to the target of the node *)
  | JvLost (s : entity) (r : R)           (* a response was dropped, with a Broken error *)
  | JvBroken                              (* any other Broken error *)
  | JvClean (id s : entity)               (* cleanup [id] for session s was asked for *)
  | JvStopped (t : entity)                (* a task entity finished its cleanup *)
  | JvConfirmed (id : entity).            (* the cleaner was told that the node is clean *)

  Record iworld := mk_iworld {
    iw_next : entity;                              (* the next new entity *)
    iw_inputs : list (entity * V);                 (* of the node, oldest first *)
    iw_list : list injected;                       (* [InjectionStorage] *)
    iw_tasks : emap itask;
    iw_fins : emap (option (entity * R));          (* finish entities and their input *)
    iw_contents : contents;                        (* [CleanupContents] of the node *)
    iw_await : emap entity;                        (* [AwaitingCleanup]: id to session *)
    iw_done : list entity;                         (* [roster.cleanup_finished], in order *)
    iw_log : list ievent }.

  Definition ilog (l : list ievent) (w : iworld) : iworld :=
    mk_iworld (iw_next w) (iw_inputs w) (iw_list w) (iw_tasks w) (iw_fins w) (iw_contents w)
      (iw_await w) (iw_done w) (iw_log w ++ l).

  Definition put_task (t : entity) (x : option itask) (w : iworld) : iworld :=
    mk_iworld (iw_next w) (iw_inputs w) (iw_list w) (emap_set (iw_tasks w) t x) (iw_fins w)
      (iw_contents w) (iw_await w) (iw_done w) (iw_log w).

  Definition put_fin (f : entity) (x : option (option (entity * R))) (w : iworld) : iworld :=
    mk_iworld (iw_next w) (iw_inputs w) (iw_list w) (iw_tasks w) (emap_set (iw_fins w) f x)
      (iw_contents w) (iw_await w) (iw_done w) (iw_log w).

  Definition set_list (l : list injected) (w : iworld) : iworld :=
    mk_iworld (iw_next w) (iw_inputs w) l (iw_tasks w) (iw_fins w)
      (iw_contents w) (iw_await w) (iw_done w) (iw_log w).

  Definition set_state (x : itask) (st : tstate) : itask := mk_itask (it_sess x) (it_fin x) st.

  (** src/input.rs 173-183 [give_input] on the injection node. *)
  Definition igive (s : entity) (v : V) (w : iworld) : iworld :=
    mk_iworld (iw_next w) (iw_inputs w ++ [(s, v)]) (iw_list w) (iw_tasks w) (iw_fins w)
      (iw_contents w) (iw_await w) (iw_done w) (iw_log w ++ [JvIssued s v]).

  (** injection.rs 62-135 [execute]. A service that responds or refuses at once (123-132) is an
      [irespond] or [idispose] right after it. *)
  Definition iexec (w : iworld) : iworld :=
    match iw_inputs w with
    | [] => w
    | (s, v) :: rest =>
        let finish := iw_next w in
        let task := S (iw_next w) in
        mk_iworld (S (S (iw_next w))) rest (iw_list w ++ [mk_injected s task finish])
          (emap_set (iw_tasks w) task (Some (mk_itask s finish TRunning)))
          (emap_set (iw_fins w) finish (Some None))
          (iw_contents w) (iw_await w) (iw_done w) (iw_log w ++ [JvStarted s task v])
    end.

  (** The service gives its response to the target of the task entity. *)
  Definition irespond (t : entity) (r : R) (w : iworld) : iworld :=
    match iw_tasks w t with
    | Some x =>
        match it_state x with
        | TRunning =>
            ilog [JvResponse (it_sess x) t r]
              (put_fin (it_fin x) (Some (Some (it_sess x, r)))
                 (put_task t (Some (set_state x TAnswered)) w))
        | _ => w
        end
    | None => w
    end.

  (** The service disposes of the request: a missing service (operate_service.rs 194-215), or a task
      that is dropped (src/operation/operate_task.rs). *)
  Definition idispose (t : entity) (w : iworld) : iworld :=
    match iw_tasks w t with
    | Some x =>
        match it_state x with
        | TRunning => ilog [JvDisposed (it_sess x) t] (put_task t (Some (set_state x TDisposed)) w)
        | _ => w
        end
    | None => w
    end.

  (** injection.rs 289-319 [InjectionFinish::execute] of the finish entity f. *)
  Definition ifinish (f : entity) (w : iworld) : iworld :=
    match iw_fins w f with
    | Some (Some (s, r)) =>
        let w1 := put_fin f None w in
        match find (fun i => Nat.eqb (in_fin i) f) (iw_list w) with
        | None => ilog [JvLost s r] w1
        | Some i =>
            let w2 := set_list (filter (fun i => negb (Nat.eqb (in_fin i) f)) (iw_list w)) w1 in
            match iw_tasks w (in_task i) with
            | None => ilog [JvBroken] w2
            | Some _ => ilog [JvOut s (in_task i) r] (put_task (in_task i) None w2)
            end
        end
    | _ => w
    end.

  (** src/operation/cleanup.rs 194-206 [notify_cleaned] of the task entity t towards the node. *)
  Definition istop (id t : entity) (x : itask) (w : iworld) : iworld :=
    let '(c, done) := notify_contents (iw_contents w) id t in
    mk_iworld (iw_next w) (iw_inputs w) (iw_list w)
      (emap_set (iw_tasks w) t (Some (set_state x TStopped))) (iw_fins w) c (iw_await w)
      (if done then iw_done w ++ [id] else iw_done w) (iw_log w ++ [JvStopped t]).

  (** injection.rs 179-193: [now] says which task entities are clean at once. *)
  Fixpoint clean_tasks (now : entity -> bool) (id : entity) (l : list entity) (w : iworld) : iworld :=
    match l with
    | [] => w
    | t :: l' =>
        match iw_tasks w t with
        | None => ilog [JvBroken] w
        | Some x =>
            clean_tasks now id l'
              (if now t then istop id t x w else put_task t (Some (set_state x (TStopping id))) w)
        end
    end.

  (** injection.rs 137-196 [cleanup]. *)
  Definition icleanup (now : entity -> bool) (id s : entity) (w : iworld) : iworld :=
    let nodes := map in_task (filter (fun i => Nat.eqb (in_sess i) s) (iw_list w)) in
    let w1 :=
      mk_iworld (iw_next w) (filter (fun sv => negb (Nat.eqb (fst sv) s)) (iw_inputs w))
        (filter (fun i => negb (Nat.eqb (in_sess i) s)) (iw_list w)) (iw_tasks w) (iw_fins w)
        (iw_contents w) (iw_await w) (iw_done w) (iw_log w ++ [JvClean id s]) in
    match nodes with
    | [] => ilog [JvConfirmed id] w1
    | _ =>
        clean_tasks now id nodes
          (mk_iworld (iw_next w1) (iw_inputs w1) (iw_list w1) (iw_tasks w1) (iw_fins w1)
             (add_cleanup (iw_contents w1) id nodes) (emap_set (iw_await w1) id (Some s))
             (iw_done w1) (iw_log w1))
    end.

  (** The asynchronous cleanup of a task entity is finished. *)
  Definition istopped (t : entity) (w : iworld) : iworld :=
    match iw_tasks w t with
    | Some x => match it_state x with TStopping id => istop id t x w | _ => w end
    | None => w
    end.

  (** src/operation/cleanup.rs 208-243 [Cleanup::trigger] and injection.rs 212-227
      [finalize_cleanup], for the next finished cleanup of the roster. *)
  Definition ifinalize (w : iworld) : iworld :=
    match iw_done w with
    | [] => w
    | id :: rest =>
        let w1 :=
          mk_iworld (iw_next w) (iw_inputs w) (iw_list w) (iw_tasks w) (iw_fins w)
            (c_remove (iw_contents w) id) (emap_set (iw_await w) id None) rest (iw_log w) in
        match iw_await w id with
        | None => ilog [JvBroken] w1
        | Some _ => ilog [JvConfirmed id] w1
        end
    end.

  (** injection.rs 198-205 [is_reachable] without what is upstream. *)
  Definition ireachable (w : iworld) (s : entity) : bool :=
    existsb (fun sv => Nat.eqb (fst sv) s) (iw_inputs w) ||
    existsb (fun i => Nat.eqb (in_sess i) s) (iw_list w).

  (** What happens, in any order. *)
  Inductive iop :=
  | OGive (s : entity) (v : V)
  | OExec
  | ORespond (t : entity) (r : R)
  | ODispose (t : entity)
  | OFinish (f : entity)
  | OCleanup (now : entity -> bool) (id s : entity)
  | OStopped (t : entity)
  | OFinalize.

  Definition istep (w : iworld) (o : iop) : iworld :=
    match o with
    | OGive s v => igive s v w
    | OExec => iexec w
    | ORespond t r => irespond t r w
    | ODispose t => idispose t w
    | OFinish f => ifinish f w
    | OCleanup now id s => icleanup now id s w
    | OStopped t => istopped t w
    | OFinalize => ifinalize w
    end.

  (** injection.rs 44-60 [setup]. *)
  Definition ifresh (n : entity) : iworld := mk_iworld n [] [] emap_empty emap_empty [] emap_empty [] [].

  Definition irun (w : iworld) (os : list iop) : iworld := fold_left istep os w.
End Injection.
Arguments ievent : clear implicits.
Arguments iworld : clear implicits.
Arguments iop : clear implicits.
