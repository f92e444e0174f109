(** A series of requests: src/request.rs 88-127, src/series.rs 98-170, src/series/{internal, detach, taken,
    finished, store, push}.rs, and the part of the flush which drops unused series, src/flush.rs 251-281 and 328-391.

    The world holds one series, whose entities are numbered in the order in which they come in the
    series: 0 is the source spawned by [request], 1 its target, and each [then] spawns the next.  Another series
    has other entities and appears here only by the order of the actions, which is arbitrary.
    Providers are abstract: one which is executed is in progress until the environment says what it responds, or that it
    does not ([ARespond]).  A blocking map is one for which this happens at once.  Streams are not modelled here. *)
From Verif Require Import Base.

Section Series.
  Context {V : Type}.

  (** What is executed for an entity, and the component which says where the result goes. *)
  Inductive sop :=
  | OProvider (target : entity)   (* a provider connected to the entity, with its SingleTargetStorage *)
  | OTaken                        (* TakenResponse, taken.rs 27-64 *)
  | OStore                        (* Store, store.rs 25-59 *)
  | OPush                         (* Push with is_stream = false, push.rs 25-103 *)
  | OFinished.                    (* Finished, finished.rs 23-36 *)

  (** The components of an entity of the series. [InputStorage] is there if the operation has one. *)
  Record cell := {
    c_parent : option entity;             (* ChildOf *)
    c_detached : option bool;             (* Detached, detach.rs 28-35 *)
    c_unused : bool;                      (* UnusedTarget *)
    c_active : bool;                      (* SessionStatus::Active *)
    c_op : option sop;
    c_input : list (entity * V) }.        (* InputStorage, oldest first: (session, data) *)

  (** What an observer sees. *)
  Inductive event :=
  | ERan (e : entity) (v : V)               (* the provider connected to e gets the request v *)
  | EResponded (e : entity) (r : option V)  (* its response, or its failure *)
  | EDelivered (v : V) | ECancelled         (* the promise of [take_response] *)
  | EStored (v : V) | EPushed (v : V)       (* into the entity given to [store] or [push] *)
  | EUnused (e : entity).                   (* UnhandledErrors::unused_targets, flush.rs 382-390 *)

  Record sstate := {
    s_cells : emap cell;
    s_next : nat;                       (* the next entity *)
    s_later : list entity;              (* DeferredRoster: queue *)
    s_queue : list entity;              (* OperationRoster: queue *)
    s_cancel : list entity;             (* targets of OperationRoster: cancel *)
    s_despawn : list entity;            (* OperationRoster: deferred_despawn *)
    s_running : list (entity * entity); (* providers in progress: source and session *)
    s_dropped : bool;                   (* the promise was dropped *)
    s_receiver : bool;                  (* the entity given to store or push exists *)
    s_channel : list entity;            (* SeriesLifecycleChannel *)
    s_log : list event }.

  Definition set_cells (s : sstate) x := {| s_cells := x; s_next := s_next s; s_later := s_later s; s_queue := s_queue s; s_cancel := s_cancel s; s_despawn := s_despawn s; s_running := s_running s; s_dropped := s_dropped s; s_receiver := s_receiver s; s_channel := s_channel s; s_log := s_log s |}.
  Definition set_next (s : sstate) x := {| s_cells := s_cells s; s_next := x; s_later := s_later s; s_queue := s_queue s; s_cancel := s_cancel s; s_despawn := s_despawn s; s_running := s_running s; s_dropped := s_dropped s; s_receiver := s_receiver s; s_channel := s_channel s; s_log := s_log s |}.
  Definition set_later (s : sstate) x := {| s_cells := s_cells s; s_next := s_next s; s_later := x; s_queue := s_queue s; s_cancel := s_cancel s; s_despawn := s_despawn s; s_running := s_running s; s_dropped := s_dropped s; s_receiver := s_receiver s; s_channel := s_channel s; s_log := s_log s |}.
  Definition set_queue (s : sstate) x := {| s_cells := s_cells s; s_next := s_next s; s_later := s_later s; s_queue := x; s_cancel := s_cancel s; s_despawn := s_despawn s; s_running := s_running s; s_dropped := s_dropped s; s_receiver := s_receiver s; s_channel := s_channel s; s_log := s_log s |}.
  Definition set_cancel (s : sstate) x := {| s_cells := s_cells s; s_next := s_next s; s_later := s_later s; s_queue := s_queue s; s_cancel := x; s_despawn := s_despawn s; s_running := s_running s; s_dropped := s_dropped s; s_receiver := s_receiver s; s_channel := s_channel s; s_log := s_log s |}.
  Definition set_despawn (s : sstate) x := {| s_cells := s_cells s; s_next := s_next s; s_later := s_later s; s_queue := s_queue s; s_cancel := s_cancel s; s_despawn := x; s_running := s_running s; s_dropped := s_dropped s; s_receiver := s_receiver s; s_channel := s_channel s; s_log := s_log s |}.
  Definition set_running (s : sstate) x := {| s_cells := s_cells s; s_next := s_next s; s_later := s_later s; s_queue := s_queue s; s_cancel := s_cancel s; s_despawn := s_despawn s; s_running := x; s_dropped := s_dropped s; s_receiver := s_receiver s; s_channel := s_channel s; s_log := s_log s |}.
  Definition set_dropped (s : sstate) x := {| s_cells := s_cells s; s_next := s_next s; s_later := s_later s; s_queue := s_queue s; s_cancel := s_cancel s; s_despawn := s_despawn s; s_running := s_running s; s_dropped := x; s_receiver := s_receiver s; s_channel := s_channel s; s_log := s_log s |}.
  Definition set_receiver (s : sstate) x := {| s_cells := s_cells s; s_next := s_next s; s_later := s_later s; s_queue := s_queue s; s_cancel := s_cancel s; s_despawn := s_despawn s; s_running := s_running s; s_dropped := s_dropped s; s_receiver := x; s_channel := s_channel s; s_log := s_log s |}.
  Definition set_channel (s : sstate) x := {| s_cells := s_cells s; s_next := s_next s; s_later := s_later s; s_queue := s_queue s; s_cancel := s_cancel s; s_despawn := s_despawn s; s_running := s_running s; s_dropped := s_dropped s; s_receiver := s_receiver s; s_channel := x; s_log := s_log s |}.
  Definition note (s : sstate) e := {| s_cells := s_cells s; s_next := s_next s; s_later := s_later s; s_queue := s_queue s; s_cancel := s_cancel s; s_despawn := s_despawn s; s_running := s_running s; s_dropped := s_dropped s; s_receiver := s_receiver s; s_channel := s_channel s; s_log := s_log s ++ [e] |}.

  (** Changes the components of an entity, if it exists. *)
  Definition modify (e : entity) (f : cell -> cell) (s : sstate) : sstate :=
    set_cells s (emap_set (s_cells s) e (option_map f (s_cells s e))).
  Definition child_of (p : entity) (c : cell) := {| c_parent := Some p; c_detached := c_detached c; c_unused := c_unused c; c_active := c_active c; c_op := c_op c; c_input := c_input c |}.
  Definition orphan (c : cell) := {| c_parent := None; c_detached := c_detached c; c_unused := c_unused c; c_active := c_active c; c_op := c_op c; c_input := c_input c |}.
  Definition detach (c : cell) := {| c_parent := c_parent c; c_detached := Some true; c_unused := false; c_active := c_active c; c_op := c_op c; c_input := c_input c |}.
  Definition use (o : sop) (c : cell) := {| c_parent := c_parent c; c_detached := c_detached c; c_unused := false; c_active := c_active c; c_op := Some o; c_input := c_input c |}.
  Definition set_input (i : list (entity * V)) (c : cell) := {| c_parent := c_parent c; c_detached := c_detached c; c_unused := c_unused c; c_active := c_active c; c_op := c_op c; c_input := i |}.

  (** A target: request.rs 98-100 and series.rs 149-152. *)
  Definition fresh_target : cell :=
    {| c_parent := None; c_detached := Some false; c_unused := true; c_active := false; c_op := None; c_input := [] |}.

  (** The last entity of the series which is being built: [Series::target]. *)
  Definition target (s : sstate) : entity := pred (s_next s).

  (** src/request.rs 88-127, with [InputCommand], src/input.rs 397-412. *)
  Definition request (v : V) : sstate :=
    let source := {| c_parent := Some 1; c_detached := None; c_unused := false; c_active := true; c_op := Some (OProvider 1); c_input := [(0, v)] |} in
    {| s_cells := emap_set (emap_set emap_empty 1 (Some fresh_target)) 0 (Some source);
       s_next := 2; s_later := [0]; s_queue := []; s_cancel := []; s_despawn := []; s_running := [];
       s_dropped := false; s_receiver := true; s_channel := []; s_log := [] |}.

  (** How a series goes on. *)
  Inductive call := Then | Detach.
  Definition build (s : sstate) (c : call) : sstate :=
    match c with
    | Then => (* series.rs 144-168 *)
        let new := s_next s in
        let spawned := set_next (set_cells s (emap_set (s_cells s) new (Some fresh_target))) (S new) in
        modify (target s) (fun c => child_of new (use (OProvider new) c)) spawned
    | Detach => (* series.rs 98-103, detach.rs 37-50 *)
        modify (target s) detach s
    end.

  (** How a series ends. *)
  Inductive ending := Unused | Take | Store | Push.
  Definition finish (s : sstate) (t : ending) : sstate :=
    (* AddExecution, internal.rs 62-89; the source is a child of the target already *)
    match t with
    | Unused => s
    | Take => modify (target s) (use OTaken) s     (* series.rs 132-140 *)
    | Store => modify (target s) (use OStore) s
    | Push => modify (target s) (use OPush) s
    end.
  Definition series (v : V) (calls : list call) (t : ending) : sstate := finish (fold_left build calls (request v)) t.

  (** Whether [e] can be reached from [x] by going from child to parent. *)
  Fixpoint below (fuel : nat) (m : emap cell) (e x : entity) : bool :=
    Nat.eqb x e ||
    match fuel with
    | 0 => false
    | S fuel => match m x with
                | Some c => match c_parent c with Some p => below fuel m e p | None => false end
                | None => false
                end
    end.
  (** [EntityWorldMut::despawn] (bevy_ecs), which despawns the children too. Nothing happens if there is no such entity. *)
  Definition despawn (e : entity) (s : sstate) : sstate :=
    set_cells s (fun x => if below (s_next s) (s_cells s) e x then None else s_cells s x).

  (** [Children] of an entity. *)
  Definition children (s : sstate) (e : entity) : list entity :=
    filter (fun x => match s_cells s x with Some c => match c_parent c with Some p => Nat.eqb p e | None => false end | None => false end)
      (seq 0 (s_next s)).
  (** [OperationRoster::purge], src/operation.rs. *)
  Definition purge (e : entity) (s : sstate) : sstate := set_queue s (filter (fun x => negb (Nat.eqb x e)) (s_queue s)).

  (** src/flush.rs 341-363: the loop over the children. Its state: the execution, whether to move up, the detached
      series, whether the loop was left. *)
  Definition look (a : sstate * entity * bool * option entity * bool) (child : entity) :=
    let '(s, execution, up, found, gone) := a in
    if gone : bool then a
    else match s_cells s child with
         | Some c => match c_detached c with
                     | None => a
                     | Some true => (s, execution, up, Some child, true)
                     | Some false => (purge execution s, child, true, found, false)
                     end
         | None => a
         end.
  (** src/flush.rs 338-370. *)
  Fixpoint climb (fuel : nat) (s : sstate) (execution : entity) (found : option entity) : sstate * option entity :=
    match fuel with
    | 0 => (s, found)
    | S fuel =>
        let '(s, execution, up, found, _) := fold_left look (children s execution) (s, execution, false, found, false) in
        if up : bool then climb fuel s execution found else (s, found)
    end.
  (** src/flush.rs 328-391. *)
  Definition drop_target (unused : bool) (s : sstate) (e : entity) : sstate :=
    let s := purge e s in
    let '(s, found) := climb (S (s_next s)) s e None in
    let s := match found with Some d => modify d orphan s | None => s end in
    let s := despawn e s in
    if unused then note s (EUnused e) else s.

  (** src/flush.rs 242-281. After line 269 [drop_targets] is empty, and the loop of line 279 is over this list. *)
  Definition collect (s : sstate) : sstate :=
    let s := set_later (set_queue s (s_queue s ++ s_later s)) [] in
    let unused := filter (fun e => match s_cells s e with Some c => c_unused c && match c_detached c with Some _ => true | None => false end | None => false end) (seq 0 (s_next s)) in
    let is_detached e := match s_cells s e with Some c => match c_detached c with Some d => d | None => false end | None => false end in
    let add_finish := filter is_detached unused in
    let drop_targets := filter (fun e => negb (is_detached e)) unused in
    let s := fold_left (fun s e => modify e (use OFinished) s) add_finish s in
    let s := fold_left (drop_target true) drop_targets s in
    let drop_targets := [] in
    let dropped_targets := s_channel s in
    let s := set_channel s [] in
    fold_left (drop_target false) drop_targets s.

  (** [ManageInput::give_input], src/input.rs 171-250: no entity is broken; a session which is not active does
      not get through; no storage of inputs means that the target is unused, or detached and to
      be despawned, or that something is broken. The result says whether the operation is broken. *)
  Definition give (session : entity) (v : V) (e : entity) (s : sstate) : sstate * bool :=
    match s_cells s e with
    | None => (s, false)
    | Some c =>
        match s_cells s session with
        | Some sc =>
            if c_active sc then
              match c_op c with
              | Some OFinished | None =>
                  if c_unused c then (set_queue s (s_queue s ++ [e]), true)
                  else match c_detached c with
                       | Some true => (set_despawn s (s_despawn s ++ [e]), true)
                       | _ => (s, false)
                       end
              | Some _ => (set_queue (modify e (set_input (c_input c ++ [(session, v)])) s) (s_queue s ++ [e]), true)
              end
            else (s, true)
        | None => (s, true)
        end
    end.

  (** [emit_broken] and other failures of the operation of an entity: a cancellation for the entity. *)
  Definition fail (e : entity) (s : sstate) : sstate := set_cancel s (s_cancel s ++ [e]).

  (** src/series/internal.rs 134-178 [cancel_execution], and taken.rs 94-104. *)
  Fixpoint terminal (fuel : nat) (m : emap cell) (e : entity) : entity :=
    match fuel with
    | 0 => e
    | S fuel => match m e with
                | Some c => match c_op c with Some (OProvider t) => terminal fuel m t | _ => e end
                | None => e
                end
    end.
  Definition cancel (e : entity) (s : sstate) : sstate :=
    match s_cells s e with
    | None => s                          (* no Cancellable component: reported as unhandled *)
    | Some _ =>
        let t := terminal (s_next s) (s_cells s) e in
        let s := match s_cells s t with
                 | Some c => match c_op c with
                             | Some OTaken => if s_dropped s then s else note s ECancelled
                             | _ => s
                             end
                 | None => s
                 end in
        despawn t s
    end.

  (** One execution: src/operation.rs 677-701 and the [execute] functions named above. *)
  Definition execute (e : entity) (s : sstate) : sstate :=
    match s_cells s e with
    | None => s
    | Some c =>
        match c_op c, c_input c with
        | Some (OProvider t), (session, v) :: rest =>
            set_running (note (modify e (set_input rest) s) (ERan e v)) (s_running s ++ [(e, session)])
        | Some OTaken, (session, v) :: rest =>
            let s := modify e (set_input rest) s in
            despawn e (if s_dropped s then s else note s (EDelivered v))
        | Some OStore, (session, v) :: rest =>
            let s := modify e (set_input rest) s in
            despawn e (if s_receiver s then note s (EStored v) else s)
        | Some OPush, (session, v) :: rest =>
            let s := modify e (set_input rest) s in
            if s_receiver s then note s (EPushed v) else fail e s
        | Some OFinished, _ => despawn e s
        | _, _ => s                       (* NotReady, or no operation *)
        end
    end.

  Inductive action :=
  | ACollect                                  (* collect_from_channels *)
  | AExecute                                  (* flush.rs 138-143 *)
  | ARespond (e : entity) (r : option V)      (* the provider of e is done *)
  | ACancel                                   (* flush.rs 178-180 *)
  | ADespawn                                  (* flush.rs 101-103 *)
  | ADropPromise                              (* the user drops the promise: taken.rs 44-46 *)
  | ADropReceiver.                            (* the user despawns the entity given to store or push: internal.rs 217-228 *)

  Definition step (s : sstate) (a : action) : sstate :=
    match a with
    | ACollect => collect s
    | AExecute => match s_queue s with e :: q => execute e (set_queue s q) | [] => s end
    | ARespond e r =>
        match find (fun p => Nat.eqb (fst p) e) (s_running s) with
        | Some (_, session) =>
            let s := note (set_running s (filter (fun p => negb (Nat.eqb (fst p) e)) (s_running s))) (EResponded e r) in
            match s_cells s e with
            | Some c => match r, c_op c with
                        | Some v, Some (OProvider t) => let '(s, ok) := give session v t s in if ok : bool then s else fail e s
                        | _, _ => fail e s
                        end
            | None => s
            end
        | None => s
        end
    | ACancel => match s_cancel s with e :: l => cancel e (set_cancel s l) | [] => s end
    | ADespawn => fold_left (fun s e => despawn e s) (s_despawn s) (set_despawn s [])
    | ADropPromise => set_channel (set_dropped s true) (s_channel s ++ [target s])
    | ADropReceiver => set_channel (set_receiver s false) (s_channel s ++ [target s])
    end.

  Definition run (v : V) (calls : list call) (t : ending) (acts : list action) : sstate :=
    fold_left step acts (series v calls t).
End Series.
Arguments cell : clear implicits.
Arguments event : clear implicits.
Arguments sstate : clear implicits.
Arguments action : clear implicits.
