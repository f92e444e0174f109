(** Scopes: how a scope starts sessions, decides their outcome, cleans up after
    them and releases the outcome.  Models src/operation/scope.rs (dyn_begin_scope,
    dyn_cleanup, begin_scope, receive_cancel, cancel_one,
    validate_scope_reachability, begin_cleanup_workflows, cleanup_entire_scope,
    Terminate, BeginCleanupWorkflow, FinishCleanup) and src/operation/cleanup.rs
    (Cleanup, CleanupContents).

    One scope is modelled, together with its terminal node and the node which
    ends its cleanup workflows.  The nodes inside the scope, the cleanup
    workflows and the parent of the scope are the environment: they act through
    the actions listed at the end of this file. *)
From Verif Require Import Base.

(** src/operation/cleanup.rs 179-191 [Cleanup]. *)
Record cleanup := { cl_cleaner : entity; cl_node : entity; cl_session : entity; cl_id : entity }.

(** src/operation/scope.rs 169-179 [ScopedSessionStatus]. *)
Inductive sstatus := Ongoing | Terminated | DeferredCleanup | Cleaning | Cancelled.

(** src/operation/scope.rs 183-195 [ScopedSessionStatus::to_cleanup]: the new
    status and whether a cleanup has to be carried out. *)
Definition to_cleanup (unint : bool) (s : sstatus) : sstatus * bool :=
  match s with
  | Cleaning => (Cleaning, false)
  | _ => if unint then (DeferredCleanup, false) else (Cleaning, true)
  end.

(** src/operation/scope.rs 198-214 [ScopedSessionStatus::to_finished]. *)
Definition to_finished (s : sstatus) : sstatus * bool :=
  match s with
  | Ongoing => (Terminated, true)
  | DeferredCleanup => (Cleaning, true)
  | _ => (s, false)
  end.

(** src/operation/scope.rs 217-223 [ScopedSessionStatus::to_cancelled]. *)
Definition to_cancelled (s : sstatus) : sstatus * bool :=
  match s with
  | Ongoing | DeferredCleanup => (Cancelled, true)
  | _ => (s, false)
  end.

(** src/operation/scope.rs 146-153 [ScopedSession]. *)
Record pair := { p_parent : entity; p_scoped : entity; p_status : sstatus }.

(** src/operation/scope.rs 1450-1463 [FinishStatus].  A cancellation is a number
    which names its cause, with the causes gathered in [while_cancelling]
    (src/cancel.rs). *)
Inductive finish := FTerminated | FEarly | FCancelled (c : nat) (inner : list nat).

(** src/operation/scope.rs 1456-1459 [FinishStatus::is_terminated]. *)
Definition is_terminated (f : finish) : bool := match f with FTerminated => true | _ => false end.

(** src/operation/scope.rs 1460-1462 [FinishStatus::is_early_cleanup]. *)
Definition is_early (f : finish) : bool := match f with FEarly => true | _ => false end.

(** src/operation/scope.rs 1443-1447 [CleanupInfo] and 1957-1977
    [AwaitingCleanup]; [None] in [a_flows]: the cleanup workflows have not been
    started. *)
Record await := {
  a_scoped : entity; a_parent : entity; a_cleanup : cleanup; a_status : finish;
  a_flows : option (list entity) }.

(** src/operation/cleanup.rs 137-139 [CleanupContents::awaiting_cleanup]. *)
Definition contents := list (entity * list entity).

(** HashMap::get. *)
Fixpoint c_get (m : contents) (id : entity) : option (list entity) :=
  match m with
  | [] => None
  | (k, ns) :: m' => if Nat.eqb k id then Some ns else c_get m' id
  end.

(** HashMap::remove. *)
Definition c_remove (m : contents) (id : entity) : contents :=
  filter (fun e => negb (Nat.eqb (fst e) id)) m.

(** src/operation/cleanup.rs 146-148 [CleanupContents::add_cleanup]. *)
Definition add_cleanup (m : contents) (id : entity) (nodes : list entity) : contents :=
  (id, nodes) :: c_remove m id.

(** src/operation/cleanup.rs 150-156 [CleanupContents::register_cleanup_of_node]. *)
Definition register_cleanup (m : contents) (id node : entity) : contents * bool :=
  match c_get m id with
  | None => (m, false)
  | Some ns =>
      let ns' := filter (fun n => negb (Nat.eqb n node)) ns in
      (add_cleanup m id ns', match ns' with [] => true | _ => false end)
  end.

(** src/operation/cleanup.rs 194-206 [Cleanup::notify_cleaned] on the contents of
    the cleaner: the new contents and whether [roster.cleanup_finished] is
    called. *)
Definition notify_contents (m : contents) (id node : entity) : contents * bool :=
  let '(m', done) := register_cleanup m id node in
  if done then (c_remove m' id, true) else (m', false).

(** What can be seen of a scope from outside. The first group is what reaches the
    scope, the second is what the scope does. *)
Inductive event (V : Type) :=
| EBegin (p s : entity)             (* session s starts for session p of the parent *)
| EValue (s : entity) (v : V)       (* the terminal of the scope takes value v for s *)
| ECancel (t : entity) (c : nat)    (* a cancellation of session t arrives; a cancellation of
                                       all sessions arrives at each of them *)
| EUnreach (s : entity) (c : nat)   (* the terminal was found unreachable for s *)
| ERequest (cl : cleanup)           (* the parent asks for a cleanup *)
| ENode (n s id : entity)           (* node n reports that it is clean for s *)
| EFlowEnd (w : entity)             (* cleanup workflow session w has ended *)
| EClean (s id : entity)            (* the scope asks its nodes to clean up s *)
| ECleaned (s : entity)             (* the scope takes s as cleaned *)
| EFlow (s w : entity)              (* a cleanup workflow of s starts as session w *)
| EOut (p s : entity) (v : V)       (* s ends with value v, given to session p *)
| ECancelOut (p s : entity) (c : nat) (inner : list nat) (* s ends by a cancellation of p *)
| ENotify (cl : cleanup)            (* the parent is told that its cleanup is done *)
| EEnd (s : entity).                (* session s is despawned *)
Arguments EBegin {V}. Arguments EValue {V}. Arguments ECancel {V}. Arguments EUnreach {V}.
Arguments ERequest {V}. Arguments ENode {V}. Arguments EFlowEnd {V}. Arguments EClean {V}.
Arguments ECleaned {V}. Arguments EFlow {V}. Arguments EOut {V}. Arguments ECancelOut {V}.
Arguments ENotify {V}. Arguments EEnd {V}.

Section Scope.
  Context {V : Type}.

  (** The settings of a scope: its entity, [ScopeSettings::is_uninterruptible],
      [ScopeContents::nodes] (src/operation/scope.rs 240-256) and the conditions
      [on_terminate], [on_cancelled] of its cleanup workflows (1430-1438). *)
  Record config := {
    g_self : entity; g_unint : bool; g_nodes : list entity; g_begins : list (bool * bool) }.

  (** The components of the scope, of its terminal and of its cleanup node, the
      sessions which exist, and the parts of the roster which concern the scope.
      - [s_pairs]: ScopedSessionStorage (scope.rs 227); [s_awaiting]:
        AwaitingCleanupStorage (1947); [s_contents]: CleanupContents;
      - [s_staging]: Staging<T> (1402); [s_inputs]: InputStorage<T> of the
        terminal, oldest first;
      - [s_parent]: ParentSession of the session entities which exist;
        [s_active]: those whose SessionStatus is Active;
      - [s_asked]: the nodes (node, session, cleanup id) which were asked to clean
        up and have not reported; [s_flows]: the running cleanup workflows;
      - [s_finished]: roster.cleanup_finished (last in, first out); [s_cancels]:
        the entries of roster.cancel whose target is the scope;
      - [s_next]: the next entity to spawn; [s_log]: what happened so far. *)
  Record sstate := {
    s_pairs : list pair;
    s_awaiting : list await;
    s_contents : contents;
    s_staging : list (entity * V);
    s_inputs : list (entity * V);
    s_parent : emap entity;
    s_active : entity -> bool;
    s_asked : list (entity * entity * entity);
    s_flows : list entity;
    s_finished : list cleanup;
    s_cancels : list (option entity * nat);
    s_next : entity;
    s_log : list (event V) }.

  Implicit Types (w : sstate) (g : config).

  (** Record updates. *)
  Definition set_pairs w x := {| s_pairs := x; s_awaiting := s_awaiting w; s_contents := s_contents w; s_staging := s_staging w; s_inputs := s_inputs w; s_parent := s_parent w; s_active := s_active w; s_asked := s_asked w; s_flows := s_flows w; s_finished := s_finished w; s_cancels := s_cancels w; s_next := s_next w; s_log := s_log w |}.
  Definition set_awaiting w x := {| s_pairs := s_pairs w; s_awaiting := x; s_contents := s_contents w; s_staging := s_staging w; s_inputs := s_inputs w; s_parent := s_parent w; s_active := s_active w; s_asked := s_asked w; s_flows := s_flows w; s_finished := s_finished w; s_cancels := s_cancels w; s_next := s_next w; s_log := s_log w |}.
  Definition set_contents w x := {| s_pairs := s_pairs w; s_awaiting := s_awaiting w; s_contents := x; s_staging := s_staging w; s_inputs := s_inputs w; s_parent := s_parent w; s_active := s_active w; s_asked := s_asked w; s_flows := s_flows w; s_finished := s_finished w; s_cancels := s_cancels w; s_next := s_next w; s_log := s_log w |}.
  Definition set_staging w x := {| s_pairs := s_pairs w; s_awaiting := s_awaiting w; s_contents := s_contents w; s_staging := x; s_inputs := s_inputs w; s_parent := s_parent w; s_active := s_active w; s_asked := s_asked w; s_flows := s_flows w; s_finished := s_finished w; s_cancels := s_cancels w; s_next := s_next w; s_log := s_log w |}.
  Definition set_inputs w x := {| s_pairs := s_pairs w; s_awaiting := s_awaiting w; s_contents := s_contents w; s_staging := s_staging w; s_inputs := x; s_parent := s_parent w; s_active := s_active w; s_asked := s_asked w; s_flows := s_flows w; s_finished := s_finished w; s_cancels := s_cancels w; s_next := s_next w; s_log := s_log w |}.
  Definition set_parent w x := {| s_pairs := s_pairs w; s_awaiting := s_awaiting w; s_contents := s_contents w; s_staging := s_staging w; s_inputs := s_inputs w; s_parent := x; s_active := s_active w; s_asked := s_asked w; s_flows := s_flows w; s_finished := s_finished w; s_cancels := s_cancels w; s_next := s_next w; s_log := s_log w |}.
  Definition set_active w x := {| s_pairs := s_pairs w; s_awaiting := s_awaiting w; s_contents := s_contents w; s_staging := s_staging w; s_inputs := s_inputs w; s_parent := s_parent w; s_active := x; s_asked := s_asked w; s_flows := s_flows w; s_finished := s_finished w; s_cancels := s_cancels w; s_next := s_next w; s_log := s_log w |}.
  Definition set_asked w x := {| s_pairs := s_pairs w; s_awaiting := s_awaiting w; s_contents := s_contents w; s_staging := s_staging w; s_inputs := s_inputs w; s_parent := s_parent w; s_active := s_active w; s_asked := x; s_flows := s_flows w; s_finished := s_finished w; s_cancels := s_cancels w; s_next := s_next w; s_log := s_log w |}.
  Definition set_flows w x := {| s_pairs := s_pairs w; s_awaiting := s_awaiting w; s_contents := s_contents w; s_staging := s_staging w; s_inputs := s_inputs w; s_parent := s_parent w; s_active := s_active w; s_asked := s_asked w; s_flows := x; s_finished := s_finished w; s_cancels := s_cancels w; s_next := s_next w; s_log := s_log w |}.
  Definition set_finished w x := {| s_pairs := s_pairs w; s_awaiting := s_awaiting w; s_contents := s_contents w; s_staging := s_staging w; s_inputs := s_inputs w; s_parent := s_parent w; s_active := s_active w; s_asked := s_asked w; s_flows := s_flows w; s_finished := x; s_cancels := s_cancels w; s_next := s_next w; s_log := s_log w |}.
  Definition set_cancels w x := {| s_pairs := s_pairs w; s_awaiting := s_awaiting w; s_contents := s_contents w; s_staging := s_staging w; s_inputs := s_inputs w; s_parent := s_parent w; s_active := s_active w; s_asked := s_asked w; s_flows := s_flows w; s_finished := s_finished w; s_cancels := x; s_next := s_next w; s_log := s_log w |}.
  Definition set_next w x := {| s_pairs := s_pairs w; s_awaiting := s_awaiting w; s_contents := s_contents w; s_staging := s_staging w; s_inputs := s_inputs w; s_parent := s_parent w; s_active := s_active w; s_asked := s_asked w; s_flows := s_flows w; s_finished := s_finished w; s_cancels := s_cancels w; s_next := x; s_log := s_log w |}.
  Definition set_log w x := {| s_pairs := s_pairs w; s_awaiting := s_awaiting w; s_contents := s_contents w; s_staging := s_staging w; s_inputs := s_inputs w; s_parent := s_parent w; s_active := s_active w; s_asked := s_asked w; s_flows := s_flows w; s_finished := s_finished w; s_cancels := s_cancels w; s_next := s_next w; s_log := x |}.

  Definition say w e := set_log w (s_log w ++ [e]).

  (** HashMap::get on the staging map. *)
  Fixpoint st_get (m : list (entity * V)) (s : entity) : option V :=
    match m with
    | [] => None
    | (k, v) :: m' => if Nat.eqb k s then Some v else st_get m' s
    end.

  (** HashMap::remove on the staging map; also InputStorage's retain
      (src/input.rs 369-373) on the inputs of the terminal. *)
  Definition st_remove (m : list (entity * V)) (s : entity) : list (entity * V) :=
    filter (fun e => negb (Nat.eqb (fst e) s)) m.

  (** A state change and whether it failed as OperationError::Broken. *)
  Definition outcome : Type := sstate * bool.

  (** src/operation/cleanup.rs 194-206 [Cleanup::notify_cleaned] of a node of the
      scope (the cleaner is the scope). *)
  Definition node_cleaned w (cl : cleanup) : sstate :=
    let w := say w (ENode (cl_node cl) (cl_session cl) (cl_id cl)) in
    let '(m, done) := notify_contents (s_contents w) (cl_id cl) (cl_node cl) in
    let w := set_contents w m in
    if done then set_finished w (s_finished w ++ [cl]) else w.

  (** [Cleanup::notify_cleaned] as called for the scope itself: the cleaner is
      the parent of the scope, except for cleanups which the scope issued to
      itself. *)
  Definition notify_cleaned g w (cl : cleanup) : sstate :=
    if Nat.eqb (cl_cleaner cl) (g_self g) then
      let '(m, done) := notify_contents (s_contents w) (cl_id cl) (cl_node cl) in
      let w := set_contents w m in
      if done then set_finished w (s_finished w ++ [cl]) else w
    else say w (ENotify cl).

  (** src/operation/cleanup.rs 61-78 [OperationCleanup::clean] for one node.  A
      node reports at once ([sync]) or later. *)
  Definition clean_node g (sync : entity -> entity -> bool) (s id : entity) w (n : entity) : sstate :=
    if sync n s
    then node_cleaned w {| cl_cleaner := g_self g; cl_node := n; cl_session := s; cl_id := id |}
    else set_asked w (s_asked w ++ [(n, s, id)]).

  (** src/operation/scope.rs 1254-1302: one turn of the loop of
      [cleanup_entire_scope]. *)
  Definition cleanup_session g (sync : entity -> entity -> bool) (cl : cleanup) (st : finish)
      (s : entity) w : outcome :=
    match s_parent w s with
    | None => (w, true)
    | Some p =>
        let w := set_awaiting w (s_awaiting w ++
          [{| a_scoped := s; a_parent := p; a_cleanup := cl; a_status := st; a_flows := None |}]) in
        let w := say w (EClean s (cl_id cl)) in
        let w :=
          match g_nodes g with
          | [] => set_finished w (s_finished w ++
              [{| cl_cleaner := g_self g; cl_node := g_self g; cl_session := s; cl_id := cl_id cl |}])
          | nodes =>
              fold_left (clean_node g sync s (cl_id cl)) nodes
                (set_contents w (add_cleanup (s_contents w) (cl_id cl) nodes))
          end in
        (set_active w (fun e => if Nat.eqb e s then false else s_active w e), false)
    end.

  (** src/operation/scope.rs 1235-1305 [cleanup_entire_scope]. *)
  Fixpoint cleanup_entire_scope g sync (cl : cleanup) (st : finish) (sessions : list entity) w : outcome :=
    match sessions with
    | [] => (w, false)
    | s :: rest =>
        match cleanup_session g sync cl st s w with
        | (w, true) => (w, true)
        | (w, false) => cleanup_entire_scope g sync cl st rest w
        end
    end.

  (** The iterator chains of dyn_cleanup (scope.rs 411-424) and cancel_one
      (982-998): change the status of the selected pairs and collect the scoped
      sessions for which the change asks for a cleanup. *)
  Fixpoint switch (sel : pair -> bool) (f : sstatus -> sstatus * bool) (l : list pair)
      : list pair * list entity :=
    match l with
    | [] => ([], [])
    | p :: l' =>
        let '(l'', ss) := switch sel f l' in
        if sel p then
          let '(st, hit) := f (p_status p) in
          ({| p_parent := p_parent p; p_scoped := p_scoped p; p_status := st |} :: l'',
           if hit then p_scoped p :: ss else ss)
        else (p :: l'', ss)
    end.

  (** [iter_mut().find(..)] followed by a change of the status of what was found
      (scope.rs 1068-1072 and 1080, 1348-1354). *)
  Fixpoint set_first (s : entity) (st : sstatus) (l : list pair) : list pair :=
    match l with
    | [] => []
    | p :: l' =>
        if Nat.eqb (p_scoped p) s
        then {| p_parent := p_parent p; p_scoped := p_scoped p; p_status := st |} :: l'
        else p :: set_first s st l'
    end.

  (** src/operation/scope.rs 392-446 [dyn_cleanup].  The inputs of the scope which
      were not started yet are not part of this model. *)
  Definition dyn_cleanup g sync (cl : cleanup) w : outcome :=
    let w := say w (ERequest cl) in
    let '(ps, ss) := switch (fun p => Nat.eqb (p_parent p) (cl_session cl)) (to_cleanup (g_unint g)) (s_pairs w) in
    let w := set_pairs w ps in
    match ss with
    | [] => (notify_cleaned g w cl, false)
    | _ => cleanup_entire_scope g sync cl FEarly ss w
    end.

  (** src/operation/scope.rs 974-1014 [cancel_one]. *)
  Definition cancel_one g sync (session : entity) (c : nat) w : outcome :=
    let w := say w (ECancel session c) in
    let '(ps, ss) := switch (fun p => Nat.eqb (p_scoped p) session || Nat.eqb (p_parent p) session)
                       to_cancelled (s_pairs w) in
    let w := set_pairs w ps in
    cleanup_entire_scope g sync
      {| cl_cleaner := g_self g; cl_node := g_self g; cl_session := session; cl_id := session |}
      (FCancelled c []) ss w.

  (** src/operation/scope.rs 961-969: the loop of [receive_cancel]; errors are
      only logged. *)
  Fixpoint cancel_each g sync (sessions : list entity) (c : nat) w : sstate :=
    match sessions with
    | [] => w
    | s :: rest => cancel_each g sync rest c (fst (cancel_one g sync s c w))
    end.

  (** src/operation/scope.rs 933-972 [receive_cancel]. *)
  Definition receive_cancel g sync (session : option entity) (c : nat) w : sstate :=
    match session with
    | Some s => fst (cancel_one g sync s c w)
    | None => cancel_each g sync (map p_scoped (s_pairs w)) c w
    end.

  (** src/operation/scope.rs 1066-1097: the end of [validate_scope_reachability],
      when the terminal cannot be reached.  The reachability check is modelled in
      ReachModel.v, the disposal listeners in OpsModel.v. *)
  Definition validate_unreachable g sync (s : entity) (c : nat) w : outcome :=
    let w := say w (EUnreach s c) in
    match find (fun p => Nat.eqb (p_scoped p) s) (s_pairs w) with
    | None => (w, false)
    | Some p =>
        let '(st, hit) := to_cancelled (p_status p) in
        if hit then
          let w := set_pairs w (set_first s st (s_pairs w)) in
          cleanup_entire_scope g sync
            {| cl_cleaner := g_self g; cl_node := g_self g; cl_session := s; cl_id := s |}
            (FCancelled c []) [s] w
        else (w, false)
    end.

  (** What the checks at the start of a session find (scope.rs 516-563): the
      terminal can be reached, or the workflow is known to be in error (cancel_one)
      or to be unreachable. *)
  Inductive start := SOk | SError (c : nat) | SUnreach (c : nat).

  (** src/operation/scope.rs 364-390 [dyn_begin_scope], 485-566 [begin_scope] and
      598-628 [begin_scope_impl].  Giving the request to the entry node is left
      to the environment. *)
  Definition begin_scope g sync (p : entity) (st : start) w : sstate :=
    let s := s_next w in
    let w := set_next w (S s) in
    let w := set_parent w (emap_set (s_parent w) s (Some p)) in
    let w := set_active w (fun e => if Nat.eqb e s then true else s_active w e) in
    let w := set_pairs w (s_pairs w ++ [{| p_parent := p; p_scoped := s; p_status := Ongoing |}]) in
    let w := say w (EBegin p s) in
    match st with
    | SOk => w
    | SError c => fst (cancel_one g sync s c w)
    | SUnreach c => fst (validate_unreachable g sync s c w)
    end.

  (** src/input.rs 173-262 [give_input] to the terminal of the scope. *)
  Definition arrive (s : entity) (v : V) w : sstate :=
    if s_active w s then set_inputs w (s_inputs w ++ [(s, v)]) else w.

  (** The number by which the cancellation of src/operation.rs 730-732
      (OperationError::Broken) is named. *)
  Definition broken_cause := 0.

  (** src/operation/scope.rs 1321-1374 [Terminate::execute]. *)
  Definition terminate_execute g sync w : outcome :=
    match s_inputs w with
    | [] => (w, false)
    | (s, v) :: rest =>
        let w := say (set_inputs w rest) (EValue s v) in
        match st_get (s_staging w) s with
        | Some _ => (w, false)
        | None =>
            let w := set_staging w ((s, v) :: s_staging w) in
            match find (fun p => Nat.eqb (p_scoped p) s) (s_pairs w) with
            | None => (w, true)
            | Some p =>
                let '(st, hit) := to_finished (p_status p) in
                if hit then
                  let w := set_pairs w (set_first s st (s_pairs w)) in
                  cleanup_entire_scope g sync
                    {| cl_cleaner := g_self g; cl_node := g_self g; cl_session := s; cl_id := s |}
                    FTerminated [s] w
                else (w, false)
            end
        end
    end.

  (** src/operation.rs 712-734 [perform_operation] for the terminal: a broken
      operation cancels its scope without naming a session (src/cancel.rs
      417-433, 464-503). *)
  Definition terminal g sync w : sstate :=
    match terminate_execute g sync w with
    | (w, true) => set_cancels w (s_cancels w ++ [(None, broken_cause)])
    | (w, false) => w
    end.

  (** Iterator::position over the awaiting records. *)
  Fixpoint position {A} (f : A -> bool) (l : list A) : option nat :=
    match l with
    | [] => None
    | x :: l' => if f x then Some 0 else option_map S (position f l')
    end.

  (** [is_some_and(|s| s.is_empty())] of scope.rs 1715-1717 and 1825-1828. *)
  Definition flows_done (o : option (list entity)) : bool :=
    match o with Some [] => true | _ => false end.

  (** src/operation/scope.rs 1785-1920 [FinishCleanup::finalize_scoped_session].
      The exit target and the blocker of a workflow service (1873-1882,
      1906-1909) and the clearing of buffers (1911) are left out; [true] stands
      for OperationError::Broken. *)
  Definition finalize_scoped_session g (index : nat) w : outcome :=
    match nth_error (s_awaiting w) index with
    | None => (w, true)
    | Some a =>
        let p := a_parent a in
        let s := a_scoped a in
        let cl := a_cleanup a in
        let w :=
          if is_early (a_status a) then w
          else
            let w := match remove_nth index (s_awaiting w) with
                     | Some (_, l) => set_awaiting w l
                     | None => w
                     end in
            match a_status a with
            | FCancelled c inner => say w (ECancelOut p s c inner)
            | _ => w
            end in
        let same := filter (fun b => Nat.eqb (cl_id (a_cleanup b)) (cl_id cl)) (s_awaiting w) in
        let early := existsb (fun b => is_early (a_status b)) same in
        let finished := forallb (fun b => flows_done (a_flows b)) same in
        let w :=
          if early && finished
             && negb (existsb (fun q => Nat.eqb (p_parent q) p) (s_pairs w))
          then
            notify_cleaned g
              (set_awaiting w (filter (fun b => negb (Nat.eqb (a_parent b) p)) (s_awaiting w))) cl
          else w in
        if is_terminated (a_status a) then
          match st_get (s_staging w) s with
          | None => (w, true)
          | Some v =>
              let w := say (set_staging w (st_remove (s_staging w) s)) (EOut p s v) in
              (say (set_parent w (emap_set (s_parent w) s None)) (EEnd s), false)
          end
        else
          let w := set_inputs w (st_remove (s_inputs w) s) in
          let w := set_staging w (st_remove (s_staging w) s) in
          (say (set_parent w (emap_set (s_parent w) s None)) (EEnd s), false)
    end.

  (** src/operation/scope.rs 1701-1733 [FinishCleanup::check_awaiting_session]. *)
  Definition check_awaiting_session g (s : entity) w : outcome :=
    match position (fun a => Nat.eqb (a_scoped a) s) (s_awaiting w) with
    | None => (w, false)
    | Some i =>
        match nth_error (s_awaiting w) i with
        | Some a => if flows_done (a_flows a) then finalize_scoped_session g i w else (w, false)
        | None => (w, false)
        end
    end.

  Definition set_a_flows (o : option (list entity)) (a : await) : await :=
    {| a_scoped := a_scoped a; a_parent := a_parent a; a_cleanup := a_cleanup a;
       a_status := a_status a; a_flows := o |}.

  Definition set_a_status (f : finish) (a : await) : await :=
    {| a_scoped := a_scoped a; a_parent := a_parent a; a_cleanup := a_cleanup a;
       a_status := f; a_flows := a_flows a |}.

  (** src/operation/scope.rs 1524-1572 [BeginCleanupWorkflow::execute] for record
      number [i]: a new session is spawned, its workflow is started and the
      session is added to the record. *)
  Definition begin_flow (i : nat) (s : entity) w : sstate :=
    let f := s_next w in
    let w := set_next w (S f) in
    let w := set_flows w (s_flows w ++ [f]) in
    let w := say w (EFlow s f) in
    set_awaiting w (update_nth i
      (fun a => set_a_flows (option_map (fun l => l ++ [f]) (a_flows a)) a) (s_awaiting w)).

  (** src/operation/scope.rs 1134-1160: which cleanup workflows are started. *)
  Definition begin_flows g (i : nat) (s : entity) (terminated : bool) w : sstate :=
    fold_left (fun w (b : bool * bool) =>
                 if (if terminated then fst b else snd b) then begin_flow i s w else w)
      (g_begins g) w.

  (** src/operation/scope.rs 1100-1172 [begin_cleanup_workflows]. *)
  Definition begin_cleanup_workflows g (cl : cleanup) w : outcome :=
    let s := cl_session cl in
    let w := set_pairs w (filter (fun p => negb (Nat.eqb (p_scoped p) s)) (s_pairs w)) in
    match position (fun a => Nat.eqb (a_scoped a) s) (s_awaiting w) with
    | None => (w, true)
    | Some i =>
        let w := set_awaiting w (update_nth i (set_a_flows (Some [])) (s_awaiting w)) in
        let terminated :=
          match nth_error (s_awaiting w) i with
          | Some a => is_terminated (a_status a)
          | None => false
          end in
        check_awaiting_session g s (begin_flows g i s terminated w)
    end.

  (** src/operation/cleanup.rs 208-241 [Cleanup::trigger], called with the last
      entry of roster.cleanup_finished (src/flush.rs 174-176). *)
  Definition trigger g w : sstate :=
    match pop_last (s_finished w) with
    | (_, None) => w
    | (rest, Some cl) =>
        let w := set_finished w rest in
        let w := set_contents w (c_remove (s_contents w) (cl_id cl)) in
        fst (begin_cleanup_workflows g cl (say w (ECleaned (cl_session cl))))
    end.

  (** src/flush.rs 178-180 with src/cancel.rs 270-308 [Cancel::trigger]. *)
  Definition trigger_cancel g sync w : sstate :=
    match s_cancels w with
    | [] => w
    | (t, c) :: rest => receive_cancel g sync t c (set_cancels w rest)
    end.

  (** src/operation/scope.rs 1735-1783 [FinishCleanup::deduct_finished_cleanup]. *)
  Definition deduct g (f : entity) (inner : option nat) w : outcome :=
    match position (fun a => match a_flows a with
                             | Some l => existsb (Nat.eqb f) l
                             | None => false
                             end) (s_awaiting w) with
    | None => (w, false)
    | Some i =>
        let w := set_awaiting w (update_nth i (fun a =>
          match a_status a, inner with
          | FCancelled c l, Some c' => set_a_status (FCancelled c (l ++ [c'])) a
          | _, _ => a
          end) (s_awaiting w)) in
        let w := set_awaiting w (update_nth i (fun a =>
          set_a_flows (option_map (filter (fun e => negb (Nat.eqb e f))) (a_flows a)) a) (s_awaiting w)) in
        match nth_error (s_awaiting w) i with
        | Some a => if flows_done (a_flows a) then finalize_scoped_session g i w else (w, false)
        | None => (w, false)
        end
    end.

  (** What happens around a scope. *)
  Inductive action :=
  | ABegin (p : entity) (st : start) (sync : entity -> entity -> bool)
      (* the scope takes a request of session p *)
  | AArrive (s : entity) (v : V)        (* a node of the scope sends v to the terminal *)
  | ATerminal (sync : entity -> entity -> bool) (* the terminal executes *)
  | ACancel (t : option entity) (c : nat)       (* a cancellation is put into the roster *)
  | ATriggerCancel (sync : entity -> entity -> bool) (* the next cancellation is handled *)
  | AUnreach (s : entity) (c : nat) (sync : entity -> entity -> bool)
      (* a disposal made the terminal unreachable *)
  | AClean (cl : cleanup) (sync : entity -> entity -> bool) (* the parent cleans the scope *)
  | ANode (n s id : entity)             (* a node which was asked reports to be clean *)
  | ATrigger                            (* the next finished cleanup is handled *)
  | AFlowEnd (f : entity) (inner : option nat). (* a cleanup workflow ends or is cancelled *)

  (** Remove one outstanding entry. *)
  Fixpoint take_asked (x : entity * entity * entity) (l : list (entity * entity * entity))
      : option (list (entity * entity * entity)) :=
    match l with
    | [] => None
    | y :: l' =>
        if (Nat.eqb (fst (fst x)) (fst (fst y)) && Nat.eqb (snd (fst x)) (snd (fst y))
            && Nat.eqb (snd x) (snd y))%bool
        then Some l'
        else option_map (cons y) (take_asked x l')
    end.

  Definition step g w (a : action) : sstate :=
    match a with
    | ABegin p st sync => begin_scope g sync p st w
    | AArrive s v => arrive s v w
    | ATerminal sync => terminal g sync w
    | ACancel t c => set_cancels w (s_cancels w ++ [(t, c)])
    | ATriggerCancel sync => trigger_cancel g sync w
    | AUnreach s c sync => fst (validate_unreachable g sync s c w)
    | AClean cl sync => fst (dyn_cleanup g sync cl w)
    | ANode n s id =>
        match take_asked (n, s, id) (s_asked w) with
        | None => w
        | Some l =>
            node_cleaned (set_asked w l)
              {| cl_cleaner := g_self g; cl_node := n; cl_session := s; cl_id := id |}
        end
    | ATrigger => trigger g w
    | AFlowEnd f inner =>
        if existsb (Nat.eqb f) (s_flows w) then
          let w := set_flows w (filter (fun e => negb (Nat.eqb e f)) (s_flows w)) in
          fst (deduct g f inner (say w (EFlowEnd f)))
        else w
    end.

  (** A scope which has not been used; entities below [base] exist already. *)
  Definition fresh_scope (base : entity) : sstate :=
    {| s_pairs := []; s_awaiting := []; s_contents := []; s_staging := []; s_inputs := [];
       s_parent := emap_empty; s_active := fun _ => false; s_asked := []; s_flows := [];
       s_finished := []; s_cancels := []; s_next := base; s_log := [] |}.

  Definition run g (base : entity) (acts : list action) : sstate :=
    fold_left (step g) acts (fresh_scope base).

End Scope.
Arguments sstate : clear implicits.
Arguments action : clear implicits.
