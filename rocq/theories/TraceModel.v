(** Model of src/trace.rs and of the tracing in src/input.rs: events about the messages that
    operations start with. No proofs in this file. *)
From Verif Require Import Base RosterModel BufferModel InputModel OpsModel.

(** src/diagram.rs 404-421 [TraceToggle] *)
Inductive toggle := Off | On | Messages.

(** src/diagram.rs 423-431 *)
Definition is_on (t : toggle) : bool := match t with Off => false | _ => true end.
Definition with_messages (t : toggle) : bool := match t with Messages => true | _ => false end.

(** src/trace.rs 28-34 [Trace]. The information about the operation is a number; serializers
    give JSON or an error (src/trace.rs 73-82: the downcast or serde_json fails). *)
Record trace := mk_trace { t_toggle : toggle; t_info : nat; t_ser : option (val -> val + val) }.

(** src/trace.rs 96-119 [OperationStarted] *)
Record event := mk_event { e_op : entity; e_stack : list entity; e_info : nat; e_message : option val }.

(** The inputs (InputModel.v), the [Trace] and [ChildOf] components, the events sent so far
    (oldest first), the errors reported, and the entities which were spawned. *)
Record tworld := mk_t {
  t_w : world val;
  t_trace : emap trace;
  t_parent : emap entity;
  t_events : list event;
  t_errors : list val;
  t_known : list entity;
}.

(** src/input.rs 303-310: the session, its parent, its parent's parent and so on. The loop has
    no bound in the code; here it has one, shown to suffice (TraceProofs.v). *)
Fixpoint ancestors (fuel : nat) (parent : emap entity) (s : entity) : list entity :=
  match fuel with
  | 0 => []
  | S fuel => match parent s with Some p => p :: ancestors fuel parent p | None => [] end
  end.

Definition session_stack (x : tworld) (s : entity) : list entity :=
  rev (s :: ancestors (length (t_known x)) (t_parent x) s).

(** src/input.rs 280-284 with src/trace.rs 66-70: the message of the event, if any, or an error *)
Definition message_of (t : trace) (v : val) : option val + val :=
  if with_messages (t_toggle t) then
    match t_ser t with
    | Some f => match f v with inl j => inl (Some j) | inr e => inr e end
    | None => inl None
    end
  else inl None.

(** src/input.rs 264-328 [try_take_input]: first the message leaves the storage, then it is
    traced; the error of a serializer is reported and makes the operation fail. *)
Definition take_traced (x : tworld) (n : entity) : tworld * take_result val :=
  let '(w, r) := take_input (t_w x) n in
  let x1 := mk_t w (t_trace x) (t_parent x) (t_events x) (t_errors x) (t_known x) in
  match r, t_trace x n with
  | Took (s, v), Some t =>
      if is_on (t_toggle t) then
        match message_of t v with
        | inl m => (mk_t w (t_trace x) (t_parent x)
                      (t_events x ++ [mk_event n (session_stack x s) (t_info t) m]) (t_errors x) (t_known x), r)
        | inr e => (mk_t w (t_trace x) (t_parent x) (t_events x) (t_errors x ++ [e]) (t_known x), TakeBroken)
        end
      else (x1, r)
  | _, _ => (x1, r)
  end.

(** src/diagram/workflow_builder.rs 236-262 [set_input_for_target]: the setting of the operation,
    or else the default of the diagram; serialization.rs 92-96: a serializer if the type of the
    message has one *)
Definition trace_for (default : toggle) (setting : option toggle) (info : nat) (ser : option (val -> val + val)) : trace :=
  mk_trace (match setting with Some t => t | None => default end) info ser.

Inductive taction :=
| TIn (o : iop val)                                   (* traffic of messages; [IExec] is traced *)
| TAttach (n : entity) (default : toggle) (setting : option toggle) (info : nat) (ser : option (val -> val + val))
| TToggle (n : entity) (t : toggle)                   (* src/trace.rs 53-55 [set_toggle] *)
| TSpawn (e : entity) (parent : option entity)        (* a session; src/operation/scope.rs 376-379, src/service/workflow.rs 120-123, src/request.rs 98-111 *)
| TThen (e target : entity)                           (* src/series.rs 148-161, src/series/internal.rs 85-87: a new target for a series *)
| TOrphan (e : entity).                               (* src/flush.rs 372-376; despawning does this for an entity and all below *)

Definition known (x : tworld) (e : entity) : bool := existsb (Nat.eqb e) (t_known x).

(** New entities are not used before; parents exist when they get children. *)
Definition tstep (x : tworld) (a : taction) : tworld * iout val :=
  match a with
  | TIn IExec =>
      match r_queue (w_roster (t_w x)) with
      | [] => (x, Idle)
      | n :: rest =>
          let w := t_w x in let r := w_roster w in
          let w0 := mk_world (w_nodes w) (w_status w)
            (mk_roster rest (r_awake r) (r_deferred r) (r_cancel r) (r_unblock r) (r_disposed r) (r_cleanup r) (r_despawn r)) in
          let '(x1, t) := take_traced (mk_t w0 (t_trace x) (t_parent x) (t_events x) (t_errors x) (t_known x)) n in
          (x1, Executed n t)
      end
  | TIn o => let '(w, r) := istep (t_w x) o in (mk_t w (t_trace x) (t_parent x) (t_events x) (t_errors x) (t_known x), r)
  | TAttach n d s i f => (mk_t (t_w x) (emap_set (t_trace x) n (Some (trace_for d s i f))) (t_parent x) (t_events x) (t_errors x) (t_known x), Idle)
  | TToggle n t =>
      match t_trace x n with
      | Some tr => (mk_t (t_w x) (emap_set (t_trace x) n (Some (mk_trace t (t_info tr) (t_ser tr)))) (t_parent x) (t_events x) (t_errors x) (t_known x), Idle)
      | None => (x, Idle)
      end
  | TSpawn e p =>
      if known x e then (x, Idle)
      else if match p with Some p => known x p | None => true end
           then (mk_t (t_w x) (t_trace x) (emap_set (t_parent x) e p) (t_events x) (t_errors x) (e :: t_known x), Idle)
           else (x, Idle)
  | TThen e p =>
      if known x e && negb (known x p)
      then (mk_t (t_w x) (t_trace x) (emap_set (t_parent x) e (Some p)) (t_events x) (t_errors x) (p :: t_known x), Idle)
      else (x, Idle)
  | TOrphan e => (mk_t (t_w x) (t_trace x) (emap_set (t_parent x) e None) (t_events x) (t_errors x) (t_known x), Idle)
  end.

Fixpoint trun (x : tworld) (acts : list taction) : tworld * list (iout val) :=
  match acts with
  | [] => (x, [])
  | a :: acts => let '(x1, r) := tstep x a in let '(x2, rs) := trun x1 acts in (x2, r :: rs)
  end.

(** Nothing spawned and nothing traced yet *)
Definition tinit (w : world val) : tworld := mk_t w (fun _ => None) (fun _ => None) [] [] [].
