(** Model of src/input.rs: how messages reach an operation. No proofs here. *)
From Verif Require Import Base RosterModel BufferModel.

(** src/input.rs:42-45 [Input]: the session a message belongs to, and its data. *)
Notation input V := (entity * V)%type (only parsing).

Section Input.
Context {V : Type}.

(** src/operation/scope.rs:76-79 [SessionStatus]. *)
Inductive session_status := Active | Cleaning.

(** The components of a node entity which input.rs consults.
    [n_inputs] is [InputStorage<T>] (src/input.rs:50-59) for the type [T] of the
    message at hand, [None] when the entity has no such component, which is also
    how a message of the wrong type shows. Index 0 is the newest message.
    [n_unused] is the marker [UnusedTarget]; [n_detached] is
    [Detached::is_detached]; [n_buffer] is [BufferStorage<T>]. *)
Record node := mk_node {
  n_inputs : option (list (input V));
  n_unused : bool;
  n_detached : bool;
  n_buffer : option (storage V);
}.

(** Nodes, session statuses ([None]: the session entity has no status component,
    for example because it was despawned) and the roster. *)
Record world := mk_world {
  w_nodes : emap node;
  w_status : emap session_status;
  w_roster : roster;
}.

Inductive sneak_result :=
| SneakOk (queue_it : bool)
| SneakBroken.

(** src/input.rs:62-67 [InputStorage::contains_session]. *)
Definition contains_session (q : list (input V)) (s : entity) : bool :=
  existsb (fun i => Nat.eqb (fst i) s) q.

(** src/input.rs:197-258 [sneak_input]. A node entity that does not exist makes
    the callers fail with Broken before they get here ([get_entity_mut].or_broken());
    it is modelled the same way. The diagnostic message is not modelled. *)
Definition sneak_input (w : world) (n s : entity) (v : V) (only_if_active : bool)
  : world * sneak_result :=
  let active := match w_status w s with Some Active => true | _ => false end in
  match w_nodes w n with
  | None => (w, SneakBroken)
  | Some nd =>
      if only_if_active && negb active then (w, SneakOk false)
      else
        match n_inputs nd with
        | Some q =>
            (mk_world
               (emap_set (w_nodes w) n
                  (Some (mk_node (Some ((s, v) :: q)) (n_unused nd) (n_detached nd) (n_buffer nd))))
               (w_status w) (w_roster w), SneakOk true)
        | None =>
            if n_unused nd then (w, SneakOk true)
            else if n_detached nd then
              (mk_world (w_nodes w) (w_status w) (ro_despawn (w_roster w) n), SneakOk false)
            else (w, SneakBroken)
        end
  end.

(** src/input.rs:173-183 [give_input]. [false]: the error Broken. *)
Definition give_input (w : world) (n s : entity) (v : V) : world * bool :=
  match sneak_input w n s v true with
  | (w1, SneakOk true) =>
      (mk_world (w_nodes w1) (w_status w1) (ro_queue (w_roster w1) n), true)
  | (w1, SneakOk false) => (w1, true)
  | (w1, SneakBroken) => (w1, false)
  end.

(** src/input.rs:185-195 [defer_input]. *)
Definition defer_input (w : world) (n s : entity) (v : V) : world * bool :=
  match sneak_input w n s v true with
  | (w1, SneakOk true) =>
      (mk_world (w_nodes w1) (w_status w1) (ro_defer (w_roster w1) n), true)
  | (w1, SneakOk false) => (w1, true)
  | (w1, SneakBroken) => (w1, false)
  end.

(** Result of taking an input. *)
Inductive take_result := Took (i : input V) | NotReady | TakeBroken.

(** src/input.rs:260-262 [take_input] and 264-328 [try_take_input] ([NotReady]
    stands for both Ok(None) and its conversion). Tracing is not modelled. *)
Definition take_input (w : world) (n : entity) : world * take_result :=
  match w_nodes w n with
  | None => (w, TakeBroken)
  | Some nd =>
      match n_inputs nd with
      | None => (w, TakeBroken)
      | Some q =>
          let '(q', o) := pop_last q in
          (mk_world
             (emap_set (w_nodes w) n
                (Some (mk_node (Some q') (n_unused nd) (n_detached nd) (n_buffer nd))))
             (w_status w) (w_roster w),
           match o with Some i => Took i | None => NotReady end)
      end
  end.

(** src/input.rs:337-353: the messages of [s], in the order they end up in
    [reverse_remaining]: indices are visited from the highest (oldest) down. *)
Definition reverse_remaining (q : list (input V)) (s : entity) : list V :=
  map snd (rev (filter (fun i => Nat.eqb (fst i) s) q)).

(** src/input.rs:355-361: the leftovers are pushed in the reverse of that order. *)
Definition push_remaining (b : storage V) (s : entity) (l : list V) : storage V :=
  fold_left (fun b v => fst (force_push b s v)) (rev l) b.

(** src/input.rs:330-373 [cleanup_inputs]. *)
Definition cleanup_inputs_node (nd : node) (s : entity) : node :=
  match n_buffer nd, n_inputs nd with
  | Some b, Some q =>
      mk_node (Some (filter (fun i => negb (Nat.eqb (fst i) s)) q)) (n_unused nd) (n_detached nd)
        (Some (push_remaining b s (reverse_remaining q s)))
  | None, Some q =>
      mk_node (Some (filter (fun i => negb (Nat.eqb (fst i) s)) q)) (n_unused nd) (n_detached nd)
        None
  | _, None => nd
  end.

Definition cleanup_inputs (w : world) (n s : entity) : world :=
  match w_nodes w n with
  | None => w
  | Some nd =>
      mk_world (emap_set (w_nodes w) n (Some (cleanup_inputs_node nd s))) (w_status w) (w_roster w)
  end.

(** src/input.rs:376-388 [has_input]; [None] is the error Broken. *)
Definition has_input (w : world) (n s : entity) : option bool :=
  match w_nodes w n with
  | None => None
  | Some nd =>
      match n_inputs nd with
      | None => None
      | Some q => Some (contains_session q s)
      end
  end.

(** src/input.rs:397-431 [InputCommand::apply]: the initial request of a series.
    It does not look at the session status. The deferred roster is merged into the
    roster by the next flush; modelled by putting it in the roster directly. *)
Definition input_command (w : world) (n s : entity) (v : V) : world * bool :=
  match w_nodes w n with
  | Some nd =>
      match n_inputs nd with
      | Some q =>
          (mk_world
             (emap_set (w_nodes w) n
                (Some (mk_node (Some ((s, v) :: q)) (n_unused nd) (n_detached nd) (n_buffer nd))))
             (w_status w) (ro_queue (w_roster w) n), true)
      | None =>
          (mk_world (w_nodes w) (w_status w)
             (ro_cancel (w_roster w) (mk_cancel n s (Some s) 0)), false)
      end
  | None =>
      (mk_world (w_nodes w) (w_status w)
         (ro_cancel (w_roster w) (mk_cancel n s (Some s) 0)), false)
  end.

(** What can happen to the inputs of the nodes. [IExec] is one turn of the loop at
    src/flush.rs (pop the front of the queue and execute): executing a node starts
    by taking one input. [IStatus] is a change of the status of a session. *)
Inductive iop :=
| IGive (n s : entity) (v : V)
| IDefer (n s : entity) (v : V)
| ICommand (n s : entity) (v : V)
| IExec
| IProcessDeferrals
| ICleanup (n s : entity)
| IStatus (s : entity) (st : option session_status).

(** Observable results: a message was accepted into a node's storage, or refused
    (or ignored), or an execution took a message / had none / found no storage. *)
Inductive iout :=
| Accepted (n s : entity) (v : V)
| Refused
| Executed (n : entity) (t : take_result)
| Idle.

(** The messages waiting at a node, oldest first. *)
Definition pending (w : world) (n : entity) : list (input V) :=
  match w_nodes w n with
  | Some nd => match n_inputs nd with Some q => rev q | None => [] end
  | None => []
  end.

(** A message counts as accepted when one more message waits at the node. *)
Definition delivery_out (w w' : world) (n s : entity) (v : V) : iout :=
  if length (pending w n) <? length (pending w' n) then Accepted n s v else Refused.

Definition istep (w : world) (o : iop) : world * iout :=
  match o with
  | IGive n s v =>
      let w' := fst (give_input w n s v) in (w', delivery_out w w' n s v)
  | IDefer n s v =>
      let w' := fst (defer_input w n s v) in (w', delivery_out w w' n s v)
  | ICommand n s v =>
      let w' := fst (input_command w n s v) in (w', delivery_out w w' n s v)
  | IExec =>
      match r_queue (w_roster w) with
      | [] => (w, Idle)
      | n :: rest =>
          let r := w_roster w in
          let w0 := mk_world (w_nodes w) (w_status w)
            (mk_roster rest (r_awake r) (r_deferred r) (r_cancel r) (r_unblock r)
               (r_disposed r) (r_cleanup r) (r_despawn r)) in
          let '(w1, t) := take_input w0 n in
          (w1, Executed n t)
      end
  | IProcessDeferrals =>
      (mk_world (w_nodes w) (w_status w) (ro_process_deferrals (w_roster w)), Idle)
  | ICleanup n s => (cleanup_inputs w n s, Idle)
  | IStatus s st => (mk_world (w_nodes w) (emap_set (w_status w) s st) (w_roster w), Idle)
  end.

Fixpoint irun (w : world) (ops : list iop) : world * list iout :=
  match ops with
  | [] => (w, [])
  | o :: ops' =>
      let '(w1, r) := istep w o in
      let '(w2, rs) := irun w1 ops' in (w2, r :: rs)
  end.

End Input.

Arguments node : clear implicits.
Arguments world : clear implicits.
Arguments iop : clear implicits.
Arguments iout : clear implicits.
Arguments take_result : clear implicits.
