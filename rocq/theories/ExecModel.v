(** A whole workflow at work: nodes of several kinds connected to each other, many sessions
    running in them, disposals checked and cancellations carried out. Puts together the
    models of the single operations (OpsModel.v), of the delivery of messages
    (InputModel.v) and of the reachability checks (ReachModel.v) with the flush loop
    (src/flush.rs) and the start and end of sessions (src/operation/scope.rs). No proofs
    in this file. *)
From Verif Require Import Base RosterModel BufferModel InputModel GateModel OpsModel ReachModel.

(** The kinds of nodes, with their targets.
    - [OMap]: src/operation/operate_map.rs:48-145 (blocking), without streams;
      src/operation/noop.rs:30-83 is [OMap (fun v => v)]. Blocking services and callbacks
      pass on their response in the same way. The function is total: panics inside user
      code are not modelled, nor what it does to the world.
    - [OForkClone], [OUnzip], [OBranch], [OSpread], [OCollect]: see OpsModel.v.
    - [OFilter]: src/operation/filter.rs:275-348 (dispose), [OCancelFilter]: 132-197.
    - [OCancel]: src/operation/operate_cancel.rs:24-133.
    - [OTerminate]: src/operation/scope.rs:1307-1400.
    - [OUnused]: an output which was not connected, src/operation.rs [UnusedTarget]. *)
Inductive okind :=
| OMap (f : val -> val) (t : entity)
| OForkClone (ts : list entity)
| OUnzip (ts : list entity)
| OBranch (act : val -> option (option val * option val)) (ta tb : entity)
| OSpread (t : entity)
| OFilter (f : val -> option val) (t : entity)
| OCancelFilter (f : val -> option val) (t : entity)
| OCollect (min : nat) (max : option nat) (t : entity)
| OCancel
| OTerminate
| OUnused.

(** A workflow: the entity of its scope, the node its input goes to
    (src/operation/scope.rs:1211 [ScopeEntryStorage]), its terminal (1214
    [TerminalStorage]), its nodes (240-256 [ScopeContents]) and what they are. Unconnected
    outputs are listed among the nodes here although the scope does not list them. *)
Record workflow := mk_workflow {
  f_scope : entity;
  f_entry : entity;
  f_terminal : entity;
  f_nodes : list entity;
  f_kind : emap okind;
}.

(** The targets of a node: [SingleTargetStorage] and [ForkTargetStorage]
    (src/operation.rs:158-210). *)
Definition targets_of (k : okind) : list entity :=
  match k with
  | OMap _ t | OSpread t | OFilter _ t | OCancelFilter _ t | OCollect _ _ t => [t]
  | OForkClone ts | OUnzip ts => ts
  | OBranch _ ta tb => [ta; tb]
  | OCancel | OTerminate | OUnused => []
  end.

Definition node_targets (f : workflow) (n : entity) : list entity :=
  match f_kind f n with Some k => targets_of k | None => [] end.

(** [SingleInputStorage] (src/operation.rs:97-144) of a node: every node that has it as a
    target. That the two agree is what src/builder/connect.rs:54-160 maintains; see
    ConnectModel.v. *)
Definition inputs_of (f : workflow) (n : entity) : list entity :=
  filter (fun m => existsb (Nat.eqb n) (node_targets f m)) (f_nodes f).

(** The outputs of a node for [is_downstream_of]. The scope itself has a target outside of
    the workflow, which is left out. *)
Definition outputs_of (f : workflow) (n : entity) : outputs :=
  match f_kind f n with
  | Some (OMap _ t) | Some (OSpread t) | Some (OFilter _ t) | Some (OCancelFilter _ t)
  | Some (OCollect _ _ t) => mk_outputs (Some t) None [] []
  | Some (OForkClone ts) | Some (OUnzip ts) => mk_outputs None (Some ts) [] []
  | Some (OBranch _ ta tb) => mk_outputs None (Some [ta; tb]) [] []
  | _ => mk_outputs None None [] []
  end.

(** Turns given to the two searches; shown to be enough. *)
Definition down_fuel (f : workflow) : nat :=
  2 + length (f_nodes f) + list_sum (map (fun n => length (node_targets f n)) (f_nodes f)).
Definition reach_fuel (f : workflow) : nat := 2 + length (f_nodes f).

Definition downstream (f : workflow) (a b : entity) : bool :=
  match is_downstream_of (down_fuel f) (outputs_of f) a b with Some r => r | None => false end.

(** What [is_reachable] of every node consults for session [s], when the check is made
    because of a disposal at [origin] or for another reason (None). *)
Definition rkind_of (f : workflow) (o : oworld) (s : entity) (origin : option entity) (n : entity)
  : option rkind :=
  match f_kind f n with
  | None => None
  | Some OUnused => None
  | Some (OCollect min _ _) =>
      Some (KCollect (has_input (o_w o) n s) min
              (match o_coll o n s with Some l => Some (length l) | None => None end)
              (match origin with Some d => downstream f d n | None => false end)
              (Some (inputs_of f n)))
  | Some _ => Some (KWork [has_input (o_w o) n s] (Some (inputs_of f n)))
  end.

(** [is_upstream_active] as the collect operation uses it. *)
Definition upstream_active (f : workflow) (o : oworld) (s n : entity) (origin : option entity)
  : option bool :=
  match is_upstream_active (reach_fuel f) (rkind_of f o s origin) n with
  | RYes => Some true
  | RNo => Some false
  | _ => None
  end.

(** src/operation/operate_map.rs:83-131, without streams. *)
Definition map_execute (f : val -> val) (t n : entity) (o : oworld) : oworld * opres :=
  with_input o n (fun o1 s v => res (o_give o1 t s (f v))).

(** src/operation/filter.rs:303-331. *)
Definition filter_execute (f : val -> option val) (t n : entity) (o : oworld) : oworld * opres :=
  with_input o n (fun o1 s v =>
    match f v with
    | Some y => res (o_give o1 t s y)
    | None => (emit_disposal o1 n s (DFiltered n), OpOk)
    end).

(** The numbers by which causes of cancellations are named. *)
Definition cause_broken := 0.
Definition cause_triggered := 2.
Definition cause_filtered := 3.
Definition cause_circular := 4.
Definition cause_external := 5.
Definition cause_unreachable := 6.

(** src/cancel.rs:399-433 [emit_cancel], [emit_broken] with 464-503 [try_emit_cancel], for
    a node of the workflow. *)
Definition ask_cancel (f : workflow) (o : oworld) (n : entity) (s : option entity) (c : nat) : oworld :=
  with_roster o (ro_cancel (w_roster (o_w o)) (mk_cancel n (f_scope f) s c)).

(** src/operation/filter.rs:154-190. *)
Definition cancel_filter_execute (w : workflow) (f : val -> option val) (t n : entity) (o : oworld)
  : oworld * opres :=
  with_input o n (fun o1 s v =>
    match f v with
    | Some y => res (o_give o1 t s y)
    | None => (ask_cancel w o1 n (Some s) cause_filtered, OpOk)
    end).

(** src/operation/operate_cancel.rs:54-67, 94-107: [take_input().or_broken()]: no message is
    an error here. *)
Definition cancel_execute (w : workflow) (n : entity) (o : oworld) : oworld * opres :=
  match o_take o n with
  | (o1, Took (s, v)) => (ask_cancel w o1 n (Some s) cause_triggered, OpOk)
  | (o1, _) => (o1, OpBroken)
  end.

(** The number of elements of a tuple is part of its type: with another number there is no
    storage for the message, and the operation is broken. *)
Definition fits (ts : list entity) (o : oworld) (n : entity) : bool :=
  match pending (o_w o) n with
  | (_, VTuple vs) :: _ => Nat.eqb (length vs) (length ts)
  | _ => true
  end.

(** [Operation::execute] of the nodes other than the terminal. *)
Definition op_execute (w : workflow) (k : okind) (n : entity) (o : oworld) : oworld * opres :=
  match k with
  | OMap f t => map_execute f t n o
  | OForkClone ts => fork_clone_execute ts n o
  | OUnzip ts => if fits ts o n then unzip_execute ts n o else (fst (o_take o n), OpBroken)
  | OBranch act ta tb => branching_execute act [ta; tb] n o
  | OSpread t => spread_execute t n o
  | OFilter f t => filter_execute f t n o
  | OCancelFilter f t => cancel_filter_execute w f t n o
  | OCollect min max t => collect_execute (upstream_active w) min max t n o
  | OCancel => cancel_execute w n o
  | OTerminate | OUnused => (o, OpOk)
  end.

(** What can be seen of the workflow. *)
Inductive xevent :=
| EStart (s : entity) (v : val)      (* a session starts with a request *)
| EOut (s : entity) (v : val)        (* it ends with a response *)
| ECancelled (s : entity) (c : nat)  (* it ends by a cancellation *)
| EBroken (n : entity)               (* an operation reports that it is broken *)
| EPanic (n : entity).

(** src/operation/scope.rs:1184-1204 [InitialReachability]. *)
Inductive initial := IConfirmed | IInvalidated | IError.

(** The state of the workflow: the world of the operations, the sessions which run
    ([ScopedSessionStorage], src/operation/scope.rs:146-232, in state Ongoing; see
    [finish]), [InitialReachability] of the scope, and what happened so far. *)
Record xworld := mk_x {
  x_o : oworld;
  x_ongoing : list entity;
  x_initial : option initial;
  x_log : list xevent;
}.

Definition set_o (x : xworld) (o : oworld) : xworld := mk_x o (x_ongoing x) (x_initial x) (x_log x).
Definition tell (x : xworld) (e : xevent) : xworld :=
  mk_x (x_o x) (x_ongoing x) (x_initial x) (x_log x ++ [e]).

(** [Operation::cleanup] of a node for session [s]: inputs, and for some kinds disposals and
    collected values (branching.rs:98-102, spread.rs:87-91, filter.rs:332-336,
    collect.rs:120-130; operate_map.rs:133-136, fork_clone.rs:96-99, chain/unzip.rs and
    operate_cancel.rs:69-72 clean the inputs only). The terminal keeps its inputs
    (scope.rs:1376-1381). *)
Definition clean_node (f : workflow) (s : entity) (o : oworld) (n : entity) : oworld :=
  match f_kind f n with
  | Some (OCollect _ _ _) => collect_cleanup true n s o
  | Some (OBranch _ _ _) | Some (OSpread _) | Some (OFilter _ _) =>
      clear_disposals (with_w o (cleanup_inputs (o_w o) n s)) n s
  | Some OTerminate | Some OUnused | None => o
  | Some _ => with_w o (cleanup_inputs (o_w o) n s)
  end.

(** A session ends: src/operation/scope.rs:1235-1305 [cleanup_entire_scope], 1100-1176
    [begin_cleanup_workflows] and 1785-1921 [finalize_scoped_session]. Here in one step:
    every node reports at once and there are no cleanup workflows (ScopeModel.v has the
    general case). After a cancellation the terminal is cleaned (1894-1904), after a
    response it is not. The session is despawned. *)
Definition finish (f : workflow) (s : entity) (e : xevent) (x : xworld) : xworld :=
  if existsb (Nat.eqb s) (x_ongoing x) then
    let o1 := fold_left (clean_node f s) (f_nodes f) (x_o x) in
    let o2 :=
      match e with
      | EOut _ _ => o1
      | _ => with_w o1 (cleanup_inputs (o_w o1) (f_terminal f) s)
      end in
    let o3 := with_w o2 (mk_world (w_nodes (o_w o2)) (emap_set (w_status (o_w o2)) s None) (w_roster (o_w o2))) in
    mk_x o3 (filter (fun s' => negb (Nat.eqb s' s)) (x_ongoing x)) (x_initial x) (x_log x ++ [e])
  else x.

(** src/operation.rs:712-734 [perform_operation], Broken. *)
Definition broken (f : workflow) (n : entity) (x : xworld) : xworld :=
  tell (set_o x (ask_cancel f (x_o x) n None cause_broken)) (EBroken n).

(** src/operation/scope.rs:1321-1374 [Terminate::execute]. A session which is not known any
    more makes it Broken (1349-1353); its value stays in the staging map, which is not
    modelled here. *)
Definition terminate (f : workflow) (n : entity) (x : xworld) : xworld :=
  match o_take (x_o x) n with
  | (o1, Took (s, v)) =>
      let x1 := set_o x o1 in
      if existsb (Nat.eqb s) (x_ongoing x) then finish f s (EOut s v) x1
      else broken f n x1
  | (o1, NotReady) => set_o x o1
  | (o1, TakeBroken) => broken f n (set_o x o1)
  end.

(** src/flush.rs:133-153, one turn: the first entry of the queue is executed
    (src/operation.rs:677-701 [execute_operation]). *)
Definition exec (f : workflow) (x : xworld) : xworld :=
  match r_queue (w_roster (o_w (x_o x))) with
  | [] => x
  | n :: rest =>
      let r := w_roster (o_w (x_o x)) in
      let o0 := with_roster (x_o x)
        (mk_roster rest (r_awake r) (r_deferred r) (r_cancel r) (r_unblock r) (r_disposed r)
           (r_cleanup r) (r_despawn r)) in
      let x0 := set_o x o0 in
      match f_kind f n with
      | None => x0
      | Some OTerminate => terminate f n x0
      | Some k =>
          match op_execute f k n o0 with
          | (o1, OpOk) | (o1, OpNotReady) => set_o x o1
          | (o1, OpBroken) => broken f n (set_o x o1)
          | (o1, OpPanic) => tell (set_o x o1) (EPanic n)
          end
      end
  end.

(** src/operation/scope.rs:961-969. *)
Definition finish_all (f : workflow) (c : nat) (x : xworld) : xworld :=
  fold_left (fun x s => finish f s (ECancelled s c) x) (x_ongoing x) x.

(** src/flush.rs:170-172: one cancellation is carried out, scope.rs:933-1014
    [receive_cancel], [cancel_one]. *)
Definition do_cancel (f : workflow) (x : xworld) : xworld :=
  match r_cancel (w_roster (o_w (x_o x))) with
  | [] => x
  | c :: rest =>
      let r := w_roster (o_w (x_o x)) in
      let x0 := set_o x (with_roster (x_o x)
        (mk_roster (r_queue r) (r_awake r) (r_deferred r) rest (r_unblock r) (r_disposed r)
           (r_cleanup r) (r_despawn r))) in
      if Nat.eqb (c_target c) (f_scope f) then
        match c_session c with
        | Some s => finish f s (ECancelled s (c_cause c)) x0
        | None => finish_all f (c_cause c) x0
        end
      else x0
  end.

(** src/operation/scope.rs:1032-1045: the disposal listeners, in the order of the nodes;
    [false]: one of them failed. *)
Fixpoint listeners (f : workflow) (origin s : entity) (l : list entity) (o : oworld) : oworld * bool :=
  match l with
  | [] => (o, true)
  | n :: l' =>
      match f_kind f n with
      | Some (OCollect min _ t) =>
          match collect_disposal (upstream_active f) (downstream f) min t n origin s o with
          | (o1, OpOk) => listeners f origin s l' o1
          | (o1, _) => (o1, false)
          end
      | _ => listeners f origin s l' o
      end
  end.

(** src/operation/scope.rs:1018-1098 [validate_scope_reachability]. [None]: Broken (a
    session that is not known is not an error, 1072). *)
Definition validate (f : workflow) (origin s : entity) (x : xworld) : xworld * option bool :=
  match listeners f origin s (f_nodes f) (x_o x) with
  | (o1, false) => (set_o x o1, None)
  | (o1, true) =>
      match check_reachability (reach_fuel f) (rkind_of f o1 s (Some origin)) (f_terminal f) with
      | RYes => (set_o x o1, Some true)
      | RNo => (finish f s (ECancelled s cause_unreachable) (set_o x o1), Some false)
      | _ => (set_o x o1, None)
      end
  end.

(** src/flush.rs:283-322: one disposal notice, the last one first; errors are only logged. *)
Definition notice (f : workflow) (x : xworld) : xworld :=
  match pop_last (r_disposed (w_roster (o_w (x_o x)))) with
  | (_, None) => x
  | (rest, Some d) =>
      let r := w_roster (o_w (x_o x)) in
      let x0 := set_o x (with_roster (x_o x)
        (mk_roster (r_queue r) (r_awake r) (r_deferred r) (r_cancel r) (r_unblock r) rest
           (r_cleanup r) (r_despawn r))) in
      if Nat.eqb (d_source d) (f_scope f) then fst (validate f (d_origin d) (d_session d) x0)
      else x0
  end.

(** src/operation/scope.rs:568-596 [find_circular_collects]: whether there are any. *)
Definition is_collect (f : workflow) (n : entity) : bool :=
  match f_kind f n with Some (OCollect _ _ _) => true | _ => false end.

Fixpoint circular (f : workflow) (l : list entity) : bool :=
  match l with
  | [] => false
  | n :: l' =>
      (is_collect f n && existsb (fun m => is_collect f m && downstream f n m && downstream f m n) l')
      || circular f l'
  end.

(** The session was started before. *)
Definition known (s : entity) (l : list xevent) : bool :=
  existsb (fun e => match e with EStart s' _ => Nat.eqb s s' | _ => false end) l.

(** src/operation/scope.rs:364-390 [dyn_begin_scope], 485-566 [begin_scope], 598-628
    [begin_scope_impl], with a fresh session [s]. When the entry cannot be given the
    request, only the despawning of the session is modelled. *)
Definition start (f : workflow) (s : entity) (v : val) (x : xworld) : xworld :=
  if known s (x_log x) then x
  else
    let o := x_o x in
    let o1 := with_w o (mk_world (w_nodes (o_w o)) (emap_set (w_status (o_w o)) s (Some Active)) (w_roster (o_w o))) in
    match o_give o1 (f_entry f) s v with
    | (o2, false) =>
        tell (set_o x (with_w o2 (mk_world (w_nodes (o_w o2)) (emap_set (w_status (o_w o2)) s None)
                                    (w_roster (o_w o2))))) (EBroken (f_scope f))
    | (o2, true) =>
        let x1 := mk_x o2 (x_ongoing x ++ [s]) (x_initial x) (x_log x ++ [EStart s v]) in
        match x_initial x with
        | Some IError => finish f s (ECancelled s cause_circular) x1
        | Some IInvalidated => fst (validate f (f_scope f) s x1)
        | Some IConfirmed => x1
        | None =>
            if circular f (f_nodes f) then
              finish f s (ECancelled s cause_circular)
                (mk_x o2 (x_ongoing x1) (Some IError) (x_log x1))
            else
              match validate f (f_scope f) s x1 with
              | (x2, Some b) =>
                  mk_x (x_o x2) (x_ongoing x2) (Some (if b then IConfirmed else IInvalidated)) (x_log x2)
              | (x2, None) => x2
              end
        end
    end.

(** Everything that can happen. [XCancel]: somebody outside cancels the session. *)
Inductive xact := XStart (s : entity) (v : val) | XExec | XDoCancel | XNotice | XCancel (s : entity).

Definition xstep (f : workflow) (x : xworld) (a : xact) : xworld :=
  match a with
  | XStart s v => start f s v x
  | XExec => exec f x
  | XDoCancel => do_cancel f x
  | XNotice => notice f x
  | XCancel s => set_o x (ask_cancel f (x_o x) (f_scope f) (Some s) cause_external)
  end.

Definition xrun (f : workflow) (acts : list xact) (x : xworld) : xworld := fold_left (xstep f) acts x.

(** The world before anything happened. *)
Definition fresh_node (k : option okind) : option (node val) :=
  match k with
  | None => None
  | Some OUnused => Some (mk_node None true false None)
  | Some _ => Some (mk_node (Some []) false false None)
  end.

Definition fresh (f : workflow) : xworld :=
  mk_x (mk_ow (mk_world (fun n => fresh_node (f_kind f n)) (fun _ => None) roster_new)
          (fun n => match f_kind f n with Some OUnused | None => None | Some _ => Some (f_scope f) end)
          (fun _ => false) (fun _ _ => []) [] (fun _ _ => None) (fun _ => None) (fun _ => None))
    [] None [].

(** src/flush.rs:91-165 [flush_execution_impl] with 167-174 [garbage_cleanup], without a
    loop limit: cancellations after every operation, the whole queue, then the disposal
    notices, until nothing is left. [fuel] bounds the number of turns. *)
Fixpoint garbage (fuel : nat) (f : workflow) (x : xworld) : xworld :=
  match fuel with
  | 0 => x
  | S fuel' =>
      match r_cancel (w_roster (o_w (x_o x))) with
      | [] => x
      | _ => garbage fuel' f (do_cancel f x)
      end
  end.

Definition collect_garbage (f : workflow) (x : xworld) : xworld :=
  garbage (length (r_cancel (w_roster (o_w (x_o x))))) f x.

Fixpoint flush (fuel : nat) (f : workflow) (x : xworld) : xworld :=
  match fuel with
  | 0 => x
  | S fuel' =>
      match r_queue (w_roster (o_w (x_o x))) with
      | _ :: _ => flush fuel' f (collect_garbage f (exec f x))
      | [] =>
          match r_disposed (w_roster (o_w (x_o x))) with
          | _ :: _ => flush fuel' f (collect_garbage f (notice f x))
          | [] => collect_garbage f x
          end
      end
  end.
