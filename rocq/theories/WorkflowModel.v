(** Model of workflows used as services: src/service/workflow.rs, with the end of a run in
    [FinishCleanup::finalize_scoped_session] (src/operation/scope.rs). The queues are those
    of DeliveryModel.v, the statuses of sessions those of ScopeModel.v. No proofs in this
    file. *)
From Verif Require Import Base DeliveryModel ScopeModel.

(** Why a run is cancelled: src/cancel.rs [Cancellation::supplanted] by a request of a node
    in a session, or any other cause, named by a number. *)
Inductive wcause := WSupplanted (node session : entity) | WOther (c : nat).

Section Workflow.
Context {V : Type}.

(** src/operation/scope.rs:1449-1454 [FinishStatus], a termination with the value that is
    staged for it (1334-1344). *)
Inductive wfin := FinResp (v : V) | FinCancel (c : wcause) | FinEarly.

(** A run of the workflow: its entry in src/operation/scope.rs:1979-1991 [ExitTargetStorage]
    and, until its cleanup is over, in [ScopedSessionStorage] (146-153), with the first record
    that src/operation/scope.rs:1260-1270 puts into [AwaitingCleanupStorage] for it
    ([wr_fin]; later ones are left out, see ScopeModel.v). [wr_id] is the scoped session,
    [wr_session] the parent session, [wr_block] the label of its blocker. [wr_instr]: the
    instructions of the request, kept to state properties. *)
Record wrun := mk_wrun {
  wr_id : entity; wr_node : entity; wr_session : entity; wr_instr : option instr;
  wr_block : option (option nat); wr_status : sstatus; wr_fin : option wfin }.

(** What can be seen. A request is named by its scoped session. *)
Inductive wevent :=
| WReq (id node session : entity) (i : option instr) (v : V)   (* a request is received *)
| WStart (id : entity) (v : V)                                 (* its run begins *)
| WResp (id node session : entity) (v : V)    (* response given to the target of the node *)
| WTold (id session : entity) (c : wcause)    (* its session is told of a cancellation *)
| WUntold (id session : entity) (c : wcause)  (* the cancellation reaches nobody *)
| WDisp (id node session by_node by_session : entity)
      (* the node is told that its waiting request was supplanted *)
| WCleaned (id : entity)                      (* ended because its session is cleaned up *)
| WDropped (id : entity)                      (* not begun: its node has no target any more *)
| WLost (id : entity) (v : V)                 (* the target of its response is gone *)
| WPanic.

(** The provider of the workflow and its scope. [wf_live]: the scoped sessions that exist,
    with their parents (src/service/workflow.rs:120-123). *)
Record wsrv := mk_wsrv {
  wf_del : delivery V;
  wf_runs : list wrun;
  wf_live : list (entity * entity);
  wf_next : entity;
  wf_log : list wevent }.

(** What does not change: whether the scope is uninterruptible, and which sessions can be
    cancelled: those of requests from outside of workflows can (src/request.rs:104,
    src/series.rs:158), the scoped sessions of other workflows cannot, as they are spawned
    without [Cancellable] (src/operation/scope.rs:376-379, src/service/workflow.rs:120-123). *)
Record wconf := mk_wconf { wc_unint : bool; wc_top : entity -> bool }.

(** Scoped sessions are numbered from [base] on. *)
Definition wf_new (base : entity) (d : delivery V) : wsrv := mk_wsrv d [] [] base [].

(** src/service/delivery.rs:133-139. *)
Definition wf_serial (base : entity) : wsrv := wf_new base (Serial serial_new).
Definition wf_parallel (base : entity) : wsrv := wf_new base (Parallel []).

Definition wset_del (w : wsrv) d := mk_wsrv d (wf_runs w) (wf_live w) (wf_next w) (wf_log w).
Definition wset_runs (w : wsrv) rs := mk_wsrv (wf_del w) rs (wf_live w) (wf_next w) (wf_log w).
Definition wset_live (w : wsrv) l := mk_wsrv (wf_del w) (wf_runs w) l (wf_next w) (wf_log w).
Definition wsay (w : wsrv) es := mk_wsrv (wf_del w) (wf_runs w) (wf_live w) (wf_next w) (wf_log w ++ es).

(** Whether a scoped session exists. *)
Definition wlives (w : wsrv) (id : entity) : bool :=
  existsb (fun p => Nat.eqb (fst p) id) (wf_live w).

(** src/service/workflow.rs:242-278 [begin_workflow] with src/operation/scope.rs:485-566
    [begin_scope] and 598-628: the scope is taken to exist, its entry to have the right type,
    and the checks at the start to pass (a failing one is a cancellation right afterwards). A
    session that is gone is begun as well: its input is dropped without an error
    (src/input.rs:204-218). *)
Definition wbegin (w : wsrv) (id node session : entity) (i : option instr)
  (block : option (option nat)) (v : V) : wsrv :=
  wsay (wset_runs w (wf_runs w ++ [mk_wrun id node session i block Ongoing None])) [WStart id v].

(** [wr_fin] once the status asks for a cleanup. *)
Definition wswitched (r : wrun) (st : sstatus) (f : option wfin) : wrun :=
  mk_wrun (wr_id r) (wr_node r) (wr_session r) (wr_instr r) (wr_block r) st
    (match wr_fin r with Some x => Some x | None => f end).

(** The loops of [dyn_cleanup] and [cancel_one] (src/operation/scope.rs:411-424, 982-998)
    together with [cleanup_entire_scope] (1235-1305) for the sessions that were selected: it
    stops at the first one that does not exist (1255-1258), [ok] says that there was none. *)
Fixpoint wswitch (live : entity -> bool) (sel : wrun -> bool) (f : sstatus -> sstatus * bool)
  (fi : wfin) (ok : bool) (l : list wrun) : list wrun :=
  match l with
  | [] => []
  | r :: l' =>
      if sel r then
        let '(st, hit) := f (wr_status r) in
        let ok' := if hit then ok && live (wr_id r) else ok in
        wswitched r st (if hit && ok' then Some fi else None) :: wswitch live sel f fi ok' l'
      else r :: wswitch live sel f fi ok l'
  end.

(** src/operation/scope.rs:974-1014 [cancel_one]: the session may be a scoped session or a
    parent session. *)
Definition wcancel (w : wsrv) (session : entity) (c : wcause) : wsrv :=
  wset_runs w (wswitch (wlives w)
    (fun r => Nat.eqb (wr_id r) session || Nat.eqb (wr_session r) session)
    to_cancelled (FinCancel c) true (wf_runs w)).

(** src/operation/scope.rs:1321-1374 [Terminate::execute]: the terminal takes a value for a
    scoped session. No value reaches it once the session is being cleaned or gone
    (src/input.rs:204-218); values that were waiting there before are left out. *)
Definition wvalue (w : wsrv) (id : entity) (v : V) : wsrv :=
  if wlives w id then
    wset_runs w (map (fun r =>
      if Nat.eqb (wr_id r) id then
        match wr_fin r with
        | Some _ => r
        | None => let '(st, hit) := to_finished (wr_status r) in
                  wswitched r st (if hit then Some (FinResp v) else None)
        end
      else r) (wf_runs w))
  else w.

(** src/service/workflow.rs:102-240 [serve], [serve_workflow_impl], for a node whose
    input has been taken. The cancellation of 213-218 is carried out at once, as nothing comes
    between (src/flush.rs:138-145, 173-181). *)
Definition wserve (w : wsrv) (node session : entity) (i : option instr) (v : V) : wsrv :=
  let id := wf_next w in
  let w := mk_wsrv (wf_del w) (wf_runs w) (wf_live w ++ [(id, session)]) (S id)
             (wf_log w ++ [WReq id node session i v]) in
  let '(d, u) := insert_new_order (wf_del w) (mk_order node session id v i) in
  let w := wset_del w d in
  match u with
  | Immediate blocking v => wbegin w id node session i blocking v
  | Queued cancelled st _ =>
      let w := wsay w (map (fun c => WDisp (st_task c) (st_source c) (st_session c) node session)
                         cancelled) in
      match st with
      | Some st => wcancel w (st_session st) (WSupplanted node session)
      | None => w
      end
  | AssertFailed => wsay w [WPanic]
  end.

(** src/service/workflow.rs:280-351 [serve_next_workflow_request], at most as many rounds as
    there are requests in the queue plus one. [alive]: the nodes that still have a target
    (316-320). *)
Fixpoint wserve_next (fuel : nat) (alive : entity -> bool) (label : option nat) (w : wsrv) : wsrv :=
  match pop_next (wf_del w) label with
  | None => wsay w [WPanic]
  | Some (d, None) => wset_del w d
  | Some (d, Some o) =>
      let w := wset_del w d in
      if alive (d_source o) then
        wbegin w (d_task o) (d_source o) (d_session o) (d_instr o)
          (Some (option_map i_label (d_instr o))) (d_request o)
      else
        match fuel with
        | 0 => w
        | S fuel => wserve_next fuel alive label (wsay w [WDropped (d_task o)])
        end
  end.

(** src/operation/scope.rs:1906-1909. *)
Definition wunblock (w : wsrv) (alive : entity -> bool) (block : option (option nat)) : wsrv :=
  match block with
  | Some l => wserve_next (length (queued (wf_del w))) alive l w
  | None => w
  end.

(** src/operation/scope.rs:1913-1917. *)
Definition wdespawn_one (w : wsrv) (id : entity) : wsrv :=
  wset_live w (filter (fun p => negb (Nat.eqb (fst p) id)) (wf_live w)).

(** The end of a run, once its nodes and cleanup workflows are done:
    src/operation/scope.rs:1785-1920 [finalize_scoped_session]. A cancellation is directed at
    the parent session (1807-1809, src/cancel.rs:464-503, as this node has no scope:
    src/operation/scope.rs:675-681) and reaches it if it can be cancelled (src/cancel.rs:
    287-308). [exist]: the nodes whose target entity exists (1889-1893: otherwise it returns
    there). Whether the parent session still takes inputs is left to InputModel.v, the notice
    for the parent (1812-1869) to ScopeModel.v, the buffers (1911) are left out. *)
Definition wfinal (g : wconf) (w : wsrv) (id : entity) (exist alive : entity -> bool) : wsrv :=
  match find (fun r => Nat.eqb (wr_id r) id) (wf_runs w) with
  | None => w
  | Some r =>
      let go e := wdespawn_one (wunblock (wsay (wset_runs w
          (filter (fun r => negb (Nat.eqb (wr_id r) id)) (wf_runs w))) [e]) alive (wr_block r)) id in
      match wr_fin r with
      | None => w
      | Some (FinResp v) =>
          if exist (wr_node r) then go (WResp id (wr_node r) (wr_session r) v)
          else wsay (wset_runs w (filter (fun r => negb (Nat.eqb (wr_id r) id)) (wf_runs w))) [WLost id v]
      | Some (FinCancel c) =>
          go (if wc_top g (wr_session r) then WTold id (wr_session r) c
              else WUntold id (wr_session r) c)
      | Some FinEarly => go (WCleaned id)
      end
  end.

(** src/operation/operate_service.rs:91-115 [OperateService::cleanup] for a workflow service,
    with src/service/delivery.rs:160-180 [Delivery::cleanup], src/service/workflow.rs:32-53
    [WorkflowHooks::cleanup] and src/operation/scope.rs:392-446 [dyn_cleanup]. *)
Definition wclean (g : wconf) (w : wsrv) (session : entity) : wsrv :=
  let gone := filter (fun o => Nat.eqb (d_session o) session) (queued (wf_del w)) in
  let w := wsay (wset_del w (delivery_cleanup (wf_del w) session))
             (map (fun o => WCleaned (d_task o)) gone) in
  wset_runs w (wswitch (wlives w) (fun r => Nat.eqb (wr_session r) session)
    (to_cleanup (wc_unint g)) FinEarly true (wf_runs w)).

(** A parent session is despawned, and with it its scoped sessions, which are its children
    (src/service/workflow.rs:122, src/operation/scope.rs:378, 1913-1917). *)
Definition wdespawn (w : wsrv) (session : entity) : wsrv :=
  wset_live w (filter (fun p => negb (Nat.eqb (snd p) session)) (wf_live w)).

(** What may happen: a request, a value at the terminal, a cancellation of a scoped or parent
    session, the end of a run, the cleanup of a parent session at a node of the service, the
    end of a parent session. *)
Inductive wact :=
| ARequest (node session : entity) (i : option instr) (v : V)
| AValue (id : entity) (v : V)
| ACancel (session : entity) (c : nat)
| AFinal (id : entity) (exist alive : entity -> bool)
| AClean (session : entity)
| ADespawn (session : entity).

Definition wstep (g : wconf) (w : wsrv) (a : wact) : wsrv :=
  match a with
  | ARequest n s i v => wserve w n s i v
  | AValue id v => wvalue w id v
  | ACancel s c => wcancel w s (WOther c)
  | AFinal id ex al => wfinal g w id ex al
  | AClean s => wclean g w s
  | ADespawn s => wdespawn w s
  end.

Definition wexec (g : wconf) (w : wsrv) (l : list wact) : wsrv := fold_left (wstep g) l w.

End Workflow.

Arguments wfin : clear implicits.
Arguments wrun : clear implicits.
Arguments wevent : clear implicits.
Arguments wsrv : clear implicits.
Arguments wact : clear implicits.
