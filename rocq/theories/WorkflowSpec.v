(** What the properties of workflow services say, in terms of what can be seen of them. *)
From Verif Require Import Base DeliveryModel DeliverySpec WorkflowModel.

Section Spec.
Context {V : Type}.
Implicit Types (l : list (wevent V)) (id : entity).

(** The requests received, in the order of arrival, and those begun, in the order of their
    beginnings. *)
Definition received l : list entity :=
  flat_map (fun e => match e with WReq id _ _ _ _ => [id] | _ => [] end) l.
Definition begun l : list entity :=
  flat_map (fun e => match e with WStart id _ => [id] | _ => [] end) l.

(** The outcomes of requests: of those which were begun, and of all. *)
Definition run_outcome (e : wevent V) : option entity :=
  match e with
  | WResp id _ _ _ | WTold id _ _ | WUntold id _ _ | WCleaned id | WLost id _ => Some id
  | _ => None
  end.
Definition outcome (e : wevent V) : option entity :=
  match e with
  | WDisp id _ _ _ _ | WDropped id => Some id
  | _ => run_outcome e
  end.
Definition outcomes l : list entity :=
  flat_map (fun e => match outcome e with Some id => [id] | None => [] end) l.

(** The requests that have been begun and not ended. *)
Definition in_progress l : list entity :=
  filter (fun id => negb (existsb (Nat.eqb id) (outcomes l))) (begun l).

(** The requests that have been received and neither begun nor ended. *)
Definition pending l : list entity :=
  filter (fun id => negb (existsb (Nat.eqb id) (begun l ++ outcomes l))) (received l).

(** The requests with a label, of a session. *)
Definition of_label (n : nat) l : list entity :=
  flat_map (fun e => match e with
                     | WReq id _ _ i _ => if labelled n i then [id] else []
                     | _ => []
                     end) l.
Definition of_session (s : entity) l : list entity :=
  flat_map (fun e => match e with
                     | WReq id _ s' _ _ => if Nat.eqb s' s then [id] else []
                     | _ => []
                     end) l.
Definition among (ids m : list entity) : list entity :=
  filter (fun id => existsb (Nat.eqb id) ids) m.

(** What an event says fits to what has happened before: a request is new when it is received;
    it is waiting when it begins, is disposed of or dropped, it is in progress when it gets its
    response or is cancelled or lost; a run gets the value of its request; a response is given
    for the node and the session of the request, and it is them who are told of its end. *)
Definition well_timed (p : list (wevent V)) (e : wevent V) : Prop :=
  match e with
  | WReq id _ _ _ _ => ~ In id (received p)
  | WStart id v => In id (pending p) /\ exists n s i, In (WReq id n s i v) p
  | WDisp id n s _ _ => In id (pending p) /\ exists i v, In (WReq id n s i v) p
  | WDropped id => In id (pending p)
  | WResp id n s _ => In id (in_progress p) /\ exists i v, In (WReq id n s i v) p
  | WTold id s _ | WUntold id s _ => In id (in_progress p) /\ exists n i v, In (WReq id n s i v) p
  | WLost id _ => In id (in_progress p)
  | WCleaned id => In id (pending p ++ in_progress p)
  | WPanic => False
  end.

(** An execution in which the targets of responses exist when the responses are given, and in
    which a session ends only when the service has nothing more of it. *)
Definition considerate (w : wsrv V) (a : wact V) : Prop :=
  match a with
  | AFinal _ ex _ => forall n, ex n = true
  | ADespawn s => forall id, In id (of_session s (wf_log w)) -> In id (outcomes (wf_log w))
  | _ => True
  end.
Fixpoint considerate_run (g : wconf) (w : wsrv V) (acts : list (wact V)) : Prop :=
  match acts with
  | [] => True
  | a :: r => considerate w a /\ considerate_run g (wstep g w a) r
  end.

(** A session means a run if it is the scoped session of the run or the session of its request. *)
Definition means (l : list (wevent V)) (t id : entity) : Prop :=
  t = id \/ exists n i v, In (WReq id n t i v) l.

(** What decides how a run in progress ends: the first of a value at the terminal, a
    cancellation, the cleanup of the session (unless the workflow is uninterruptible), and a
    request that supplants a run of the same session. [l] is what happened before. *)
Inductive decides (g : wconf) (l : list (wevent V)) (id : entity) : wact V -> wfin V -> Prop :=
| dec_value v : decides g l id (AValue id v) (FinResp v)
| dec_cancel t c : means l t id -> decides g l id (ACancel t c) (FinCancel (WOther c))
| dec_clean n s i v : wc_unint g = false -> In (WReq id n s i v) l -> decides g l id (AClean s) FinEarly
| dec_supplant n s inc v id2 n2 s2 i2 v2 :
    i_preempt inc = true -> In id2 (in_progress l) -> In (WReq id2 n2 s2 i2 v2) l ->
    gives_way inc i2 -> means l s2 id ->
    decides g l id (ARequest n s (Some inc) v) (FinCancel (WSupplanted n s)).

Definition undecided (g : wconf) (w0 : wsrv V) (acts : list (wact V)) (id : entity) : Prop :=
  forall b1 b b2 f, acts = b1 ++ b :: b2 -> In id (in_progress (wf_log (wexec g w0 b1))) ->
    ~ decides g (wf_log (wexec g w0 b1)) id b f.
Definition decided (g : wconf) (w0 : wsrv V) (acts : list (wact V)) (id : entity) (f : wfin V) : Prop :=
  exists a1 a a2, acts = a1 ++ a :: a2 /\ In id (in_progress (wf_log (wexec g w0 a1))) /\
    decides g (wf_log (wexec g w0 a1)) id a f /\ undecided g w0 a1 id.

(** How a run has ended. *)
Definition ended_as (e : wevent V) : option (entity * wfin V) :=
  match e with
  | WResp id _ _ v | WLost id v => Some (id, FinResp v)
  | WTold id _ c | WUntold id _ c => Some (id, FinCancel c)
  | WCleaned id => Some (id, FinEarly)
  | _ => None
  end.

(** A service that has received nothing yet, for one request at a time or for one at a time of
    each label. *)
Definition new_service (w : wsrv V) : Prop := exists base, w = wf_serial base \/ w = wf_parallel base.

End Spec.
