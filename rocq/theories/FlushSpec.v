(** What scheduled work is, and how to count it in the log of a flush. *)
From Verif Require Import Base RosterModel FlushModel.

Section FlushSpec.
  Context {item : Type}.
  Implicit Types (l : list (event item)).

  (** The kinds of work. *)
  Inductive job :=
  | JExec (e : entity) | JAwake (e : entity) | JServe (b : blocker) | JCancel (c : cancel_req)
  | JValidate (d : disposal_notice) | JCleanup (c : cleanup_req) | JDespawn (e : entity).

  Definition ordered (c : rcmd) : list job :=
    match c with
    | CQueue e | CDefer e => [JExec e]
    | CAwake e => [JAwake e]
    | CCancel c => [JCancel c]
    | CUnblock b => [JServe b]
    | CDisposed d => [JValidate d]
    | CCleanup c => [JCleanup c]
    | CDespawn e => [JDespawn e]
    | CPurge _ => []
    end.

  Definition performed (t : task item) : list job :=
    match t with
    | TExec e => [JExec e]
    | TAwake e => [JAwake e]
    | TServe b => [JServe b]
    | TCancel c => [JCancel c]
    | TValidate d => [JValidate d]
    | TCleanup c => [JCleanup c]
    | TDespawn e => [JDespawn e]
    | TItem _ | TRemoved _ | TFinish _ | TDrop _ => []
    end.

  (** All the work that was scheduled, and all that was done, according to a log. *)
  Definition scheduled l : list job := flat_map (fun e => match e with EScheduled _ c => ordered c | _ => [] end) l.
  Definition done l : list job := flat_map (fun e => match e with ERun t => performed t | _ => [] end) l.

  (** The work which a roster holds. *)
  Definition held (r : roster) : list job :=
    map JExec (r_queue r) ++ map JExec (r_deferred r) ++ map JAwake (r_awake r) ++ map JServe (r_unblock r) ++
    map JCancel (r_cancel r) ++ map JValidate (r_disposed r) ++ map JCleanup (r_cleanup r) ++ map JDespawn (r_despawn r).

  (** [P] selects jobs none of which was purged. *)
  Definition spared (P : job -> bool) l : Prop :=
    forall here e, In (EScheduled here (CPurge e)) l -> P (JExec e) = false.

  (** Nothing is purged from the roster at hand. *)
  Definition unpurged l : Prop := forall e, ~ In (EScheduled true (CPurge e)) l.

  (** Executions, and what was put into the queue of the roster at hand. *)
  Definition executions l : list entity := flat_map (fun e => match e with ERun (TExec x) => [x] | _ => [] end) l.
  Definition queued l : list entity := flat_map (fun e => match e with EScheduled true (CQueue x) => [x] | _ => [] end) l.

  (** Items received from the channel. *)
  Definition received l : list item := flat_map (fun e => match e with ERun (TItem i) => [i] | _ => [] end) l.

  (** The part of a log after the last start of a flush; after the last collection. *)
  Fixpoint since (f : event item -> bool) l : list (event item) :=
    match l with
    | [] => []
    | e :: l' => if existsb f l' then since f l' else if f e then l' else e :: l'
    end.
  Definition is_start (e : event item) : bool := match e with EStart => true | _ => false end.
  Definition is_collect (e : event item) : bool := match e with ECollect => true | _ => false end.
  Definition is_iter (e : event item) : bool := match e with EIter => true | _ => false end.
  Definition is_limit (e : event item) : bool := match e with ELimit _ => true | _ => false end.
  Definition this_flush l := since is_start l.

  (** How many jobs of a list are in [P]. *)
  Definition count (P : job -> bool) (js : list job) : nat := length (filter P js).
End FlushSpec.
