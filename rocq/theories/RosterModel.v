(** Model of the work lists of src/operation.rs ([OperationRoster]) shared by the
    other modules. No proofs in this file. *)
From Verif Require Import Base.

(** src/cancel.rs [Cancel]: which operation caused it, which entity must react,
    and for which session. The cause (an error report) is reduced to a number. *)
Record cancel_req := mk_cancel {
  c_origin : entity;
  c_target : entity;
  c_session : option entity;
  c_cause : nat;
}.

(** src/operation.rs:326-337 [Blocker]. The [serve_next] function pointer is fixed
    by the kind of the provider and not represented. *)
Record blocker := mk_blocker {
  b_provider : entity;
  b_source : entity;
  b_session : entity;
  b_label : option nat;
}.

(** src/operation.rs:315-324 [DisposalNotice]. *)
Record disposal_notice := mk_disposal {
  d_source : entity;
  d_origin : entity;
  d_session : entity;
}.

(** src/operation/cleanup.rs [Cleanup]: which scope (or trim) is cleaning which
    session under which cleanup id. *)
Record cleanup_req := mk_cleanup {
  cl_cleaner : entity;
  cl_node : entity;
  cl_session : entity;
  cl_id : entity;
}.

(** src/operation.rs:212-233 [OperationRoster]. *)
Record roster := mk_roster {
  r_queue : list entity;
  r_awake : list entity;
  r_deferred : list entity;
  r_cancel : list cancel_req;
  r_unblock : list blocker;
  r_disposed : list disposal_notice;
  r_cleanup : list cleanup_req;
  r_despawn : list entity;
}.

(** src/operation.rs:236-238 [new]. *)
Definition roster_new : roster := mk_roster [] [] [] [] [] [] [] [].

(** src/operation.rs:240-242 [queue]. *)
Definition ro_queue (r : roster) (e : entity) : roster :=
  mk_roster (r_queue r ++ [e]) (r_awake r) (r_deferred r) (r_cancel r) (r_unblock r)
    (r_disposed r) (r_cleanup r) (r_despawn r).

(** src/operation.rs:244-246 [awake]. *)
Definition ro_awake (r : roster) (e : entity) : roster :=
  mk_roster (r_queue r) (r_awake r ++ [e]) (r_deferred r) (r_cancel r) (r_unblock r)
    (r_disposed r) (r_cleanup r) (r_despawn r).

(** src/operation.rs:248-250 [defer]. *)
Definition ro_defer (r : roster) (e : entity) : roster :=
  mk_roster (r_queue r) (r_awake r) (r_deferred r ++ [e]) (r_cancel r) (r_unblock r)
    (r_disposed r) (r_cleanup r) (r_despawn r).

(** src/operation.rs:252-254 [cancel]. *)
Definition ro_cancel (r : roster) (c : cancel_req) : roster :=
  mk_roster (r_queue r) (r_awake r) (r_deferred r) (r_cancel r ++ [c]) (r_unblock r)
    (r_disposed r) (r_cleanup r) (r_despawn r).

(** src/operation.rs:256-258 [unblock]. *)
Definition ro_unblock (r : roster) (b : blocker) : roster :=
  mk_roster (r_queue r) (r_awake r) (r_deferred r) (r_cancel r) (r_unblock r ++ [b])
    (r_disposed r) (r_cleanup r) (r_despawn r).

(** src/operation.rs:260-266 [disposed]. *)
Definition ro_disposed (r : roster) (d : disposal_notice) : roster :=
  mk_roster (r_queue r) (r_awake r) (r_deferred r) (r_cancel r) (r_unblock r)
    (r_disposed r ++ [d]) (r_cleanup r) (r_despawn r).

(** src/operation.rs:268-270 [cleanup_finished]. *)
Definition ro_cleanup (r : roster) (c : cleanup_req) : roster :=
  mk_roster (r_queue r) (r_awake r) (r_deferred r) (r_cancel r) (r_unblock r)
    (r_disposed r) (r_cleanup r ++ [c]) (r_despawn r).

(** src/operation.rs:272-274 [defer_despawn]. *)
Definition ro_despawn (r : roster) (e : entity) : roster :=
  mk_roster (r_queue r) (r_awake r) (r_deferred r) (r_cancel r) (r_unblock r)
    (r_disposed r) (r_cleanup r) (r_despawn r ++ [e]).

Definition is_nil {A} (l : list A) : bool := match l with [] => true | _ => false end.

(** src/operation.rs:276-285 [is_empty]. *)
Definition ro_is_empty (r : roster) : bool :=
  is_nil (r_queue r) && is_nil (r_awake r) && is_nil (r_deferred r) && is_nil (r_cancel r)
  && is_nil (r_unblock r) && is_nil (r_disposed r) && is_nil (r_cleanup r)
  && is_nil (r_despawn r).

(** src/operation.rs:287-298 [append]: [other] becomes empty. *)
Definition ro_append (r other : roster) : roster :=
  mk_roster (r_queue r ++ r_queue other) (r_awake r ++ r_awake other)
    (r_deferred r ++ r_deferred other) (r_cancel r ++ r_cancel other)
    (r_unblock r ++ r_unblock other) (r_disposed r ++ r_disposed other)
    (r_cleanup r ++ r_cleanup other) (r_despawn r ++ r_despawn other).

(** src/operation.rs:300-305 [purge]. *)
Definition ro_purge (r : roster) (t : entity) : roster :=
  mk_roster (filter (fun e => negb (Nat.eqb e t)) (r_queue r)) (r_awake r)
    (filter (fun e => negb (Nat.eqb e t)) (r_deferred r)) (r_cancel r) (r_unblock r)
    (r_disposed r) (r_cleanup r) (r_despawn r).

(** src/operation.rs:307-312 [process_deferals]. *)
Definition ro_process_deferrals (r : roster) : roster :=
  mk_roster (r_queue r ++ r_deferred r) (r_awake r) [] (r_cancel r) (r_unblock r)
    (r_disposed r) (r_cleanup r) (r_despawn r).
