(** What is observed of the message traffic of one node. *)
From Verif Require Import Base RosterModel BufferModel InputModel.

Section InputSpec.
Context {V : Type}.

(** Messages accepted for node [n], in order. *)
Fixpoint accepted (n : entity) (outs : list (iout V)) : list (entity * V) :=
  match outs with
  | [] => []
  | Accepted n' s v :: r => if Nat.eqb n' n then (s, v) :: accepted n r else accepted n r
  | _ :: r => accepted n r
  end.

(** Messages taken by executions of node [n], in order. *)
Fixpoint taken (n : entity) (outs : list (iout V)) : list (entity * V) :=
  match outs with
  | [] => []
  | Executed n' (Took i) :: r => if Nat.eqb n' n then i :: taken n r else taken n r
  | _ :: r => taken n r
  end.

(** Number of executions of node [n]. *)
Fixpoint executions (n : entity) (outs : list (iout V)) : nat :=
  match outs with
  | [] => 0
  | Executed n' _ :: r => if Nat.eqb n' n then S (executions n r) else executions n r
  | _ :: r => executions n r
  end.

(** Number of executions of [n] scheduled in the roster. *)
Definition scheduled (w : world V) (n : entity) : nat :=
  count_occ Nat.eq_dec (r_queue (w_roster w) ++ r_deferred (w_roster w)) n.

(** The messages which belong to one session. *)
Definition of_session (s : entity) (l : list (entity * V)) : list (entity * V) :=
  filter (fun i => Nat.eqb (fst i) s) l.

(** The node takes messages of this type. *)
Definition receives (w : world V) (n : entity) : Prop :=
  exists nd q, w_nodes w n = Some nd /\ n_inputs nd = Some q.

Definition cleans (n s : entity) (o : iop V) : Prop := o = ICleanup n s.

End InputSpec.
