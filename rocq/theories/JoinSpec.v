(** What is observed of a join. *)
From Verif Require Import Base RosterModel BufferModel InputModel InputSpec GateModel GateSpec
  JoinModel.

Section JoinSpec.
Context {V : Type}.

(** The messages the join node has sent to its target for a session. *)
Definition emitted (w : jworld V) (t s : entity) : list (list V) :=
  map snd (of_session s (pending (jw_out w) t)).

(** Values stored in a buffer for a session, oldest first. *)
Definition contents (w : jworld V) (b s : entity) : list V := buf_contents (jw w) b s.

(** Wake-ups the join has not executed yet. *)
Definition waiting (w : jworld V) (j : entity) : list (entity * unit) := pending (gw_lis (jw w)) j.

(** Values delivered to the input slot of a buffer, in order. *)
Fixpoint delivered (b s : entity) (ops : list (jop V)) : list V :=
  match ops with
  | [] => []
  | JBuf (GPush b' s' v) :: ops' =>
      if Nat.eqb b' b && Nat.eqb s' s then v :: delivered b s ops' else delivered b s ops'
  | _ :: ops' => delivered b s ops'
  end.

Definition smallest (l : list nat) : nat :=
  match l with [] => 0 | c :: cs => fold_right Nat.min c cs end.

(** Deliveries to buffers and executions of the join only. *)
Definition plain (o : jop V) : Prop :=
  match o with JBuf (GPush _ _ _) | JExec => True | _ => False end.

(** The freshly built situation: the joined buffers exist, keep everything, are empty,
    their gates have not been touched, and each notifies the join once; the join and
    its target take messages. *)
Definition fresh (w : jworld V) (j t : entity) (bs : list entity) : Prop :=
  (forall b, In b bs -> exists n, gw_bufs (jw w) b = Some n /\
     policy (bn_store n) = KeepAll /\ (forall s, iter (bn_store n) s = []) /\
     (forall s, bn_gates n s = None) /\ count_occ Nat.eq_dec (bn_targets n) j = 1) /\
  (forall b n, gw_bufs (jw w) b = Some n ->
     (forall t', In t' (bn_targets n) -> receives (gw_lis (jw w)) t') /\
     (~ In b bs -> ~ In j (bn_targets n))) /\
  receives (gw_lis (jw w)) j /\ waiting w j = [] /\
  receives (jw_out w) t /\ pending (jw_out w) t = [].

(** All sessions are and stay active. *)
Definition all_active (w : jworld V) : Prop :=
  (forall s, w_status (gw_lis (jw w)) s = Some Active) /\
  (forall s, w_status (jw_out w) s = Some Active).

(** The join takes values out of this buffer (rather than cloning them, or not using
    the buffer at all). *)
Definition is_pull (f : fetch) : bool := match f with Pull => true | Clone => false end.
Definition pulled (l : list (entity * fetch)) (b : entity) : bool :=
  existsb (fun p => Nat.eqb (fst p) b && is_pull (snd p)) l.

End JoinSpec.
