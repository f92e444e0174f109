(** What is observed of gates and listeners. *)
From Verif Require Import Base RosterModel BufferModel BufferSpec InputModel InputSpec GateModel.

Section GateSpec.
Context {V : Type}.

(** How often listener [t] was woken for session [s] so far (its executions are not
    part of these histories, so wake-ups stay pending). *)
Definition wakes (w : gworld V) (t s : entity) : nat :=
  length (of_session s (pending (gw_lis w) t)).

(** The gate as a user reads it; a session that never touched it sees it open. *)
Definition gate_reads (w : gworld V) (b s : entity) : option gate :=
  match gw_bufs w b with
  | Some n => Some (match bn_gates n s with Some g => g | None => Open end)
  | None => None
  end.

(** Contents of the buffer for a session, oldest first. *)
Definition buf_contents (w : gworld V) (b s : entity) : list V :=
  match gw_bufs w b with Some n => iter (bn_store n) s | None => [] end.

Definition targets_of (w : gworld V) (b : entity) : list entity :=
  match gw_bufs w b with Some n => bn_targets n | None => [] end.

(** The listeners of buffer [b] exist and the session is active: what the builder
    sets up and what holds while a session runs. *)
Definition ready (w : gworld V) (b s : entity) : Prop :=
  (forall t, In t (targets_of w b) -> receives (gw_lis w) t) /\
  w_status (gw_lis w) s = Some Active /\ gw_bufs w b <> None.

(** Operations which only concern session [s] of buffer [b] and do not open its gate.
    Notifications that are applied may be for anything. *)
Definition quiet (b s : entity) (o : gop V) : Prop :=
  match o with
  | GPush b' s' _ => b' = b /\ s' = s
  | GAction b' s' g => b' = b /\ s' = s /\ g = Closed
  | GKeyGate b' s' _ l => b' = b /\ s' = s /\ Forall (fun g => g = Closed) l
  | GKeyEdit b' s' _ _ => b' = b /\ s' = s
  | GApply => True
  end.

(** The session an operation belongs to. *)
Definition gop_session (o : gop V) : option entity :=
  match o with
  | GPush _ s _ | GAction _ s _ | GKeyGate _ s _ _ | GKeyEdit _ s _ _ => Some s
  | GApply => None
  end.

(** The user's calls include one of the mutating methods or a pulse. *)
Definition touches (l : list (access V)) : bool :=
  existsb (fun a => match a with ARead => false | _ => true end) l.

(** What each call on a mutable access does to the list of values (oldest first) of a
    buffer with retention policy [p]. *)
Definition method_result (p : retention) (l : list V) (m : bmethod V) : list V :=
  match m with
  | MPush v => fst (spec_arrive p l v)
  | MPushOldest v => fst (spec_arrive_oldest p l v)
  | MPull => tl l
  | MPullNewest => removelast l
  | MIterMut f => spec_mapi 0 f l
  | MOldestMut f => match l with x :: r => f x :: r | [] => [] end
  | MNewestMut f => match last_opt l with Some x => removelast l ++ [f x] | None => l end
  | MNewestMutOr d f =>
      let l1 := match l with [] => fst (spec_arrive p [] d) | _ => l end in
      match last_opt l1 with Some x => removelast l1 ++ [f x] | None => l1 end
  | MGetMut i f =>
      match nth_error l i with Some x => firstn i l ++ [f x] ++ skipn (S i) l | None => l end
  | MDrain lo hi =>
      if (lo <=? hi) && (hi <=? length l)
      then firstn (length l - hi) l ++ skipn (length l - lo) l else l
  | MDrainAll => []
  end.

Fixpoint access_result (p : retention) (l : list V) (a : list (access V)) : list V :=
  match a with
  | [] => l
  | AMutate m :: a' => access_result p (method_result p l m) a'
  | _ :: a' => access_result p l a'
  end.

End GateSpec.
