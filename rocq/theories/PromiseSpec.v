(** What the user of a promise may rely on, as predicates on what was observed. *)
From Verif Require Import Base PromiseModel.

Section PromiseSpec.
  Context {T : Type}.
  Implicit Types (s : pstate T) (r : presult T) (l : list (pevent T)).

  (** The state which shows a result. *)
  Definition shows r : pstate T :=
    match r with RAvailable v => Available v | RCancelled c => Cancelled c | RDisposed => Disposed end.

  (** The state seen by an observation, and whether the observation takes it. *)
  Definition seen (e : pevent T) : option (pstate T) :=
    match e with Saw s | Took s | Waited _ s | Dropped s => Some s | _ => None end.

  Definition takes (e : pevent T) : bool := match e with Took _ => true | _ => false end.

  (** The next observation may differ from the last known state only if that is
      pending. *)
  Definition may_follow (cur s : pstate T) : Prop := s = cur \/ (cur = Pending /\ s <> Taken).

  (** What is known after an observation. *)
  Definition then_known (e : pevent T) s : pstate T :=
    match s with Available _ => if takes e then Taken else s | _ => s end.

  Fixpoint stable (cur : pstate T) l : Prop :=
    match l with
    | [] => True
    | e :: l' =>
        match seen e with
        | Some s => may_follow cur s /\ stable (then_known e s) l'
        | None => stable cur l'
        end
    end.

  Definition is_sent (e : pevent T) : bool := match e with Sent _ => true | _ => false end.
  Definition is_success (e : pevent T) : bool := match e with Took (Available _) => true | _ => false end.
  Definition is_callback (f : nat) (e : pevent T) : bool :=
    match e with Callback f' => Nat.eqb f' f | _ => false end.

  Definition count (p : pevent T -> bool) l : nat := length (filter p l).

  (** Every state other than pending and taken which is seen was sent before. *)
  Definition truthful l : Prop :=
    forall l1 e l2 s, l = l1 ++ e :: l2 -> seen e = Some s -> s <> Pending -> s <> Taken ->
    exists r, In (Sent r) l1 /\ s = shows r.

  (** No result was stored. *)
  Definition nothing_sent l : Prop := forall r, ~ In (Sent r) l.

  (** The callbacks which were registered, in order. *)
  Definition registered l : list nat :=
    flat_map (fun e => match e with Register f => [f] | _ => [] end) l.

  (** A registration which begins before the promise is dropped is complete by then. *)
  Definition in_time l : Prop :=
    forall l1 f l2 s l3, l = l1 ++ Register f :: l2 ++ Dropped s :: l3 -> In (Registered f) l2.

  (** Neither the beginning nor the end of a wait. *)
  Definition no_wait l : Prop :=
    forall e, In e l -> match e with Waits _ _ | Waited _ _ => False | _ => True end.

  (** A [wait_mut] returns with a result; [sent_before] tells whether it may find the result
      stored when it begins. *)
  Definition waited (sent_before : bool) l : Prop :=
    forall l1 l2 s l3, l = l1 ++ Waits true false :: l2 ++ Waited true s :: l3 -> no_wait l2 ->
    (sent_before = true \/ nothing_sent l1) -> s <> Pending.

  (** A poll which parked a task is followed by its wake-up once a result was stored;
      [sent_before] tells whether the result may have been stored before the poll ended. *)
  Definition wakes (sent_before : bool) l : Prop :=
    forall l1 k l2, l = l1 ++ Parked k :: l2 -> (forall k', ~ In (Parked k') l2) ->
    (exists r, In (Sent r) l) -> (sent_before = true \/ nothing_sent l1) -> In (Woken k) l2.

  Definition no_callback l : Prop := forall f, ~ In (Callback f) l.

  (** A wait begins or the interrupter is triggered. *)
  Definition hears (e : pevent T) : bool := match e with Waits _ _ | Interrupt => true | _ => false end.

  (** No result is stored, and sleepers do not wake up without reason. *)
  Definition no_help (a : paction T) : Prop := match a with ASpurious | AStore => False | _ => True end.
End PromiseSpec.
