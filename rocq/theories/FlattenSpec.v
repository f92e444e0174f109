(** What flattening means, without reference to how results travel. *)
From Verif Require Import Base PromiseModel FlattenModel.

Section FlattenSpec.
  Context {T : Type}.
  Implicit Types (l : list (fevent T)) (r : presult (fvalue T)).

  (** The outcome of a promise, given what was sent and flattened: the order of the
      events plays no role. *)
  Inductive yields l : nat -> presult (fvalue T) -> Prop :=
  | yields_sent k r : In (FSent k r) l -> yields l k r
  | yields_inner k j f r :
      In (FFlattened k f) l -> yields l k (RAvailable (Nest j)) -> yields l j r -> yields l f r
  | yields_cancelled k f c :
      In (FFlattened k f) l -> yields l k (RCancelled c) -> yields l f (RCancelled c)
  | yields_disposed k f :
      In (FFlattened k f) l -> yields l k RDisposed -> yields l f RDisposed.

  Definition shown r : pstate (fvalue T) :=
    match r with RAvailable v => Available v | RCancelled c => Cancelled c | RDisposed => Disposed end.

  (** Promise [k] is given away: flattened or sent. *)
  Definition gives (e : fevent T) (k : nat) : Prop :=
    match e with
    | FFlattened k' _ => k' = k
    | FSent _ (RAvailable (Nest k')) => k' = k
    | _ => False
    end.

  (** No promise is flattened or sent after its value was taken. *)
  Definition clean l : Prop :=
    forall l1 k v l2, l = l1 ++ FTook k (Available v) :: l2 -> forall e, In e l2 -> ~ gives e k.

  (** The value of promise [k] was taken. *)
  Definition was_taken l (k : nat) : Prop := exists v, In (FTook k (Available v)) l.

  (** Calls of [Sender::set] make progress in the order given by a schedule: every
      number chooses one of the calls under way. *)
  Definition progress (w : fworld T) (schedule : list nat) : fworld T :=
    fold_left (fun w i => fstep w (DoDeliver (i mod length (f_flight w)))) schedule w.

  (** The events which are not observations. *)
  Definition deeds l : list (fevent T) :=
    filter (fun e => match e with FSaw _ _ => false | _ => true end) l.
End FlattenSpec.
