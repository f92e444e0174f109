(** Nested promises and [Promise::flatten].  Models src/promise/private.rs 49-69
    ([Sender::set] with [on_result_arrival]) and 159-273 ([impl_flatten]).

    Any number of promises; the value of a promise is a plain value or a promise.
    A call of [Sender::set] which is under way is an entry of [f_flight]: callbacks
    call [set] of the next promise in the same thread, and steps for different
    promises may interleave with everything else, as the locks are per promise.
    Not modelled: dropping promises (every target is alive, so that [upgrade] in
    [set] succeeds) and poisoned mutexes. *)
From Verif Require Import Base PromiseModel.

Section Flatten.
  Context {T : Type}.

  (** The value of a promise: [Leaf] is plain, [Nest k] is promise [k]. *)
  Inductive fvalue := Leaf (v : T) | Nest (k : nat).

  (** The two kinds of [on_result_arrival] closures: [Forward f] (private.rs 180-183
      and 225-228) gives the result to promise [f], [Unwrap f] (205-251) expects a
      promise and gives its result to [f]. *)
  Inductive arrival := Forward (f : nat) | Unwrap (f : nat).

  (** A promise with its target (private.rs 282-287) and its sender. [c_open]: the
      user holds the sender; [c_owned]: the user holds the promise. *)
  Record cell := {
    c_state : pstate fvalue;
    c_result : option (presult fvalue);
    c_arrival : option arrival;
    c_open : bool;
    c_owned : bool }.

  Inductive fevent :=
  | FSent (k : nat) (r : presult fvalue)   (* the sender of k was used or dropped *)
  | FFlattened (k f : nat)                 (* k was flattened into f *)
  | FSaw (k : nat) (s : pstate fvalue)     (* peek *)
  | FTook (k : nat) (s : pstate fvalue).   (* take *)

  Record fworld := {
    f_cell : nat -> cell;
    f_next : nat;
    f_flight : list (nat * presult fvalue);
    f_log : list fevent }.

  (** src/promise/private.rs 95-104 [Promise::new]; the sender and the promise may
      be given to the user. *)
  Definition new_cell (open : bool) : cell :=
    {| c_state := Pending; c_result := None; c_arrival := None; c_open := open; c_owned := true |}.

  Definition empty : fworld :=
    {| f_cell := fun _ => {| c_state := Pending; c_result := None; c_arrival := None; c_open := false; c_owned := false |};
       f_next := 0; f_flight := []; f_log := [] |}.

  (** Record updates. *)
  Definition with_state (c : cell) s r := {| c_state := s; c_result := r; c_arrival := c_arrival c; c_open := c_open c; c_owned := c_owned c |}.
  Definition with_arrival (c : cell) a := {| c_state := c_state c; c_result := c_result c; c_arrival := a; c_open := c_open c; c_owned := c_owned c |}.
  Definition with_open (c : cell) o := {| c_state := c_state c; c_result := c_result c; c_arrival := c_arrival c; c_open := o; c_owned := c_owned c |}.
  Definition with_owned (c : cell) o := {| c_state := c_state c; c_result := c_result c; c_arrival := c_arrival c; c_open := c_open c; c_owned := o |}.
  Definition put (m : nat -> cell) (k : nat) (c : cell) : nat -> cell := fun x => if Nat.eqb x k then c else m x.
  Definition set_cell (w : fworld) k c := {| f_cell := put (f_cell w) k c; f_next := f_next w; f_flight := f_flight w; f_log := f_log w |}.
  Definition set_flight (w : fworld) x := {| f_cell := f_cell w; f_next := f_next w; f_flight := x; f_log := f_log w |}.
  Definition fsay (w : fworld) e := {| f_cell := f_cell w; f_next := f_next w; f_flight := f_flight w; f_log := f_log w ++ [e] |}.
  Definition add_cell (w : fworld) c := {| f_cell := put (f_cell w) (f_next w) c; f_next := S (f_next w); f_flight := f_flight w; f_log := f_log w |}.

  (** src/promise.rs 144-158 [Promise::update]; also private.rs 165-167, 174-176 and
      209-213. *)
  Definition cell_update (c : cell) : cell :=
    if is_pending (c_state c) then with_state c (state_update (c_state c) (c_result c)) None else c.

  (** [update] and [PromiseState::take] (promise.rs 70-73; private.rs 165-170,
      174-178, 209-215). *)
  Definition cell_take (c : cell) : pstate fvalue * cell :=
    let c := cell_update c in
    let '(s, s') := state_take (c_state c) in (s, with_state c s' (c_result c)).

  (** The user receives the promise inside a value. *)
  Definition receive (w : fworld) (s : pstate fvalue) : fworld :=
    match s with
    | Available (Nest j) => set_cell w j (with_owned (f_cell w j) true)
    | _ => w
    end.

  (** src/promise/private.rs 58-66: one call of [set] for promise [k] in flight. *)
  Definition deliver (k : nat) (r : presult fvalue) (w : fworld) : fworld :=
    match c_arrival (f_cell w k) with
    | None => set_cell w k (with_state (f_cell w k) (c_state (f_cell w k)) (Some r))
    | Some a =>
        let w := set_cell w k (with_arrival (f_cell w k) None) in
        match a with
        | Forward f => set_flight w (f_flight w ++ [(f, r)])
        | Unwrap f =>
            match r with
            | RAvailable (Nest j) =>
                let '(s, c) := cell_take (f_cell w j) in
                match s with
                | Available x => set_flight (set_cell w j c) (f_flight w ++ [(f, RAvailable x)])
                | Pending => set_cell w j (with_arrival c (Some (Forward f)))
                | Cancelled e => set_flight (set_cell w j c) (f_flight w ++ [(f, RCancelled e)])
                | Disposed | Taken => set_flight (set_cell w j c) (f_flight w ++ [(f, RDisposed)])
                end
            | RAvailable (Leaf _) => w (* excluded by the types: Promise<Promise<T>> *)
            | RCancelled e => set_flight w (f_flight w ++ [(f, RCancelled e)])
            | RDisposed => set_flight w (f_flight w ++ [(f, RDisposed)])
            end
        end
    end.

  (** The state and result of a flattened promise which is resolved at once: its
      sender is dropped at the end of [impl_flatten], which stores [Disposed] in the
      target (private.rs 86-92); it is hidden by the state. *)
  Definition resolved_cell (s : pstate fvalue) : cell :=
    with_state (new_cell false) s (Some RDisposed).

  (** src/promise/private.rs 160-272 [impl_flatten]. *)
  Definition flatten (k : nat) (w : fworld) : fworld :=
    let f := f_next w in
    let w := fsay w (FFlattened k f) in
    let '(s, c) := cell_take (f_cell w k) in
    let w := set_cell w k (with_owned c false) in
    match s with
    | Available (Nest j) =>
        let '(s', c') := cell_take (f_cell w j) in
        match s' with
        | Pending => add_cell (set_cell w j (with_arrival c' (Some (Forward f)))) (new_cell false)
        | _ => add_cell (set_cell w j c') (resolved_cell s')
        end
    | Available (Leaf _) => add_cell w (new_cell false) (* excluded by the types *)
    | Pending =>
        let w := set_cell w k (with_arrival (f_cell w k) (Some (Unwrap f))) in
        add_cell w (new_cell false)
    | Cancelled e => add_cell w (resolved_cell (Cancelled e))
    | Disposed => add_cell w (resolved_cell Disposed)
    | Taken => add_cell w (resolved_cell Taken)
    end.

  (** src/promise/private.rs 41-47 and 86-92: the user sends a value, a cancellation, or
      drops the sender. A promise which is sent is given away. *)
  Definition fsend (k : nat) (r : presult fvalue) (w : fworld) : fworld :=
    let go w :=
      let w := set_cell w k (with_open (f_cell w k) false) in
      set_flight (fsay w (FSent k r)) (f_flight w ++ [(k, r)]) in
    match r with
    | RAvailable (Nest j) =>
        if c_owned (f_cell w j) then go (set_cell w j (with_owned (f_cell w j) false)) else w
    | _ => go w
    end.

  (** src/promise.rs 62-65 [peek] and 70-73 [take]. *)
  Definition fpeek (k : nat) (w : fworld) : fworld :=
    let c := cell_update (f_cell w k) in fsay (set_cell w k c) (FSaw k (c_state c)).
  Definition ftake (k : nat) (w : fworld) : fworld :=
    let '(s, c) := cell_take (f_cell w k) in receive (fsay (set_cell w k c) (FTook k s)) s.

  Inductive faction :=
  | DoNew | DoSend (k : nat) (r : presult fvalue) | DoFlatten (k : nat)
  | DoPeek (k : nat) | DoTake (k : nat) | DoDeliver (i : nat).

  (** What the user may do with what they hold, and the progress of calls of [set]. *)
  Definition fstep (w : fworld) (a : faction) : fworld :=
    match a with
    | DoNew => add_cell w (new_cell true)
    | DoSend k r => if c_open (f_cell w k) then fsend k r w else w
    | DoFlatten k => if c_owned (f_cell w k) then flatten k w else w
    | DoPeek k => if c_owned (f_cell w k) then fpeek k w else w
    | DoTake k => if c_owned (f_cell w k) then ftake k w else w
    | DoDeliver i =>
        match remove_nth i (f_flight w) with
        | Some ((k, r), rest) => deliver k r (set_flight w rest)
        | None => w
        end
    end.

  Definition frun (acts : list faction) : fworld := fold_left fstep acts empty.
End Flatten.
Arguments fvalue : clear implicits.
Arguments cell : clear implicits.
Arguments fworld : clear implicits.
Arguments fevent : clear implicits.
Arguments faction : clear implicits.
Arguments empty {T}.
