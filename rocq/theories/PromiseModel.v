(** One promise, its sender and an interrupter, as three threads whose steps are
    the sections guarded by the mutex of the promise.  Models src/promise.rs and
    src/promise/private.rs except flatten (FlattenModel.v).  Poisoned mutexes are
    not modelled: no code runs user callbacks which may panic under the lock
    except the wakers. *)
From Verif Require Import Base.

(** src/promise.rs 203-215 [PromiseState]; a cancellation is named by a number. *)
Inductive pstate (T : Type) := Available (v : T) | Pending | Cancelled (c : nat) | Disposed | Taken.
Arguments Available {T}. Arguments Pending {T}. Arguments Cancelled {T}.
Arguments Disposed {T}. Arguments Taken {T}.

(** src/promise/private.rs 276-280 [PromiseResult]. *)
Inductive presult (T : Type) := RAvailable (v : T) | RCancelled (c : nat) | RDisposed.
Arguments RAvailable {T}. Arguments RCancelled {T}. Arguments RDisposed {T}.

Section Promise.
  Context {T : Type}.

  (** src/promise.rs 239-241 [PromiseState::is_pending]. *)
  Definition is_pending (s : pstate T) : bool := match s with Pending => true | _ => false end.

  (** src/promise.rs 262-272 [PromiseState::take]: the state returned and the one
      which stays. *)
  Definition state_take (s : pstate T) : pstate T * pstate T :=
    (s, match s with Available _ => Taken | _ => s end).

  (** src/promise.rs 288-303 [PromiseState::update] and src/promise/private.rs
      137-156 [impl_try_take_result]. *)
  Definition state_update (s : pstate T) (r : option (presult T)) : pstate T :=
    match r with
    | Some (RAvailable v) => Available v
    | Some (RCancelled c) => Cancelled c
    | Some RDisposed => Disposed
    | None => s
    end.

  (** Where the receiving thread is.
      - [RIdle]: between two calls;
      - [RPoll k]: in [poll] (promise.rs 187-198), after [take] found the promise
        pending, before the waker [k] is stored;
      - [RChecked], [RAsleep], [RAwake]: in a wait (private.rs 106-135): holding
        the lock after the condition of [wait_while] was found to hold; sleeping
        on the condition variable; notified. The first flag tells [wait_mut] from
        [wait], the second whether an interrupter is used;
      - [RGone]: the promise was dropped. *)
  Inductive rphase :=
  | RIdle | RPoll (k : nat) | RChecked (mut intr : bool) | RAsleep (mut intr : bool)
  | RAwake (mut intr : bool) | RGone.

  (** Where the sending thread is: [SSet r] and [SReg f] are in [set] (private.rs
      49-69) and [on_promise_drop] (71-83) between [upgrade] and [lock]; [SGone]:
      the sender was used up or dropped. *)
  Inductive sphase := SIdle | SSet (r : presult T) | SReg (f : nat) | SGone.

  (** What can be observed. *)
  Inductive pevent :=
  | Sent (r : presult T)      (* the sender stored its result *)
  | Refused (r : presult T)   (* the sender found the promise gone *)
  | Saw (s : pstate T)        (* sneak_peek or peek *)
  | Took (s : pstate T)       (* take, or poll when not pending *)
  | Parked (k : nat)          (* poll returned Pending, waker k was stored *)
  | Woken (k : nat)           (* waker k was called *)
  | Waits (mut intr : bool)   (* a wait begins, [mut] for wait_mut, [intr] with an interrupter *)
  | Waited (mut : bool) (s : pstate T) (* a wait returned, the cached state is s *)
  | Interrupt                 (* the interrupter was triggered *)
  | Register (f : nat)        (* on_promise_drop was called *)
  | Registered (f : nat)      (* ... and has stored the callback *)
  | Callback (f : nat)        (* callback f ran *)
  | Dropped (s : pstate T).   (* the promise was dropped in cached state s *)

  (** The promise ([w_state]), its target (private.rs 282-287: [w_result],
      [w_waker], [w_drop]; on_result_arrival is in FlattenModel.v), the
      interrupter (329-333: [w_triggered], [w_listed] for the entry of the current
      wait, [w_flag] its flag, [w_clones] the number of entries, each of which
      keeps the target alive), the threads and the log. *)
  Record pworld := {
    w_state : pstate T;
    w_result : option (presult T);
    w_waker : option nat;
    w_drop : option nat;
    w_triggered : bool;
    w_listed : bool;
    w_flag : bool;
    w_clones : nat;
    w_recv : rphase;
    w_send : sphase;
    w_log : list pevent }.

  Implicit Types (w : pworld).

  (** Record updates. *)
  Definition set_state w x := {| w_state := x; w_result := w_result w; w_waker := w_waker w; w_drop := w_drop w; w_triggered := w_triggered w; w_listed := w_listed w; w_flag := w_flag w; w_clones := w_clones w; w_recv := w_recv w; w_send := w_send w; w_log := w_log w |}.
  Definition set_result w x := {| w_state := w_state w; w_result := x; w_waker := w_waker w; w_drop := w_drop w; w_triggered := w_triggered w; w_listed := w_listed w; w_flag := w_flag w; w_clones := w_clones w; w_recv := w_recv w; w_send := w_send w; w_log := w_log w |}.
  Definition set_waker w x := {| w_state := w_state w; w_result := w_result w; w_waker := x; w_drop := w_drop w; w_triggered := w_triggered w; w_listed := w_listed w; w_flag := w_flag w; w_clones := w_clones w; w_recv := w_recv w; w_send := w_send w; w_log := w_log w |}.
  Definition set_drop w x := {| w_state := w_state w; w_result := w_result w; w_waker := w_waker w; w_drop := x; w_triggered := w_triggered w; w_listed := w_listed w; w_flag := w_flag w; w_clones := w_clones w; w_recv := w_recv w; w_send := w_send w; w_log := w_log w |}.
  Definition set_intr w tr li fl cl := {| w_state := w_state w; w_result := w_result w; w_waker := w_waker w; w_drop := w_drop w; w_triggered := tr; w_listed := li; w_flag := fl; w_clones := cl; w_recv := w_recv w; w_send := w_send w; w_log := w_log w |}.
  Definition set_recv w x := {| w_state := w_state w; w_result := w_result w; w_waker := w_waker w; w_drop := w_drop w; w_triggered := w_triggered w; w_listed := w_listed w; w_flag := w_flag w; w_clones := w_clones w; w_recv := x; w_send := w_send w; w_log := w_log w |}.
  Definition set_send w x := {| w_state := w_state w; w_result := w_result w; w_waker := w_waker w; w_drop := w_drop w; w_triggered := w_triggered w; w_listed := w_listed w; w_flag := w_flag w; w_clones := w_clones w; w_recv := w_recv w; w_send := x; w_log := w_log w |}.
  Definition say w e := {| w_state := w_state w; w_result := w_result w; w_waker := w_waker w; w_drop := w_drop w; w_triggered := w_triggered w; w_listed := w_listed w; w_flag := w_flag w; w_clones := w_clones w; w_recv := w_recv w; w_send := w_send w; w_log := w_log w ++ [e] |}.

  (** src/promise/private.rs 95-104 [Promise::new]. *)
  Definition fresh : pworld :=
    {| w_state := Pending; w_result := None; w_waker := None; w_drop := None;
       w_triggered := false; w_listed := false; w_flag := false; w_clones := 0;
       w_recv := RIdle; w_send := SIdle; w_log := [] |}.

  (** Weak::upgrade succeeds: the promise or an entry of the interrupter holds the
      target. *)
  Definition upgrades w : bool :=
    match w_recv w with RGone => Nat.ltb 0 (w_clones w) | _ => true end.

  (** The mutex of the target is held between two steps only while a waiter has
      checked its condition and does not sleep yet. *)
  Definition locked w : bool := match w_recv w with RChecked _ _ => true | _ => false end.

  (** Condvar::notify_all. *)
  Definition notify w : pworld :=
    match w_recv w with RAsleep m i => set_recv w (RAwake m i) | _ => w end.

  (** src/promise.rs 144-158 [Promise::update]. *)
  Definition update w : pworld :=
    if is_pending (w_state w)
    then set_result (set_state w (state_update (w_state w) (w_result w))) None
    else w.

  (** src/promise.rs 70-73 [Promise::take]. *)
  Definition take w : pstate T * pworld :=
    let w := update w in
    let '(r, s) := state_take (w_state w) in (r, set_state w s).

  (** A wait returns: promise.rs 116-118, 132-134 and 88, 102-104. [impl_wait]
      returned a guard when [guard]. *)
  Definition wait_return (guard mut : bool) w : pworld :=
    let w := if guard && mut
             then set_result (set_state w (state_update (w_state w) (w_result w))) None
             else w in
    say (set_recv w RIdle) (Waited mut (w_state w)).

  (** The condition of [wait_while], private.rs 125-133. *)
  Definition keeps_waiting (intr : bool) w : bool :=
    if intr && w_flag w then false
    else match w_result w with None => true | Some _ => false end.

  (** One evaluation of the condition of [wait_while]. *)
  Definition check (mut intr : bool) w : pworld :=
    if keeps_waiting intr w then set_recv w (RChecked mut intr) else wait_return true mut w.

  (** src/promise/private.rs 106-121: the beginning of [impl_wait]. *)
  Definition impl_wait (mut intr : bool) w : pworld :=
    match w_result w with
    | Some _ => wait_return false mut w
    | None => check mut intr w
    end.

  (** src/promise.rs 81-138: the beginning of the four waits, with
      [Interrupter::push] (374-396). *)
  Definition wait (mut intr : bool) w : pworld :=
    if is_pending (w_state w) then
      if intr then
        if w_triggered w then wait_return false mut w
        else impl_wait mut intr (set_intr w false true false (S (w_clones w)))
      else impl_wait mut intr w
    else wait_return false mut w.

  (** Steps of the threads. A step which the thread cannot take changes nothing. *)
  Inductive paction :=
  | ASneak | APeek | ATake | APoll (k : nat) | APollStore
  | AWait (mut intr : bool) | ASleep | ARecheck | ASpurious | ADrop
  | ASend (r : presult T) | AStore | AOnDrop (f : nat) | ARegister
  | AInterrupt | AReset.

  (** src/promise/private.rs 58-68: the part of [Sender::set] under the lock. *)
  Definition store (r : presult T) w : pworld :=
    let w := say (set_result w (Some r)) (Sent r) in
    let w := match w_waker w with
             | Some k => say (set_waker w None) (Woken k)
             | None => w
             end in
    set_send (notify w) SGone.

  (** src/promise.rs 168-183 [Promise::drop]. *)
  Definition drop w : pworld :=
    let w := say (set_recv w RGone) (Dropped (w_state w)) in
    if is_pending (w_state w) then
      match w_drop w with
      | Some f => say (set_drop w None) (Callback f)
      | None => w
      end
    else w.

  (** src/promise.rs 62-65 [peek]. *)
  Definition peek w : pworld := let w := update w in say w (Saw (w_state w)).

  (** src/promise.rs 187-198 [poll] up to the second lock. *)
  Definition poll (k : nat) w : pworld :=
    let '(r, w) := take w in
    if is_pending r then set_recv w (RPoll k) else say w (Took r).

  (** src/promise/private.rs 41-52 and 86-92: [send], [cancel], the drop of the
      sender, up to the lock of [set]. *)
  Definition send (r : presult T) w : pworld :=
    if upgrades w then set_send w (SSet r) else say (set_send w SGone) (Refused r).

  (** src/promise/private.rs 71-83 [on_promise_drop] up to the lock. *)
  Definition on_promise_drop (f : nat) w : pworld :=
    let w := say w (Register f) in
    if upgrades w then set_send w (SReg f) else say w (Callback f).

  (** src/promise/private.rs 79. *)
  Definition register (f : nat) w : pworld :=
    say (set_send (set_drop w (Some f)) SIdle) (Registered f).

  (** src/promise.rs 342-357 [Interrupter::interrupt]. *)
  Definition interrupt w : pworld :=
    let w := say w Interrupt in
    if w_listed w then notify (set_intr w true false true 0)
    else set_intr w true false (w_flag w) 0.

  Definition step w (a : paction) : pworld :=
    match a with
    | ASneak => match w_recv w with RIdle => say w (Saw (w_state w)) | _ => w end
    | APeek => match w_recv w with RIdle => peek w | _ => w end
    | ATake => match w_recv w with RIdle => let '(r, w) := take w in say w (Took r) | _ => w end
    | APoll k => match w_recv w with RIdle => poll k w | _ => w end
    | APollStore =>
        match w_recv w with
        | RPoll k => say (set_recv (set_waker w (Some k)) RIdle) (Parked k)
        | _ => w
        end
    | AWait m i => match w_recv w with RIdle => wait m i (say w (Waits m i)) | _ => w end
    | ASleep => match w_recv w with RChecked m i => set_recv w (RAsleep m i) | _ => w end
    | ASpurious => match w_recv w with RAsleep m i => set_recv w (RAwake m i) | _ => w end
    | ARecheck => match w_recv w with RAwake m i => check m i w | _ => w end
    | ADrop => match w_recv w with RIdle => drop w | _ => w end
    | ASend r => match w_send w with SIdle => send r w | _ => w end
    | AStore => match w_send w with SSet r => if locked w then w else store r w | _ => w end
    | AOnDrop f => match w_send w with SIdle => on_promise_drop f w | _ => w end
    | ARegister => match w_send w with SReg f => if locked w then w else register f w | _ => w end
    | AInterrupt => interrupt w
    | AReset => set_intr w false (w_listed w) (w_flag w) (w_clones w)
    end.

  Definition run (acts : list paction) : pworld := fold_left step acts fresh.
End Promise.
Arguments pworld : clear implicits.
Arguments paction : clear implicits.
Arguments pevent : clear implicits.
Arguments fresh {T}.
