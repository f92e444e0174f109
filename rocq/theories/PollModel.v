(** Model of src/async_execution/single_threaded_execution.rs: the executor of the
    [single_threaded_async] feature, as a flush polls it. No proofs in this file.

    Not modelled: [spawn] (98-103), which hands the futures of async services, callbacks and maps
    to the task pool of bevy; [poll] does not poll them. *)
From Verif Require Import Base.

(** What polling a future gives: it is ready; it is pending and was woken while it was polled;
    or it is pending and will be woken later, if ever. *)
Inductive answer := Ready | Yield | Wait.

(** A future, as the answers to its polls *)
Notation future := (nat -> answer) (only parsing).

(** [async_task] (trusted): a task that is scheduled is not scheduled again, one that waits is
    scheduled when it is woken, one that has finished never. *)
Inductive tstate := Unknown | Waiting | Scheduled | Finished.

(** Where a flush is in [poll] (66-96): outside, in the first loop or in the second, with the
    limit and [count] *)
Inductive phase := Resting | Starting (limit : option nat) (count : nat) | Running (limit : option nat) (count : nat).

(** 31-36 [SingleThreadedExecution]: the two channels. Cancelling tasks are numbered in the order
    in which they are sent. [p_started], [p_polled] and [p_finished] are histories: the tasks
    started, all polls of futures, and the futures which finished, oldest first. *)
Record pool := mk_pool {
  p_sent : nat;
  p_cancel : list nat;
  p_runnable : list nat;
  p_future : nat -> future;
  p_polls : nat -> nat;
  p_state : nat -> tstate;
  p_phase : phase;
  p_started : list nat;
  p_polled : list nat;
  p_finished : list nat;
}.

Definition set_at {A} (m : nat -> A) (k : nat) (v : A) : nat -> A := fun k' => if Nat.eqb k' k then v else m k'.

(** 39-48 [new] *)
Definition pool_init : pool :=
  mk_pool 0 [] [] (fun _ _ => Ready) (fun _ => 0) (fun _ => Unknown) Resting [] [] [].

(** 77-82 and 89-94: [if let Some(limit) = limit { if count >= limit { break; } }], after counting *)
Definition reached (limit : option nat) (count : nat) : bool :=
  match limit with Some l => Nat.leb l count | None => false end.

(** [Runnable::run] (async_task, trusted): poll the future. One that was woken meanwhile is sent
    to the channel of runnables (71-73) when the poll has ended. *)
Definition run_task (p : pool) (k : nat) (ph : phase) : pool :=
  let n := p_polls p k in
  let polls := set_at (p_polls p) k (S n) in
  match p_future p k n with
  | Ready => mk_pool (p_sent p) (p_cancel p) (p_runnable p) (p_future p) polls (set_at (p_state p) k Finished) ph
               (p_started p) (p_polled p ++ [k]) (p_finished p ++ [k])
  | Yield => mk_pool (p_sent p) (p_cancel p) (p_runnable p ++ [k]) (p_future p) polls (set_at (p_state p) k Scheduled) ph
               (p_started p) (p_polled p ++ [k]) (p_finished p)
  | Wait => mk_pool (p_sent p) (p_cancel p) (p_runnable p) (p_future p) polls (set_at (p_state p) k Waiting) ph
               (p_started p) (p_polled p ++ [k]) (p_finished p)
  end.

(** One round of the loop that [poll] is in: 68-83 and 86-95 *)
Definition round (p : pool) : pool :=
  match p_phase p with
  | Resting => p
  | Starting l c =>
      match p_cancel p with
      | [] => mk_pool (p_sent p) [] (p_runnable p) (p_future p) (p_polls p) (p_state p) (Running l 0) (p_started p) (p_polled p) (p_finished p)
      | k :: rest =>
          run_task (mk_pool (p_sent p) rest (p_runnable p) (p_future p) (p_polls p) (p_state p) (p_phase p)
                     (p_started p ++ [k]) (p_polled p) (p_finished p)) k
            (if reached l (S c) then Running l 0 else Starting l (S c))
      end
  | Running l c =>
      match p_runnable p with
      | [] => mk_pool (p_sent p) (p_cancel p) [] (p_future p) (p_polls p) (p_state p) Resting (p_started p) (p_polled p) (p_finished p)
      | k :: rest =>
          run_task (mk_pool (p_sent p) (p_cancel p) rest (p_future p) (p_polls p) (p_state p) (p_phase p)
                     (p_started p) (p_polled p) (p_finished p)) k
            (if reached l (S c) then Resting else Running l (S c))
      end
  end.

(** What happens: a flush begins to poll (src/flush.rs 324-325), [poll] goes on, a task is
    cancelled (117-123 [send]), something wakes a future. Other threads may send and wake while
    [poll] runs. *)
Inductive paction := PBegin (limit : option nat) | PRound | PSend (f : nat -> answer) | PWake (k : nat).

Definition pstep (p : pool) (a : paction) : pool :=
  match a with
  | PBegin l =>
      match p_phase p with
      | Resting => mk_pool (p_sent p) (p_cancel p) (p_runnable p) (p_future p) (p_polls p) (p_state p) (Starting l 0) (p_started p) (p_polled p) (p_finished p)
      | _ => p
      end
  | PRound => round p
  | PSend f =>
      mk_pool (S (p_sent p)) (p_cancel p ++ [p_sent p]) (p_runnable p) (set_at (p_future p) (p_sent p) f) (p_polls p) (p_state p)
        (p_phase p) (p_started p) (p_polled p) (p_finished p)
  | PWake k =>
      match p_state p k with
      | Waiting => mk_pool (p_sent p) (p_cancel p) (p_runnable p ++ [k]) (p_future p) (p_polls p) (set_at (p_state p) k Scheduled)
                     (p_phase p) (p_started p) (p_polled p) (p_finished p)
      | _ => p
      end
  end.

Definition prun (p : pool) (acts : list paction) : pool := fold_left pstep acts p.
