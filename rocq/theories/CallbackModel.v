(** Executing callbacks: src/operation/operate_callback.rs 61-117 and src/callback.rs 154-158,
    168-196, 244-262.

    One callback and the nodes that use it.  What the callback does is arbitrary: [crun] gives the
    requests for nodes of this same callback that are made while it runs (by a flush inside of an
    exclusive system, or through other services).  Not modelled: responses, streams and tasks, and
    the error reports of operate_callback.rs 105-109 (they need a broken node). *)
From Verif Require Import Base.

Section Callback.
  Context {V U : Type}.

  Inductive cevent :=
  | CvIssued (n s : entity) (v : V)     (* an input was given to node n *)
  | CvServed (n s : entity) (v : V).    (* the callback ran for it *)

  (** [InnerCallback] (callback.rs 154-158: [callback] and [queue]) behind its mutex; the inputs of the
      nodes, oldest first. *)
  Record cworld := mk_cworld {
    cw_inputs : entity -> list (entity * V);
    cw_available : bool;                 (* [inner.callback] is [Some] *)
    cw_locked : bool;                    (* somebody holds the lock of [inner] *)
    cw_queue : list entity;              (* [inner.queue], front first: sources *)
    cw_user : U;
    cw_log : list cevent }.

  (** Locking a mutex of the standard library which the same thread holds never returns (or panics). *)
  Inductive outcome := Done (w : cworld) | Deadlock | More.

  Variable crun : U -> entity -> entity -> V -> U * list (entity * entity * V).

  Definition cgive (n s : entity) (v : V) (w : cworld) : cworld :=
    mk_cworld (fun m => if Nat.eqb m n then cw_inputs w n ++ [(s, v)] else cw_inputs w m)
      (cw_available w) (cw_locked w) (cw_queue w) (cw_user w) (cw_log w ++ [CvIssued n s v]).

  (** operate_callback.rs 76-89 for a callback that is not available. *)
  Definition cenqueue (n : entity) (w : cworld) : cworld :=
    mk_cworld (cw_inputs w) (cw_available w) (cw_locked w) (cw_queue w ++ [n]) (cw_user w) (cw_log w).

  (** An execution while the callback runs: line 77 locks, 78 finds the callback taken. *)
  Fixpoint nested (l : list (entity * entity * V)) (w : cworld) : option cworld :=
    match l with
    | [] => Some w
    | (n, s, v) :: l' =>
        if cw_locked w then None
        else nested l' (cenqueue n (cgive n s v w))
    end.

  (** [CallbackTrait::call] (callback.rs 168-196, [get_request]): takes the oldest input of the
      source; without input it is [NotReady] and nothing happens. *)
  Definition call (n : entity) (w : cworld) : option cworld :=
    match cw_inputs w n with
    | [] => Some w
    | (s, v) :: rest =>
        let '(u, reqs) := crun (cw_user w) n s v in
        nested reqs
          (mk_cworld (fun m => if Nat.eqb m n then rest else cw_inputs w m)
             (cw_available w) (cw_locked w) (cw_queue w) u (cw_log w ++ [CvServed n s v]))
    end.

  Definition set_cqueue (w : cworld) (q : list entity) : cworld :=
    mk_cworld (cw_inputs w) (cw_available w) (cw_locked w) q (cw_user w) (cw_log w).
  Definition set_available (w : cworld) (b : bool) : cworld :=
    mk_cworld (cw_inputs w) b (cw_locked w) (cw_queue w) (cw_user w) (cw_log w).
  Definition set_locked (w : cworld) (b : bool) : cworld :=
    mk_cworld (cw_inputs w) (cw_available w) b (cw_queue w) (cw_user w) (cw_log w).

  (** operate_callback.rs 100-114: [inner] is a guard that lives until the end of each round, so
      the lock is held during the call. *)
  Fixpoint drain (fuel : nat) (w : cworld) : outcome :=
    match cw_queue w with
    | [] => Done (set_available w true)
    | n :: q =>
        match fuel with
        | 0 => More
        | S fuel' =>
            match call n (set_locked (set_cqueue w q) true) with
            | None => Deadlock
            | Some w' => drain fuel' (set_locked w' false)
            end
        end
    end.

  (** operate_callback.rs 61-117. *)
  Definition cexec (fuel : nat) (n : entity) (w : cworld) : outcome :=
    if cw_locked w then Deadlock
    else if cw_available w then
      match call n (set_available w false) with
      | None => Deadlock
      | Some w' => drain fuel w'
      end
    else Done (cenqueue n w).

  (** A callback that nobody used yet. *)
  Definition cfresh (u : U) : cworld := mk_cworld (fun _ => []) true false [] u [].

  (** The callback and the roster of the flush: nodes get inputs and are executed in this order. *)
  Inductive creach (u : U) : cworld -> list entity -> Prop :=
  | cr_fresh : creach u (cfresh u) []
  | cr_give : forall w r n s v, creach u w r -> creach u (cgive n s v w) (r ++ [n])
  | cr_exec : forall w n r fuel w',
      creach u w (n :: r) -> cexec fuel n w = Done w' -> creach u w' r.
End Callback.
Arguments cevent : clear implicits.
Arguments cworld : clear implicits.
Arguments outcome : clear implicits.
