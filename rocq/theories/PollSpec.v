(** What a user of the single threaded executor relies on. *)
From Verif Require Import Base PollModel.

(** The tasks which were cancelled, in order: what was sent *)
Fixpoint sends (acts : list paction) : list (nat -> answer) :=
  match acts with
  | [] => []
  | PSend f :: r => f :: sends r
  | _ :: r => sends r
  end.

Definition begins (a : paction) : bool := match a with PBegin _ => true | _ => false end.
Definition is_round (a : paction) : bool := match a with PRound => true | _ => false end.

(** How many rounds of the loops of [poll] there are *)
Definition rounds (acts : list paction) : nat := length (filter is_round acts).

(** How often a number occurs *)
Definition times (k : nat) (l : list nat) : nat := count_occ Nat.eq_dec l k.

(** A future was polled [n] times: it was pending each time before the last. *)
Definition pending_before (f : nat -> answer) (n : nat) : Prop := forall i, S i < n -> f i <> Ready.

(** How many futures each loop may poll, by the limit *)
Definition share (l : nat) : nat := Nat.max 1 l.

(** What one loop must poll of what waits when it begins *)
Definition quota (l : option nat) (q : list nat) : list nat :=
  match l with Some l => firstn (share l) q | None => q end.

Definition prefix (a b : list nat) : Prop := exists r, b = a ++ r.

(** [n] flushes poll the executor, each to its end; anything else may happen before, meanwhile and
    after. *)
Inductive flushes : pool -> nat -> pool -> Prop :=
| flushes_none p acts : p_phase p = Resting -> forallb (fun a => negb (begins a)) acts = true -> flushes p 0 (prun p acts)
| flushes_more p before l acts n p' :
    p_phase p = Resting ->
    forallb (fun a => negb (begins a)) before = true -> forallb (fun a => negb (begins a)) acts = true ->
    p_phase (prun p (before ++ PBegin l :: acts)) = Resting ->
    flushes (prun p (before ++ PBegin l :: acts)) n p' -> flushes p (S n) p'.
