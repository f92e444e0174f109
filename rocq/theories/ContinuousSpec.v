(** What the properties of continuous services are stated with. *)
From Verif Require Import Base DeliveryModel DeliverySpec ContinuousModel.

Section Spec.
Context {V R : Type}.

(** The answers which count in a cycle: the first one for each request there is.
    [seen]: the requests answered so far. *)
Fixpoint first_answers (n : nat) (seen : list nat) (xs : list (nat * R)) : list (nat * R) :=
  match xs with
  | [] => []
  | (i, r) :: xs =>
      if Nat.ltb i n && negb (existsb (Nat.eqb i) seen)
      then (i, r) :: first_answers n (i :: seen) xs
      else first_answers n seen xs
  end.

(** The requests of a queue whose position, counted from [base], is not in [idx]. *)
Fixpoint unanswered (base : nat) (idx : list nat) (q : list (corder V)) : list (corder V) :=
  match q with
  | [] => []
  | o :: r => if existsb (Nat.eqb base) idx then unanswered (S base) idx r
              else o :: unanswered (S base) idx r
  end.

(** [a] is the answer [x] given to the request at its position of the queue. *)
Definition answers (q : list (corder V)) (x : nat * R) (a : answer R) : Prop :=
  exists o, nth_error q (fst x) = Some o /\
    a = mk_answer (fst x) (co_source o) (co_session o) (co_task o) (snd x).

(** Events which neither discard requests nor answer them. *)
Definition calm (e : cevent V R) : Prop :=
  match e with
  | CRequest _ _ _ i _ => forall inc, i = Some inc -> i_preempt inc = false
  | CUnblock _ => True
  | _ => False
  end.

(** Whatever may happen to a service except a preemption or the cleanup of a session. *)
Definition not_stopping (e : cevent V R) : Prop :=
  match e with
  | CRequest _ _ _ i _ => forall inc, i = Some inc -> i_preempt inc = false
  | CClean _ _ => False
  | _ => True
  end.

Definition c_reachable (w : csrv V R) : Prop :=
  exists w0 es, (w0 = new_cserial \/ w0 = new_cparallel) /\ w = crun w0 es.
Definition c_is_serial (w : csrv V R) : Prop := exists s, cs_del w = Serial s.
Definition c_is_parallel (w : csrv V R) : Prop := exists ls, cs_del w = Parallel ls.
Definition c_waiting (w : csrv V R) : list (order V) := queued (cs_del w).

(** The requests being worked on under a label of a parallel service. *)
Definition c_working_on (w : csrv V R) (l : nat) : list (corder V) :=
  filter (fun o => match co_block o with Some (Some l') => Nat.eqb l' l | _ => false end) (cs_queue w).

End Spec.
