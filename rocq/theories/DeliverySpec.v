(** What the properties of services say, independently of how the model computes. *)
From Verif Require Import Base DeliveryModel.

(** [l] is obtained from [m] by leaving out elements. *)
Inductive subsequence {A} : list A -> list A -> Prop :=
| subseq_nil : subsequence [] []
| subseq_skip x l m : subsequence l m -> subsequence l (x :: m)
| subseq_take x l m : subsequence l m -> subsequence (x :: l) (x :: m).

(** [q] is separated into the elements with property [P] and the other ones, both in
    their order in [q]. *)
Inductive separated {A} (P : A -> Prop) : list A -> list A -> list A -> Prop :=
| sep_nil : separated P [] [] []
| sep_in x q y n : P x -> separated P q y n -> separated P (x :: q) (x :: y) n
| sep_out x q y n : ~ P x -> separated P q y n -> separated P (x :: q) y (x :: n).

(** A request with instructions [p] gives way to a preempting one with instructions [i]. *)
Definition gives_way (i : instr) (p : option instr) : Prop :=
  exists p', p = Some p' /\ i_label p' = i_label i /\ i_ensure p' = false.

Section Spec.
Context {V : Type}.

(** Requests being worked on: the running tasks and the ones still being cancelled. *)
Definition running (t : task) : bool := match t_mode t with TRun => true | _ => false end.
Definition working (w : asrv V) : list entity :=
  map t_id (filter running (as_tasks w)) ++ map c_task (as_cancels w).

(** The same for one label. *)
Definition labelled (l : nat) (i : option instr) : bool :=
  match i with Some i => Nat.eqb (i_label i) l | None => false end.
Definition working_on (w : asrv V) (l : nat) : list entity :=
  map t_id (filter (fun t => running t && labelled l (t_instr t)) (as_tasks w)) ++
  map c_task (filter (fun c => labelled l (c_instr c)) (as_cancels w)).

(** The requests waiting, oldest first, in a service or under one label of it. *)
Definition waiting (w : asrv V) : list (order V) := queued (as_del w).
Definition waiting_on (w : asrv V) (l : nat) : list (order V) :=
  filter (fun o => labelled l (d_instr o)) (waiting w).

(** A new service and the histories it may go through. *)
Definition fresh (w : asrv V) : Prop := w = new_serial \/ w = new_parallel.
Definition reachable (w : asrv V) : Prop := exists w0 es, fresh w0 /\ w = run w0 es.
Definition is_serial (w : asrv V) : Prop := exists s, as_del w = Serial s.
Definition is_parallel (w : asrv V) : Prop := exists ls, as_del w = Parallel ls.

(** Events which only let work that has been begun come to its end. *)
Definition everything_alive (e : entity) : bool := true.
Definition ends_work (e : event V) : Prop :=
  match e with
  | Ready _ => True
  | Cancelled _ => True
  | Unblock a => a = everything_alive
  | _ => False
  end.
(** The same without any running task coming to its end by itself. *)
Definition ends_cancelled_work (e : event V) : Prop :=
  match e with
  | Cancelled _ => True
  | Unblock a => a = everything_alive
  | _ => False
  end.

(** The whereabouts of the requests received. *)
Definition whereabouts (w : asrv V) : list entity :=
  map d_task (waiting w) ++ working w ++ as_done w ++ map fst (as_disp w) ++ as_cleaned w ++
  as_dropped w.

(** A label of a parallel service on its own: what is asked of the queues of a service,
    and what it answers. *)
Inductive qop :=
| QInsert (o : order V)
| QPop (label : option nat)
| QCleanup (session : entity).

Inductive qanswer :=
| AInsert (u : update V)
| APop (o : option (option (order V)))
| ANone.

Definition qstep (d : delivery V) (x : qop) : delivery V * qanswer :=
  match x with
  | QInsert o => let '(d', u) := insert_new_order d o in (d', AInsert u)
  | QPop l =>
      match pop_next d l with
      | None => (d, APop None)
      | Some (d', o) => (d', APop (Some o))
      end
  | QCleanup s => (delivery_cleanup d s, ANone)
  end.

Fixpoint qrun (d : delivery V) (xs : list qop) : delivery V * list (qop * qanswer) :=
  match xs with
  | [] => (d, [])
  | x :: r =>
      let '(d', a) := qstep d x in
      let '(d'', log) := qrun d' r in (d'', (x, a) :: log)
  end.

(** What concerns label [l]. *)
Definition concerns (l : nat) (x : qop) : bool :=
  match x with
  | QInsert o => labelled l (d_instr o)
  | QPop (Some l') => Nat.eqb l' l
  | QPop None => false
  | QCleanup _ => true
  end.

End Spec.
