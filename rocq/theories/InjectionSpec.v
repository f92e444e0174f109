(** What can be said about an injection node from its events alone. *)
From Verif Require Import Base ScopeModel InjectionModel.

Section InjectionSpec.
  Context {V R : Type}.
  Notation log := (list (ievent V R)).

  (** Requests of session s that were not handed to a service yet. *)
  Fixpoint requests_waiting (s : entity) (acc : list V) (l : log) : list V :=
    match l with
    | [] => acc
    | JvIssued s' v :: l' => requests_waiting s (if Nat.eqb s' s then acc ++ [v] else acc) l'
    | JvStarted s' _ _ :: l' => requests_waiting s (if Nat.eqb s' s then tl acc else acc) l'
    | JvClean _ s' :: l' => requests_waiting s (if Nat.eqb s' s then [] else acc) l'
    | _ :: l' => requests_waiting s acc l'
    end.

  (** Tasks of session s that were started and whose response did not come out yet; those that a
      cleanup was asked for do not count any more. *)
  Fixpoint tasks_open (s : entity) (acc : list entity) (l : log) : list entity :=
    match l with
    | [] => acc
    | JvStarted s' t _ :: l' => tasks_open s (if Nat.eqb s' s then acc ++ [t] else acc) l'
    | JvOut s' t _ :: l' =>
        tasks_open s (if Nat.eqb s' s then filter (fun u => negb (Nat.eqb u t)) acc else acc) l'
    | JvClean _ s' :: l' => tasks_open s (if Nat.eqb s' s then [] else acc) l'
    | _ :: l' => tasks_open s acc l'
    end.

  (** All that were ever started for s. *)
  Definition tasks_started (s : entity) (l : log) : list entity :=
    flat_map (fun e => match e with JvStarted s' t _ => if Nat.eqb s' s then [t] else [] | _ => [] end) l.

  Definition issued_of (s : entity) (l : log) : list V :=
    flat_map (fun e => match e with JvIssued s' v => if Nat.eqb s' s then [v] else [] | _ => [] end) l.

  Definition started_of (s : entity) (l : log) : list V :=
    flat_map (fun e => match e with JvStarted s' _ v => if Nat.eqb s' s then [v] else [] | _ => [] end) l.

  Definition responses_of (s : entity) (l : log) : list (entity * R) :=
    flat_map (fun e => match e with JvResponse s' t r => if Nat.eqb s' s then [(t, r)] else [] | _ => [] end) l.

  Definition outs_of (s : entity) (l : log) : list (entity * R) :=
    flat_map (fun e => match e with JvOut s' t r => if Nat.eqb s' s then [(t, r)] else [] | _ => [] end) l.

  Definition cleaned (s : entity) (l : log) : Prop := exists id, In (JvClean id s) l.

  Definition cleanup_ids (l : log) : list entity :=
    flat_map (fun e => match e with JvClean id _ => [id] | _ => [] end) l.

  Definition confirmed (l : log) : list entity :=
    flat_map (fun e => match e with JvConfirmed id => [id] | _ => [] end) l.

  (** Responses of session s at finish entities which were not executed yet. *)
  Definition at_finish (w : iworld V R) (s : entity) : list (entity * R) :=
    flat_map (fun i =>
      if Nat.eqb (in_sess i) s
      then match iw_fins w (in_fin i) with Some (Some (_, r)) => [(in_task i, r)] | _ => [] end
      else []) (iw_list w).

  (** Nothing that was asked of a task entity or the roster is left to be done. *)
  Definition settled (w : iworld V R) : Prop :=
    iw_done w = [] /\ forall t x id, iw_tasks w t = Some x -> it_state x <> TStopping id.
End InjectionSpec.
