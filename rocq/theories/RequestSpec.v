(** What the requests of a node are told, stated over the log alone. *)
From Verif Require Import Base RequestModel.

Section Spec.
  Context {V : Type}.

  (** The requests that were given to node [n], in this order. *)
  Definition issued_at (n : entity) (l : list (revent V)) : list (entity * V) :=
    flat_map (fun e => match e with
                       | RvIssued m s v => if Nat.eqb m n then [(s, v)] else []
                       | _ => [] end) l.

  (** Those which a service has run for or keeps waiting, or which were disposed. *)
  Definition taken_at (n : entity) (l : list (revent V)) : list (entity * V) :=
    flat_map (fun e => match e with
                       | RvServed _ m s v | RvQueued _ m s v | RvDisposed _ m s v =>
                           if Nat.eqb m n then [(s, v)] else []
                       | _ => [] end) l.

  (** Those which were disposed because service [p] is not available. *)
  Definition disposed_at (p n : entity) (l : list (revent V)) : list (entity * V) :=
    flat_map (fun e => match e with
                       | RvDisposed q m s v => if Nat.eqb q p && Nat.eqb m n then [(s, v)] else []
                       | _ => [] end) l.

  (** The sessions which were told of a disposal. *)
  Definition told (s : entity) (l : list (revent V)) : Prop :=
    exists p n v, In (RvDisposed p n s v) l.

  (** The requests service [p] let wait, and those of them it ran for later. *)
  Definition queued_by (p : entity) (l : list (revent V)) : list (entity * entity * V) :=
    flat_map (fun e => match e with
                       | RvQueued q n s v => if Nat.eqb q p then [(n, s, v)] else []
                       | _ => [] end) l.
  Definition continued_by (p : entity) (l : list (revent V)) : list (entity * entity * V) :=
    flat_map (fun e => match e with
                       | RvNext q n s v => if Nat.eqb q p then [(n, s, v)] else []
                       | _ => [] end) l.

  (** All requests in the order in which they were made, and served, whichever node they are of. *)
  Definition made_order (l : list (revent V)) : list (entity * entity * V) :=
    flat_map (fun e => match e with RvIssued n s v => [(n, s, v)] | _ => [] end) l.
  Definition served_order (l : list (revent V)) : list (entity * entity * V) :=
    flat_map (fun e => match e with RvServed _ n s v => [(n, s, v)] | _ => [] end) l.

  Context {U : Type}.

  (** What waits in the input storage of a node. *)
  Definition inputs_of (n : entity) (w : rworld V U) : list (entity * V) :=
    flat_map (fun nx => if Nat.eqb (fst nx) n then sn_inputs (snd nx) else []) (rw_nodes w).

  (** What waits in the queue of a service. *)
  Definition orders_of (p : entity) (w : rworld V U) : list (entity * entity * V) :=
    flat_map (fun o => if Nat.eqb (so_prov o) p then [(so_src o, so_sess o, so_req o)] else [])
      (rw_orders w).

  (** The service of every node exists. *)
  Definition all_available (w : rworld V U) : Prop :=
    forall n x, In (n, x) (rw_nodes w) -> rw_alive w (sn_prov x) = true.

  (** No service makes requests while it runs. *)
  Definition never_nests (run : U -> entity -> entity -> entity -> V -> U * option (list (action V)))
    : Prop :=
    forall u p n s v u' acts, run u p n s v = (u', Some acts) ->
      forall a, In a acts -> match a with AcRequest _ _ _ => False | AcDespawn _ => True end.

  (** Services run at once, and make at most one request while they run. *)
  Definition nests_once (run : U -> entity -> entity -> entity -> V -> U * option (list (action V)))
    : Prop :=
    forall u p n s v, exists u' acts, run u p n s v = (u', Some acts) /\
      (acts = [] \/ exists m t x, acts = [AcRequest m t x]).

  (** What follows without further requests of session [s]. *)
  Inductive later (run : U -> entity -> entity -> entity -> V -> U * option (list (action V)))
      (s : entity) (w0 : rworld V U) : rworld V U -> Prop :=
  | la_refl : later run s w0 w0
  | la_step : forall w o w', later run s w0 w ->
      match o with OpGive _ t _ => t <> s | _ => True end -> rstep run w o w' -> later run s w0 w'.
End Spec.
