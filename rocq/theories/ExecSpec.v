(** What a workflow is expected to do, described by its connections and by what each kind
    of node does with one message, without queues, sessions or checks. *)
From Verif Require Import Base RosterModel BufferModel InputModel OpsModel OpsSpec ExecModel.

(** Workflows as the builder makes them: the terminal is the only terminal, every target
    is a node, clones go to at least one target (see C13_fork_clone_no_branch_refuted), the
    scope is not one of its own nodes, and the limits of collects are those which do not
    panic. Any connections are allowed, cycles too. *)
Definition built (f : workflow) : Prop :=
  NoDup (f_nodes f) /\
  (forall n, In n (f_nodes f) <-> f_kind f n <> None) /\
  (forall n t, In t (node_targets f n) -> In t (f_nodes f)) /\
  In (f_entry f) (f_nodes f) /\
  (forall n, f_kind f n = Some OTerminate <-> n = f_terminal f) /\
  (forall n, f_kind f n <> Some (OForkClone [])) /\
  f_kind f (f_scope f) = None /\
  (forall n min max t, f_kind f n = Some (OCollect min max t) -> collect_setup_ok min max = true).

(** Nothing is left to do. *)
Definition quiet (x : xworld) : Prop :=
  let r := w_roster (o_w (x_o x)) in
  r_queue r = [] /\ r_disposed r = [] /\ r_cancel r = [].

(** A session started, and how it ended. *)
Definition started (x : xworld) (s : entity) (v : val) : Prop := In (EStart s v) (x_log x).

Definition ends (s : entity) (e : xevent) : bool :=
  match e with
  | EOut s' _ => Nat.eqb s' s
  | ECancelled s' _ => Nat.eqb s' s
  | _ => false
  end.
Definition endings (x : xworld) (s : entity) : list xevent := filter (ends s) (x_log x).

(** What a node does with one message of value [v]: it sends messages on, possibly
    dropping something as well, or cancels its session, or it is broken because the
    message is not of its type. Collecting nodes are not included, since what they do
    depends on more than one message. *)
Inductive reaction :=
| Sends (ms : list (entity * val)) (dropped : bool)
| Cancels
| Breaks.

Definition to_target (t : entity) (a : option val) : list (entity * val) :=
  match a with Some v => [(t, v)] | None => [] end.
Definition none {A} (a : option A) : bool := match a with None => true | _ => false end.

Definition reacts (k : okind) (v : val) : option reaction :=
  match k with
  | OMap f t => Some (Sends [(t, f v)] false)
  | OForkClone ts => Some (Sends (map (fun t => (t, v)) ts) false)
  | OUnzip ts =>
      match v with
      | VTuple vs => if Nat.eqb (length vs) (length ts) then Some (Sends (combine ts vs) false) else Some Breaks
      | _ => Some Breaks
      end
  | OBranch act ta tb =>
      match act v with
      | Some (a, b) => Some (Sends (to_target ta a ++ to_target tb b) (none a || none b))
      | None => Some Breaks
      end
  | OSpread t =>
      match v with
      | VList l => Some (Sends (map (fun x => (t, x)) l) (match l with [] => true | _ => false end))
      | _ => Some Breaks
      end
  | OFilter f t =>
      match f v with Some y => Some (Sends [(t, y)] false) | None => Some (Sends [] true) end
  | OCancelFilter f t =>
      match f v with Some y => Some (Sends [(t, y)] false) | None => Some Cancels end
  | OCancel => Some Cancels
  | OCollect _ _ _ | OTerminate | OUnused => None
  end.

(** The node is connected to the terminal. *)
Inductive leads (f : workflow) : entity -> Prop :=
| L_here : leads f (f_terminal f)
| L_next n t : In t (node_targets f n) -> leads f t -> leads f n.

(** The values which can come to the nodes when [v] is given to node [e]: [v] itself, what
    nodes make of the values that come to them, and batches of values that come to a
    collect. *)
Inductive occurs (f : workflow) (e : entity) (v : val) : entity -> val -> Prop :=
| O_here : occurs f e v e v
| O_sent n k w ms dropped t u : occurs f e v n w -> f_kind f n = Some k ->
    reacts k w = Some (Sends ms dropped) -> In (t, u) ms -> occurs f e v t u
| O_batch n min max t l : f_kind f n = Some (OCollect min max t) ->
    (forall w, In w l -> occurs f e v n w) -> within min max l -> occurs f e v t (VList l).

(** A node that answers in this way to a value which can come to it. *)
Definition occurs_with (f : workflow) (e : entity) (v : val) (n : entity) (r : reaction) : Prop :=
  exists k w, occurs f e v n w /\ f_kind f n = Some k /\ reacts k w = Some r.

(** No node collects. *)
Definition collect_free (f : workflow) : Prop := forall n, is_collect f n = false.

(** Two collects with connections from each to the other. *)
Inductive follows (f : workflow) : entity -> entity -> Prop :=
| F_next n t : In t (node_targets f n) -> follows f n t
| F_step n m t : In m (node_targets f n) -> follows f m t -> follows f n t.
Definition collects_in_cycle (f : workflow) : Prop :=
  exists n m, n <> m /\ is_collect f n = true /\ is_collect f m = true /\ follows f n m /\ follows f m n.

(** What comes of a value in the end, if this is finite: the list of results. *)
Inductive result := RValue (v : val) | RCancelled | RBreaks.

Inductive yields (f : workflow) : entity -> val -> list result -> Prop :=
| Y_out v : yields f (f_terminal f) v [RValue v]
| Y_unused n v : f_kind f n = Some OUnused -> yields f n v []
| Y_cancels n k v : f_kind f n = Some k -> reacts k v = Some Cancels -> yields f n v [RCancelled]
| Y_breaks n k v : f_kind f n = Some k -> reacts k v = Some Breaks -> yields f n v [RBreaks]
| Y_sends n k v ms dropped l : f_kind f n = Some k -> reacts k v = Some (Sends ms dropped) ->
    yield_all f ms l -> yields f n v l
with yield_all (f : workflow) : list (entity * val) -> list result -> Prop :=
| Y_nil : yield_all f [] []
| Y_cons n v ms l l' : yields f n v l -> yield_all f ms l' -> yield_all f ((n, v) :: ms) (l ++ l').
