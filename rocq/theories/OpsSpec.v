(** What is observed of the operations that pass messages on. *)
From Verif Require Import Base RosterModel BufferModel InputModel InputSpec OpsModel.

(** The values sent to one target, in order. *)
Definition sent_to (m : entity) (l : list (entity * val)) : list val :=
  map snd (filter (fun p => Nat.eqb (fst p) m) l).

(** A target that can be sent to: it takes messages, or it was left unconnected by the
    user, in which case what is sent to it is dropped. *)
Definition accepts (w : world val) (t : entity) : Prop :=
  receives w t \/ exists nd, w_nodes w t = Some nd /\ n_inputs nd = None /\ n_unused nd = true.

(** The messages waiting at [m] once [n] has taken its first one. *)
Definition after_take (w : world val) (n m : entity) : list (entity * val) :=
  if Nat.eqb m n then tl (pending w m) else pending w m.

(** Disposals recorded at a node for a session, and notices to scopes not handled yet. *)
Definition disposals (o : oworld) (n s : entity) : list disposal := o_disp o n s.
Definition notices (o : oworld) : list disposal_notice := r_disposed (w_roster (o_w o)).
Definition queued (o : oworld) : list entity := r_queue (w_roster (o_w o)).

(** The batches a collect has sent to its target for a session. *)
Definition batches (o : oworld) (t s : entity) : list (list val) :=
  map (fun i => match snd i with VList l => l | _ => [] end) (of_session s (pending (o_w o) t)).

Definition waiting_values (o : oworld) (n s : entity) : list val :=
  map snd (of_session s (pending (o_w o) n)).

(** The values which arrived for a session, in order. *)
Fixpoint arrived (s : entity) (ops : list cop) : list val :=
  match ops with
  | [] => []
  | CArrive s' v :: ops' => if Nat.eqb s' s then v :: arrived s ops' else arrived s ops'
  | _ :: ops' => arrived s ops'
  end.

Definition within (min : nat) (max : option nat) (b : list val) : Prop :=
  min <= length b /\ match max with Some m => length b <= m | None => True end.

(** Splitting, described by keys only. [conn] says which keys are connected. *)
Definition list_dest (conn : skey -> bool) (i : nat) : option skey :=
  if conn (KSequential i) then Some (KSequential i)
  else if conn KRemaining then Some KRemaining else None.

(** For a map: the element for key [k], where [j] elements before it had no branch of
    their own. *)
Definition map_dest (conn : skey -> bool) (k j : nat) : option skey :=
  if conn (KSpecific k) then Some (KSpecific k)
  else if conn (KSequential j) then Some (KSequential j)
  else if conn KRemaining then Some KRemaining else None.

Definition anonymous (conn : skey -> bool) (es : list (nat * val)) : nat :=
  length (filter (fun e => negb (conn (KSpecific (fst e)))) es).

(** Destination of every element of a list or map, with the item that is sent. *)
Definition list_plan (conn : skey -> bool) (l : list val) : list (option skey * val) :=
  map (fun i => (list_dest conn i, VTuple [VAtom i; nth i l VUnit])) (seq 0 (length l)).

Definition map_plan (conn : skey -> bool) (es : list (nat * val)) : list (option skey * val) :=
  map (fun i =>
         let e := nth i es (0, VUnit) in
         (map_dest conn (fst e) (anonymous conn (firstn i es)), VTuple [VAtom (fst e); snd e]))
    (seq 0 (length es)).

(** The items planned for a key, in order. *)
Definition planned (k : skey) (p : list (option skey * val)) : list val :=
  map snd (filter (fun e => match fst e with Some k' => skey_eqb k k' | None => false end) p).

(** Well-formed split nodes: [ks] lists the connected keys in the order of connection,
    [ts] the targets. Shown to hold for everything a split builder can make. *)
Definition split_wf (sp : split_state) (ks : list skey) (ts : list entity) : Prop :=
  NoDup ks /\ length ks = length ts /\ sp_targets sp = ts /\ sp_index_to_key sp = ks /\
  (forall k i, In (k, i) (sp_connections sp) <-> nth_error ks i = Some k) /\
  sp_cache sp = Some (repeat [] (length ts)).

Definition connected (ks : list skey) (k : skey) : bool := existsb (skey_eqb k) ks.

(** The session is not cleaned up. *)
Definition not_cleaning (s : entity) (c : cop) : Prop := forall b, c <> CCleanup b s.

(** Items of the branches that lead to [m]. *)
Definition branch_items (ks : list skey) (ts : list entity) (p : list (option skey * val)) (m : entity) : list val :=
  concat (map (fun kt => if Nat.eqb (snd kt) m then planned (fst kt) p else []) (combine ks ts)).

(** Nothing is planned for the key. *)
Definition no_items (p : list (option skey * val)) (k : skey) : bool :=
  match planned k p with [] => true | _ => false end.

(** The value of a split node's input, and its plan. *)
Definition plan_of (is_map : bool) (ks : list skey) (v : val) : option (list (option skey * val)) :=
  match v with
  | VList l =>
      if is_map then
        match map_entries l with Some es => Some (map_plan (connected ks) es) | None => None end
      else Some (list_plan (connected ks) l)
  | _ => None
  end.

(** The sequential position the iteration of a split builder has come to. *)
Definition seq_from (l : option skey) : option nat :=
  match l with None => Some 0 | Some (KSequential i) => Some (S i) | Some _ => None end.

(** A key that the type of the value can have. *)
Definition in_bounds (ty : splittable) (k : skey) : Prop :=
  match ty, k with
  | SplitArray n, KSequential i => i < n
  | _, _ => True
  end.
