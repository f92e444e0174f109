(** What users rely on when they use streams, written without the functions
    of the model: only its data types are used. *)
From Coq Require Import List Arith Bool.
From Verif Require Import Base StreamModel.
Import ListNotations.

Definition ty_eq_dec (a b : ty) : {a = b} + {a <> b}.
Proof. decide equality. apply Nat.eq_dec. Defined.

Section Spec.
Context {V : Type}.

(** * Where an item is expected to arrive *)

(** The connections of a node: which stream was connected to which target, in
    the order in which the connections were declared. *)
Definition connections := list (stream V * entity).

(** The type of the messages that a stream carries: a dynamically named stream
    carries values with their names. *)
Definition carried (s : stream V) : ty :=
  match s with
  | SAnon f => ef_out f
  | SNamed _ f => ef_out f
  | SDyn f => NamedTy (ef_out f)
  end.

(** the connection is for the stream with this name *)
Definition is_named (n : nat) (c : stream V * entity) : bool :=
  match fst c with SNamed m _ => if Nat.eq_dec m n then true else false | _ => false end.

(** the connection is for all messages of this type, whatever their name *)
Definition is_typed (t : ty) (c : stream V * entity) : bool :=
  match fst c with
  | SNamed _ _ => false
  | s => if ty_eq_dec (carried s) t then true else false
  end.

(** The target connected to the stream called [n], if that connection is for
    messages of type [t]; of two connections with one name the first counts. *)
Definition connected_name (cs : connections) (n : nat) (t : ty) : option entity :=
  match find (is_named n) cs with
  | Some c => if ty_eq_dec (carried (fst c)) t then Some (snd c) else None
  | None => None
  end.

(** The target connected for all messages of type [t]. *)
Definition connected_type (cs : connections) (t : ty) : option entity :=
  match find (is_typed t) cs with Some c => Some (snd c) | None => None end.

(** The destination of an item: a target, the type of the message that it gets
    and the form of the message. *)
Definition destination : Type := entity * ty * (V -> datum V).

(** An item named [n] of a stream of type [t]: the target of that name, else
    the target for any named item of the type, else the unnamed target. *)
Definition destination_named (cs : connections) (n : nat) (t : ty) : option destination :=
  match connected_name cs n t with
  | Some e => Some (e, t, Plain)
  | None =>
      match connected_type cs (NamedTy t) with
      | Some e => Some (e, NamedTy t, Named n)
      | None =>
          match connected_type cs t with
          | Some e => Some (e, t, Plain)
          | None => None
          end
      end
  end.

Definition destination_unnamed (cs : connections) (t : ty) : option destination :=
  match connected_type cs t with
  | Some e => Some (e, t, Plain)
  | None => None
  end.

Definition destination_of (cs : connections) (s : stream V) (i : item V) : option destination :=
  match s with
  | SAnon f => destination_unnamed cs (ef_out f)
  | SNamed n f => destination_named cs n (ef_out f)
  | SDyn f => destination_named cs (fst i) (ef_out f)
  end.

Definition effect_of (s : stream V) : effect V :=
  match s with SAnon f => f | SNamed _ f => f | SDyn f => f end.

(** * What arrives *)

(** A parcel: the session it belongs to, the value (none if the side effect of
    the stream failed) and the destination (none if nothing is connected). *)
Record parcel := mkParcel {
  pc_session : entity;
  pc_value : option V;
  pc_to : option destination;
}.

(** the parcels of the items that a node sends on a stream *)
Definition parcels (cs : connections) (s : stream V) (session : entity)
    (items : list (item V)) : list parcel :=
  map (fun i => mkParcel session (ef_fun (effect_of s) (snd i)) (destination_of cs s i)) items.

(** what the target [e] gets out of one parcel *)
Definition arrives (active : entity -> bool) (e : entity) (p : parcel) : list (entity * datum V) :=
  match pc_value p, pc_to p with
  | Some v, Some (e', _, form) =>
      if Nat.eq_dec e' e then if active (pc_session p) then [(pc_session p, form v)] else []
      else []
  | _, _ => []
  end.

(** what the target [e] gets out of many, oldest first *)
Definition arrivals (active : entity -> bool) (e : entity) (ps : list parcel) :=
  flat_map (arrives active e) ps.

(** the target that one parcel wakes up *)
Definition wakes_up (active alive : entity -> bool) (p : parcel) : list entity :=
  match pc_value p, pc_to p with
  | Some _, Some (e, _, _) => if alive e && active (pc_session p) then [e] else []
  | _, _ => []
  end.

(** a parcel that cannot be delivered: its side effect failed, or its target
    does not exist any more *)
Definition undeliverable (alive : entity -> bool) (p : parcel) : bool :=
  match pc_value p, pc_to p with
  | None, _ => true
  | Some _, Some (e, _, _) => negb (alive e)
  | Some _, None => false
  end.

Definition is_alive (w : st V) (e : entity) : bool :=
  match st_nodes w e with Some _ => true | None => false end.

(** A target that can take messages of type [t], or that nobody uses. *)
Definition accepts (n : node V) (t : ty) : Prop :=
  nd_ty n = Some t \/ (nd_ty n = None /\ nd_unused n = true).

(** The connections are between streams and targets of the same type, which
    the typed API enforces. *)
Definition well_typed (cs : connections) (w : st V) : Prop :=
  forall c n, In c cs -> st_nodes w (snd c) = Some n -> accepts n (carried (fst c)).

(** The messages waiting in a target, newest first, after more have arrived;
    a target that nobody uses keeps nothing. *)
Definition waiting (n : node V) (more : list (entity * datum V)) : list (entity * datum V) :=
  match nd_ty n with
  | Some _ => rev more ++ nd_queue n
  | None => nd_queue n
  end.

(** [w'] is [w] after the parcels [ps] were sent: each target has got its
    parcels in order, was woken once for each, and nothing else has changed. *)
Definition delivered (ps : list parcel) (w w' : st V) : Prop :=
  (forall e n, st_nodes w e = Some n ->
     st_nodes w' e =
       Some (mkNode (nd_ty n) (nd_unused n)
               (waiting n (arrivals (st_active w) e ps)))) /\
  (forall e, st_nodes w e = None -> st_nodes w' e = None) /\
  st_wakes w' = st_wakes w ++ flat_map (wakes_up (st_active w) (is_alive w)) ps /\
  st_active w' = st_active w /\
  st_coll w' = st_coll w.

(** the number of parcels that could not be delivered *)
Definition failures (w : st V) (ps : list parcel) : nat :=
  length (filter (undeliverable (is_alive w)) ps).

(** * Streams leaving a workflow or a scope *)

(** Where the streams of a session go: the connections made by the one who
    runs the workflow, and the session they belong to outside. *)
Definition outlet : Type := connections * entity.

Definition parcel_out (r : redirect V) (outs : entity -> option outlet)
    (i : entity * datum V) : list parcel :=
  match outs (fst i) with
  | None => []
  | Some (cs, parent) =>
      match r, snd i with
      | RScope f target, Plain v =>
          [mkParcel parent (ef_fun f v) (Some (target, ef_out f, Plain))]
      | RScope f target, Named n v =>
          [mkParcel parent (ef_fun f v) (Some (target, ef_out f, Named n))]
      | RAnon f, Plain v => [mkParcel parent (ef_fun f v) (destination_unnamed cs (ef_out f))]
      | RStatic n f, Plain v => [mkParcel parent (ef_fun f v) (destination_named cs n (ef_out f))]
      | RDyn f, Named n v => [mkParcel parent (ef_fun f v) (destination_named cs n (ef_out f))]
      | _, _ => []
      end
  end.

(** the form of message that the redirect takes *)
Definition well_formed (r : redirect V) (d : datum V) : Prop :=
  match r, d with
  | RScope _ _, _ => True
  | RDyn _, Named _ _ => True
  | RDyn _, Plain _ => False
  | _, Plain _ => True
  | _, Named _ _ => False
  end.

(** * Availability *)

(** A service with the streams [pack] provides the stream [s]. *)
Definition provides (pack : list (stream V)) (s : stream V) : Prop :=
  match s with
  | SNamed n f => exists g, In (SNamed n g) pack /\ ef_out g = ef_out f
  | _ =>
      (exists g, In (SAnon g) pack /\ ef_out g = carried s) \/
      (exists g, In (SDyn g) pack /\ NamedTy (ef_out g) = carried s)
  end.

(** No name is used for two types. *)
Definition clear_names (pack : list (stream V)) : Prop :=
  forall n f g, In (SNamed n f) pack -> In (SNamed n g) pack -> ef_out f = ef_out g.

Definition is_dynamic (s : stream V) : bool := match s with SDyn _ => true | _ => false end.

(** A filter asks for a stream. *)
Fixpoint asks (f : sfilter V) (s : stream V) : Prop :=
  match f with
  | Require pack => In s pack
  | Optional _ => False
  | FTuple fs => fold_right (fun g p => asks g s \/ p) False fs
  end.

End Spec.
Arguments mkParcel {V}. Arguments pc_session {V}. Arguments pc_value {V}. Arguments pc_to {V}.

(** The three ways in which a node sends the items of a stream: a blocking
    node, a continuous node and an async node. *)
Inductive route := Blocking | Deferred | Channelled.

Definition send_all {V} (r : route) (cs : list (stream V * entity)) (s : stream V)
    (source session : entity) (items : list (item V)) (w : st V) : st V :=
  let h := make_handle s (Some (declare_all cs tmap_empty)) in
  match r with
  | Blocking => process_buffer h source session items w
  | Deferred => apply_command (defer_buffer h items) source session w
  | Channelled => run_channel (map (channel_send h source session) items) w
  end.

(** The exits of a workflow or scope, as the model holds them, for sessions
    whose streams go to [outs]. *)
Definition exits_of {V} (outs : entity -> option (outlet (V := V))) (s : entity) : option exit :=
  match outs s with
  | Some (cs, parent) => Some (mkExit (declare_all cs tmap_empty) parent)
  | None => None
  end.

(** the values that were sent, after the side effect *)
Definition sent {V} (f : effect V) (hs : list (happening V)) : list V :=
  flat_map (fun h => match h with
                     | Send v => match ef_fun f v with Some v' => [v'] | None => [] end
                     | Execute => []
                     end) hs.

(** the entry of a collection for a value *)
Definition entry {V} (p : push) (t : ty) (session : entity) (v : V) : ty * entity * datum V :=
  match ps_name p with
  | Some n => (NamedTy t, session, Named n v)
  | None => (t, session, Plain v)
  end.
