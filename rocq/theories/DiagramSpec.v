(** What a diagram says, independently of how it is built. *)
From Verif Require Import Base DiagramModel.

Section Says.
Variable d : diagram.
Variable g : registry.

(** The operations of the diagram, with those inside of templates (once for
    every section that uses the template) and inside of scopes. *)
Inductive occurs : list nat -> nat -> op -> Prop :=
| occurs_top id o : In (id, o) (d_ops d) -> occurs [] id o
| occurs_template ns s t T cn id o :
    occurs ns s (OSection (PTemplate t) cn) ->
    find t (d_templates d) = Some T -> In (id, o) (t_ops T) ->
    occurs (ns ++ [s]) id o
| occurs_scope ns s start ops streams next id o :
    occurs ns s (OScope start ops streams next) -> In (id, o) ops ->
    occurs (ns ++ [s]) id o.

(** The target [t] named inside of the namespaces [ns]. *)
Definition named (ns : list nat) (t : next_op) : opref :=
  match t with
  | NName n => RNamed ns None n
  | NSpace s n => RNamed ns (Some s) n
  | NBuiltin BTerminate => RTerminate ns
  | NBuiltin BDispose => RDispose
  | NBuiltin BCancel => RCancel ns
  end.

(** The references which the operation [o], called [id] in [ns], declares to be
    other names for something else. *)
Inductive alias (ns : list nat) (id : nat) : op -> opref -> opref -> Prop :=
| alias_input t T cn x y :
    find t (d_templates d) = Some T -> In (x, y) (t_inputs T) ->
    alias ns id (OSection (PTemplate t) cn) (RNamed ns (Some id) x) (named (ns ++ [id]) y)
| alias_buffer t T cn x y :
    find t (d_templates d) = Some T -> In (x, y) (t_buffers T) ->
    alias ns id (OSection (PTemplate t) cn) (RNamed ns (Some id) x) (named (ns ++ [id]) y)
| alias_output t T cn x y :
    find t (d_templates d) = Some T -> In x (t_outputs T) -> find x cn = Some y ->
    alias ns id (OSection (PTemplate t) cn) (RNamed (ns ++ [id]) None x) (named ns y)
| alias_unused t T cn x :
    find t (d_templates d) = Some T -> In x (t_outputs T) -> find x cn = None ->
    alias ns id (OSection (PTemplate t) cn) (RNamed (ns ++ [id]) None x) RDispose
| alias_terminate p cn :
    alias ns id (OSection p cn) (RTerminate (ns ++ [id])) (RTerminate ns)
| alias_stream n :
    alias ns id (OStreamOut n) (RNamed ns None id) (RStream ns n).

Definition goes (r r' : opref) : Prop :=
  exists ns id o, occurs ns id o /\ alias ns id o r r'.

(** Following other names any number of times *)
Inductive leadsto : opref -> opref -> Prop :=
| leadsto_refl r : leadsto r r
| leadsto_step r1 r2 r3 : goes r1 r2 -> leadsto r2 r3 -> leadsto r1 r3.

(** The targets declared by an operation, in the order of its outputs *)
Definition declares (o : op) : list (option next_op) :=
  match o with
  | ONode _ next streams => Some next :: map (fun p => Some (snd p)) streams
  | OFork nexts => map Some nexts
  | OUnzip nexts => map Some nexts
  | OResult ok er => [Some ok; Some er]
  | OSplit keyed seq rem =>
      map (fun p => Some (snd p)) keyed ++ map Some seq ++ match rem with Some t => [Some t] | None => [] end
  | OJoin next _ _ => [Some next]
  | OTransform next on_error => [Some next; on_error]
  | OAccess next _ => [Some next]
  | OListen next _ => [Some next]
  | OSection (PBuilder b) cn =>
      match r_section g b with
      | Some (_, outs, _) =>
          flat_map (fun p => match find (fst p) cn with Some t => [Some t] | None => [] end) outs
      | None => []
      end
  | _ => []
  end.

(** The buffers an operation selects *)
Definition selects (o : op) : list (nat * next_op) :=
  match o with
  | OJoin _ sel _ => sel
  | OAccess _ sel => sel
  | OListen _ sel => sel
  | _ => []
  end.

(** Where an output with the declared target [t] of an operation in [ns] has to go *)
Definition directed (ns : list nat) (t : option next_op) : opref :=
  match t with
  | Some t => named ns t
  | None => match d_implicit d with Some t => named [] t | None => RCancel [] end
  end.

(** ** What the log of a construction says *)

Variable log : list entry.

(** The response type and the streams of the workflow *)
Variable p : nat.
Variable ss : list (nat * nat).

(** The slot [s] belongs to the operation which is referred to by [r]. *)
Inductive slot_of : opref -> slot -> Prop :=
| slot_own u ins bufs outs s :
    In (LBuilt u ins bufs outs) log -> In (None, s) ins -> slot_of (RNamed (u_ns u) None (u_id u)) s
| slot_exposed u ins bufs outs x s :
    In (LBuilt u ins bufs outs) log -> In (Some x, s) ins -> slot_of (RNamed (u_ns u) (Some (u_id u)) x) s
| slot_scope u sc enter term ex s :
    In (LScope u sc enter term ex) log -> s_id s = sc -> slot_of (RNamed (u_ns u) None (u_id u)) s
| slot_terminal u sc enter term ex s :
    In (LScope u sc enter term ex) log -> s_id s = term -> s_scope s = sc ->
    slot_of (RTerminate (u_ns u ++ [u_id u])) s
| slot_stream u sc enter term ex start ops streams next n t s o :
    In (LScope u sc enter term ex) log -> u_op u = OScope start ops streams next -> In (n, t) streams ->
    In (LStream (RStream (u_ns u ++ [u_id u]) n) s o) log -> s_scope s = sc ->
    slot_of (RStream (u_ns u ++ [u_id u]) n) s
| slot_response s : s_ty s = p -> s_scope s = 0 -> slot_of (RTerminate []) s
| slot_outside n s : In (n, s_ty s) ss -> s_scope s = 0 -> slot_of (RStream [] n) s
| slot_cancel s : In (s_ty s) [TUnit; TJson; TString] -> s_scope s = 0 -> slot_of (RCancel []) s.

(** [o] is connected to [s], directly if it has the right type *)
Definition direct (o : output) (s : slot) : Prop := o_ty o = s_ty s /\ In (LConnect o s) log.

Definition converted (o : output) (s : slot) : Prop :=
  exists k i out er, In (LConnect o i) log /\ In (LConv k i out er) log /\ In (LConnect out s) log.

Definition arrives (r : opref) (o : output) : Prop :=
  r = RDispose \/
  exists s, In (LSlot r s) log /\
            (direct o s \/ (converted o s /\ (o_ty o <> s_ty s \/ r = RCancel []))).

(** The outputs which do not belong to an operation but to a conversion or to
    the boundary of a scope, and where they have to go *)
Inductive born : opref -> output -> Prop :=
| born_error k i ok o : In (LConv k i ok (Some o)) log -> born (directed [] None) o
| born_begin u sc enter term ex start ops streams next o :
    In (LScope u sc enter term ex) log -> u_op u = OScope start ops streams next ->
    o_id o = enter -> o_scope o = sc -> born (named (u_ns u ++ [u_id u]) start) o
| born_end u sc enter term ex start ops streams next o :
    In (LScope u sc enter term ex) log -> u_op u = OScope start ops streams next ->
    o_id o = ex -> o_scope o = u_scope u -> born (named (u_ns u) next) o
| born_stream u sc enter term ex start ops streams next n t s o :
    In (LScope u sc enter term ex) log -> u_op u = OScope start ops streams next ->
    In (n, t) streams -> In (LStream (RStream (u_ns u ++ [u_id u]) n) s o) log ->
    o_scope o = u_scope u -> born (named (u_ns u) t) o.

(** The conversions which the registry allows *)
Definition allowed (k : conv) (i : slot) (out : output) (er : option output) : Prop :=
  match k with
  | CSerialize => r_ser g (s_ty i) = true /\ o_ty out = TJson /\ exists e, er = Some e
  | CDeserialize => r_de g (o_ty out) = true /\ s_ty i = TJson /\ exists e, er = Some e
  | CString => r_string g (s_ty i) = true /\ o_ty out = TString /\ er = None
  | CTrigger => r_known g (s_ty i) = true /\ o_ty out = TUnit /\ er = None
  end.

(** ** The operations themselves *)

Definition output_types (l : list (option next_op * output)) : list nat := map (fun x => o_ty (snd x)) l.
Definition buffer_types (l : list (nat * slot)) : list (nat * nat) := map (fun x => (fst x, s_ty (snd x))) l.

(** The input slots, the buffers and the outputs of an operation have the types
    which the registry knows for it, and the registry supports the operation. *)
Inductive shaped : op -> list (option nat * slot) -> list (nat * slot) -> list (option next_op * output) -> Prop :=
| shaped_node b next streams s rsp have outs tys :
    r_node g b = Some (s_ty s, rsp, have) -> output_types outs = rsp :: tys ->
    Forall2 (fun x ty => find (fst x) have = Some ty) streams tys ->
    shaped (ONode b next streams) [(None, s)] [] outs
| shaped_fork nexts s outs :
    r_clone g (s_ty s) = true -> (forall t o, In (t, o) outs -> o_ty o = s_ty s) ->
    shaped (OFork nexts) [(None, s)] [] outs
| shaped_unzip nexts s outs :
    r_unzip g (s_ty s) = Some (output_types outs) -> shaped (OUnzip nexts) [(None, s)] [] outs
| shaped_result ok er s outs a b :
    r_result g (s_ty s) = Some (a, b) -> output_types outs = [a; b] ->
    shaped (OResult ok er) [(None, s)] [] outs
| shaped_split keyed seq rem s outs item :
    r_split g (s_ty s) (map fst keyed) (length seq) (match rem with Some _ => true | None => false end) = Some item ->
    (forall t o, In (t, o) outs -> o_ty o = item) ->
    shaped (OSplit keyed seq rem) [(None, s)] [] outs
| shaped_join next sel ser bufs outs ty :
    output_types outs = [ty] -> r_join g ty (buffer_types bufs) = true -> (ser = true -> ty = TJson) ->
    shaped (OJoin next sel ser) [] bufs outs
| shaped_transform next er s outs :
    s_ty s = TJson -> output_types outs = [TJson; TFailed] ->
    shaped (OTransform next er) [(None, s)] [] outs
| shaped_buffer ser s :
    r_known g (s_ty s) = true -> (ser = true -> s_ty s = TJson) ->
    shaped (OBuffer ser) [(None, s)] [] []
| shaped_access next sel s bufs outs ty :
    output_types outs = [ty] -> r_access g ty (buffer_types bufs) = Some (s_ty s) ->
    shaped (OAccess next sel) [(None, s)] bufs outs
| shaped_listen next sel bufs outs ty :
    output_types outs = [ty] -> r_listen g ty (buffer_types bufs) = true ->
    shaped (OListen next sel) [] bufs outs
| shaped_builder b cn ins outs i o f :
    r_section g b = Some (i, o, f) ->
    map (fun x => (fst x, s_ty (snd x))) ins = map (fun x => (Some (fst x), snd x)) (i ++ f) ->
    output_types outs = flat_map (fun x => match find (fst x) cn with Some _ => [snd x] | None => [] end) o ->
    (forall x t, In (x, t) cn -> In x (map fst o)) ->
    shaped (OSection (PBuilder b) cn) ins [] outs
| shaped_template t cn T :
    find t (d_templates d) = Some T -> (forall x y, In (x, y) cn -> In x (t_outputs T)) ->
    shaped (OSection (PTemplate t) cn) [] [] []
| shaped_scope start ops streams next : shaped (OScope start ops streams next) [] [] []
| shaped_stream_out n : shaped (OStreamOut n) [] [] [].

(** [s] is a buffer, and [r] refers to it. *)
Inductive buffer_of : opref -> slot -> Prop :=
| buffer_own u ins bufs outs ser s :
    In (LBuilt u ins bufs outs) log -> u_op u = OBuffer ser -> In (None, s) ins ->
    buffer_of (RNamed (u_ns u) None (u_id u)) s
| buffer_exposed u ins bufs outs b cn i o f x s :
    In (LBuilt u ins bufs outs) log -> u_op u = OSection (PBuilder b) cn ->
    r_section g b = Some (i, o, f) -> In (x, s_ty s) f -> In (Some x, s) ins ->
    buffer_of (RNamed (u_ns u) (Some (u_id u)) x) s.

(** Where the output [o] with the declared target [t] of the operation [u] was
    directed. (The error output of a transform inside of namespaces is directed
    to a place which has these namespaces twice.) *)
Definition put_to (u : unf) (t : option next_op) (o : output) (r : opref) : Prop :=
  match u_op u with
  | OTransform _ _ =>
      if o_ty o =? TFailed then r = in_ns (u_ns u) (directed (u_ns u) t) else r = directed (u_ns u) t
  | _ => r = directed (u_ns u) t
  end.

(** The targets which exist from the beginning, in a workflow with the streams [ss] *)
Inductive outermost : opref -> Prop :=
| outermost_terminate : outermost (RTerminate [])
| outermost_dispose : outermost RDispose
| outermost_cancel : outermost (RCancel [])
| outermost_stream n ty : In (n, ty) ss -> outermost (RStream [] n).

(** An operation was built the way the diagram describes it. *)
Record as_declared (u : unf) (ins : list (option nat * slot)) (bufs : list (nat * slot))
  (outs : list (option next_op * output)) : Prop := {
  ad_occurs : occurs (u_ns u) (u_id u) (u_op u);
  ad_shape : shaped (u_op u) ins bufs outs;
  ad_targets : map fst outs = declares (u_op u);
  ad_put : forall t o, In (t, o) outs -> exists r, In (LPut r o) log /\ put_to u t o r;
  ad_buffers : Forall2 (fun x y => fst x = fst y /\
                          exists r, leadsto (named (u_ns u) (snd x)) r /\ buffer_of r (snd y))
                       (selects (u_op u)) bufs;
  ad_scope : (forall x s, In (x, s) ins -> s_scope s = u_scope u) /\
             (forall t o, In (t, o) outs -> o_scope o = u_scope u)
}.

(** Every output which was directed somewhere belongs to an operation which
    declares this target, or it is the request of the workflow (type [q]). *)
Definition accounted_for (q : nat) (r : opref) (o : output) : Prop :=
  (r = named [] (d_start d) /\ o_ty o = q /\ o_scope o = 0) \/
  exists u ins bufs outs t, In (LBuilt u ins bufs outs) log /\ In (t, o) outs /\ put_to u t o r.

(** The output [o], directed to [r], is connected to the operation [r] stands for. *)
Definition delivered (r : opref) (o : output) : Prop := exists r', leadsto r r' /\ arrives r' o.

End Says.

(** ** A finished construction *)

(** Any order in which the outputs that wait are looked at *)
Definition orders (ord : nat -> list (opref * list output) -> list (opref * list output)) : Prop :=
  forall n l, Permutation (ord n l) l.

(** A workflow with request type [q], response type [p] and streams [ss] can be
    built from the diagram, and [log] says what was built. *)
Definition builds (g : registry) (d : diagram) (q p : nat) (ss : list (nat * nat)) (log : list entry) : Prop :=
  exists ord max c, orders ord /\ create_workflow g ord max d q p ss = inl c /\ c_log c = log.

(** ** Templates which use templates *)

Definition starts_with (d : diagram) (t : nat) : Prop :=
  exists id cn, In (id, OSection (PTemplate t) cn) (d_ops d).

Definition uses (d : diagram) (t t' : nat) : Prop :=
  exists T id cn, find t (d_templates d) = Some T /\ In (id, OSection (PTemplate t') cn) (t_ops T).

Inductive uses_some (d : diagram) : nat -> nat -> Prop :=
| uses_one t t' : uses d t t' -> uses_some d t t'
| uses_more t t1 t' : uses d t t1 -> uses_some d t1 t' -> uses_some d t t'.

(** [t] is used by the operations of the diagram or by a template which is. *)
Definition used (d : diagram) (t : nat) : Prop :=
  starts_with d t \/ exists t0, starts_with d t0 /\ uses_some d t0 t.

(** ** Inside of a section *)

Definition namespaces (r : opref) : option (list nat) :=
  match r with
  | RNamed ns _ _ => Some ns
  | RTerminate ns => Some ns
  | RDispose => None
  | RCancel ns => Some ns
  | RStream ns _ => Some ns
  end.

Definition within (ns : list nat) (r : opref) : Prop :=
  exists rest, namespaces r = Some (ns ++ rest).

(** ** Diagrams with one level only *)

(** No sections made from templates and no scopes; [stream_out] only uses streams
    which the workflow has; errors which have no target of their own go to a
    built-in target. *)
Definition flat (d : diagram) (ss : list (nat * nat)) : Prop :=
  (forall id o, In (id, o) (d_ops d) ->
     match o with
     | OSection (PTemplate _) _ | OScope _ _ _ _ => False
     | OStreamOut n => exists ty, In (n, ty) ss
     | _ => True
     end) /\
  (d_implicit d = None \/ exists b, d_implicit d = Some (NBuiltin b)).

(** ** Names are used once (the operations are kept in maps) *)

Definition unique (d : diagram) : Prop :=
  forall ns id o o', occurs d ns id o -> occurs d ns id o' -> o = o'.

(** Two diagrams which list the same operations and templates, in whatever order *)
Definition same_contents (d d' : diagram) : Prop :=
  Permutation (d_ops d) (d_ops d') /\ d_templates d = d_templates d' /\
  d_start d = d_start d' /\ d_implicit d = d_implicit d'.

(** [r0] is outside of [N] and [r] inside: the way leads through an exposed input
    or buffer of the section [N]. *)
Definition enters (d : diagram) (N : list nat) (r0 r : opref) : Prop :=
  exists ns s t T cn x y,
    N = ns ++ [s] /\ occurs d ns s (OSection (PTemplate t) cn) /\ find t (d_templates d) = Some T /\
    In (x, y) (t_inputs T ++ t_buffers T) /\
    leadsto d r0 (RNamed ns (Some s) x) /\ leadsto d (named N y) r.

(** [r0] is inside of [N] and [r] outside: the way leads through an output of the
    section [N] or through its terminate. *)
Definition leaves (d : diagram) (N : list nat) (r0 r : opref) : Prop :=
  exists ns s pr cn,
    N = ns ++ [s] /\ occurs d ns s (OSection pr cn) /\
    ((exists t T x y, pr = PTemplate t /\ find t (d_templates d) = Some T /\ In x (t_outputs T) /\
        find x cn = Some y /\ leadsto d r0 (RNamed N None x) /\ leadsto d (named ns y) r) \/
     (leadsto d r0 (RTerminate N) /\ leadsto d (RTerminate ns) r)).
