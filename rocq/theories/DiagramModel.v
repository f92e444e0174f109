(** Building a workflow from a diagram: src/diagram.rs, src/diagram/operation_ref.rs,
    src/diagram/workflow_builder.rs, src/diagram/serialization.rs and the
    [BuildDiagramOperation] implementations of src/diagram/*_schema.rs.

    Names, builder ids, template ids and message types are numbers.  What the
    registry knows about a message type is a record of functions
    ([registry]); what a registered builder makes is given by its types.
    Everything the builder does to the world is written to a log ([entry]):
    which outputs were directed where, which connections were made, which
    conversions were inserted.  Left out: tracing, display texts, configs
    (a builder id stands for the builder together with its config), the [clone]
    list of joins (it can only add refusals) and compile errors of CEL programs. *)
From Verif Require Import Base.

(** ** Results *)

(** Simplified [DiagramErrorCode] (diagram.rs 783-936): the refusals which only
    depend on the registry are one code. *)
Inductive code (R : Type) :=
| EReserved (n : nat)                        (* InvalidUseOfReservedName *)
| EUnknownTemplate (t : nat)                 (* UnknownTemplate, TemplateNotFound *)
| ECircularTemplate (used : list nat)        (* CircularTemplateDependency *)
| ERefused                                   (* BuilderNotFound, NotCloneable, CannotForkResult, ... *)
| EMismatch (source target : nat)            (* TypeMismatch *)
| EDuplicateInputs (r : R)
| EDuplicateBuffers (r : R)
| EUnknownOperation (r : R)
| EUnknownOutput (n : nat)                   (* SectionError::UnknownOutput *)
| EInconsistentHints
| EEmptyJoin
| ECircularRedirect
| EBuildHalted (reasons : list R)
| EExcessive                                 (* ExcessiveIterations *)
| EFinishing (rs : list R).                  (* FinishingErrors *)
Arguments EReserved {R}. Arguments EUnknownTemplate {R}. Arguments ECircularTemplate {R}.
Arguments ERefused {R}. Arguments EMismatch {R}. Arguments EDuplicateInputs {R}.
Arguments EDuplicateBuffers {R}. Arguments EUnknownOperation {R}. Arguments EUnknownOutput {R}.
Arguments EInconsistentHints {R}. Arguments EEmptyJoin {R}. Arguments ECircularRedirect {R}.
Arguments EBuildHalted {R}. Arguments EExcessive {R}. Arguments EFinishing {R}.

(** ** References to operations *)

(** diagram.rs 250-262 [BuiltinTarget] *)
Inductive builtin := BTerminate | BDispose | BCancel.

(** diagram.rs 99-107 [NextOperation] *)
Inductive next_op :=
| NName (n : nat)
| NBuiltin (b : builtin)
| NSpace (s n : nat).                        (* { "s": "n" }: an exposed operation of a section *)

(** operation_ref.rs 36-42 [OperationRef], 109-148 [NamedOperationRef],
    212-217 [StreamOutRef] *)
Inductive opref :=
| RNamed (ns : list nat) (exposed : option nat) (n : nat)
| RTerminate (ns : list nat)
| RDispose
| RCancel (ns : list nat)
| RStream (ns : list nat) (n : nat).

Definition opref_eq_dec (a b : opref) : {a = b} + {a <> b}.
Proof. repeat (decide equality). Defined.

(** operation_ref.rs 44-59, 151-154, 237-240, 259-271 [in_namespaces] *)
Definition in_ns (p : list nat) (r : opref) : opref :=
  match r with
  | RNamed ns e n => RNamed (p ++ ns) e n
  | RTerminate ns => RTerminate (p ++ ns)
  | RDispose => RDispose
  | RCancel ns => RCancel (p ++ ns)
  | RStream ns n => RStream (p ++ ns) n
  end.

(** operation_ref.rs 66-78, 177-187 [OperationRef::from(&NextOperation)] *)
Definition to_ref (t : next_op) : opref :=
  match t with
  | NName n => RNamed [] None n
  | NSpace s n => RNamed [] (Some s) n
  | NBuiltin BTerminate => RTerminate []
  | NBuiltin BDispose => RDispose
  | NBuiltin BCancel => RCancel []
  end.

(** [Result<_, DiagramErrorCode>] *)
Definition res (A : Type) : Type := sum A (code opref).
Arguments res A%type.
Definition Ok {A : Type} (a : A) : res A := inl a.
Definition Err {A : Type} (e : code opref) : res A := inr e.
Notation "'let?' x := e 'in' k" :=
  (match e with inl x => k | inr err => inr err end)
  (at level 200, x pattern, k at level 200).

(** ** Diagrams *)

(** section_schema.rs 35-38 [SectionProvider] *)
Inductive provider := PBuilder (b : nat) | PTemplate (t : nat).

(** diagram.rs 290-304 [DiagramOperation] and the schema structs of the
    operations.  A HashMap of operations is an association list; the order of
    the list stands for the iteration order of that map.  A [BufferSelection]
    (diagram.rs 219-233) is a list of numbered targets. *)
Inductive op :=
| ONode (b : nat) (next : next_op) (streams : list (nat * next_op))
| OSection (p : provider) (connect : list (nat * next_op))
| OScope (start : next_op) (ops : list (nat * op)) (streams : list (nat * next_op)) (next : next_op)
| OStreamOut (n : nat)
| OFork (nexts : list next_op)
| OUnzip (nexts : list next_op)
| OResult (ok err : next_op)
| OSplit (keyed : list (nat * next_op)) (sequential : list next_op) (remaining : option next_op)
| OJoin (next : next_op) (buffers : list (nat * next_op)) (serialize : bool)
| OTransform (next : next_op) (on_error : option next_op)
| OBuffer (serialize : bool)
| OAccess (next : next_op) (buffers : list (nat * next_op))
| OListen (next : next_op) (buffers : list (nat * next_op)).

(** section_schema.rs 360-375 [SectionTemplate]; [InputRemapping::Forward l]
    (381-392) is the list of pairs [(x, NName x)]. *)
Record template := {
  t_inputs : list (nat * next_op);
  t_outputs : list nat;
  t_buffers : list (nat * next_op);
  t_ops : list (nat * op)
}.

(** diagram.rs 365-402 [Diagram] *)
Record diagram := {
  d_templates : list (nat * template);
  d_start : next_op;
  d_implicit : option next_op;
  d_ops : list (nat * op)
}.

Fixpoint find {A} (k : nat) (l : list (nat * A)) : option A :=
  match l with
  | [] => None
  | (k', a) :: l' => if k =? k' then Some a else find k l'
  end.

(** ** Message types and the registry *)

Definition TJson := 0.     (* JsonMessage *)
Definition TString := 1.   (* String *)
Definition TUnit := 2.     (* () *)
Definition TFailed := 3.   (* TransformError *)

(** registration.rs 720-748 [MessageOperation], 57-71 [NodeRegistration] and the
    look-ups of 924-1297, as far as building depends on them. *)
Record registry := {
  r_known : nat -> bool;                                   (* the type is registered *)
  r_ser : nat -> bool;                                     (* serialize_impl *)
  r_de : nat -> bool;                                      (* deserialize_impl *)
  r_clone : nat -> bool;                                   (* fork_clone_impl *)
  r_string : nat -> bool;                                  (* to_string_impl *)
  r_node : nat -> option (nat * nat * list (nat * nat));   (* request, response, named streams *)
  r_section : nat -> option (list (nat * nat) * list (nat * nat) * list (nat * nat));
                                                           (* inputs, outputs, buffers *)
  r_unzip : nat -> option (list nat);
  r_result : nat -> option (nat * nat);
  r_split : nat -> list nat -> nat -> bool -> option nat;  (* item type, if the keys are accepted *)
  r_join : nat -> list (nat * nat) -> bool;
  r_access : nat -> list (nat * nat) -> option nat;        (* message type of the access node *)
  r_access_hints : nat -> list nat -> option (list (option nat));
  r_listen : nat -> list (nat * nat) -> bool;
  r_listen_hints : nat -> list nat -> option (list (option nat))
}.

(** ** What is being built *)

(** dyn_node.rs [DynInputSlot], [DynOutput]: entity, message type, scope *)
Record slot := { s_id : nat; s_ty : nat; s_scope : nat }.
Record output := { o_id : nat; o_ty : nat; o_scope : nat }.

(** serialization.rs 207-210, 287-293 and workflow_builder.rs 1124-1126: the
    three standard ways of connecting into an input slot *)
Inductive std :=
| SSer (s : slot) (incoming : list (nat * slot))
| SDe (s : slot) (serialized : option slot)
| SBasic (s : slot).

(** The implementations of [ConnectIntoTarget]: workflow_builder.rs 1037-1055
    [ConnectToDispose], 1149-1167 [ConnectToCancel], 1229-1244
    [RedirectConnection]; scope_schema.rs 182-186, 235-239, 288-293. *)
Inductive connector :=
| KStd (c : std)
| KDispose
| KCancel (quiet json string : slot) (jsons strings triggers : list (nat * slot))
| KRedirect (to : opref) (redirected : list nat)
| KRequest (sc enter : nat) (start : opref) (c : option std)
| KResponse (sc : nat) (terminal exit_ parent : nat) (next : opref) (c : option std)
| KStream (sc parent : nat) (to : opref) (c : option std).

(** workflow_builder.rs 952-955 [Target] *)
Record target := { t_conn : connector; t_scope : nat }.

(** workflow_builder.rs 70-74 [BufferRef] *)
Inductive bufref := BRef (r : opref) | BVal (s : slot).

(** workflow_builder.rs 938-950 [UnfinishedOperation] *)
Record unf := { u_id : nat; u_ns : list nat; u_op : op; u_scope : nat }.

Definition u_ref (u : unf) : opref := RNamed (u_ns u) None (u_id u).

Inductive conv := CSerialize | CDeserialize | CString | CTrigger.

(** The log of what building did. *)
Inductive entry :=
| LPut (r : opref) (o : output)              (* an operation directed an output into a target *)
| LPass (r : opref) (o : output)             (* a connector did *)
| LHand (r : opref) (o : output)             (* an output was given to the connector of a target *)
| LLost (r : opref) (o : output)             (* an output was overwritten while it waited *)
| LConnect (o : output) (s : slot)           (* Connect { original_target, new_target } *)
| LConv (k : conv) (i : slot) (out : output) (err : option output)
| LScope (u : unf) (sc enter terminal exit_ : nat)   (* a scope operation created its scope *)
| LStream (r : opref) (s : slot) (o : output) (* a stream of a scope got its ends *)
| LSlot (r : opref) (s : slot)               (* an input slot of a target *)
| LBuilt (u : unf) (ins : list (option nat * slot)) (bufs : list (nat * slot))
         (outs : list (option next_op * output)).
                                             (* an operation was built: its input slots (Some x: the
                                                exposed input x of a section), the buffers it uses
                                                and its outputs, each with the target declared for
                                                it (None: the target of implicit errors) *)

(** workflow_builder.rs 44-55 [DiagramConstruction]; [c_new] are the
    [outputs_into_target] of [connector_construction] (783, 850), the second
    construction which the connectors write to. *)
Record con := {
  c_conns : list (opref * target);
  c_outs : list (opref * list output);
  c_bufs : list (opref * bufref);
  c_hints : list (opref * list (option nat));
  c_gen : list unf;
  c_new : list (opref * list output);
  c_next : nat;
  c_log : list entry
}.

Definition empty_con : con :=
  {| c_conns := []; c_outs := []; c_bufs := []; c_hints := []; c_gen := []; c_new := [];
     c_next := 1; c_log := [] |}.

Definition set_conns v c := {| c_conns := v; c_outs := c_outs c; c_bufs := c_bufs c; c_hints := c_hints c; c_gen := c_gen c; c_new := c_new c; c_next := c_next c; c_log := c_log c |}.
Definition set_outs v c := {| c_conns := c_conns c; c_outs := v; c_bufs := c_bufs c; c_hints := c_hints c; c_gen := c_gen c; c_new := c_new c; c_next := c_next c; c_log := c_log c |}.
Definition set_bufs v c := {| c_conns := c_conns c; c_outs := c_outs c; c_bufs := v; c_hints := c_hints c; c_gen := c_gen c; c_new := c_new c; c_next := c_next c; c_log := c_log c |}.
Definition set_hints v c := {| c_conns := c_conns c; c_outs := c_outs c; c_bufs := c_bufs c; c_hints := v; c_gen := c_gen c; c_new := c_new c; c_next := c_next c; c_log := c_log c |}.
Definition set_gen v c := {| c_conns := c_conns c; c_outs := c_outs c; c_bufs := c_bufs c; c_hints := c_hints c; c_gen := v; c_new := c_new c; c_next := c_next c; c_log := c_log c |}.
Definition set_new v c := {| c_conns := c_conns c; c_outs := c_outs c; c_bufs := c_bufs c; c_hints := c_hints c; c_gen := c_gen c; c_new := v; c_next := c_next c; c_log := c_log c |}.
Definition set_next v c := {| c_conns := c_conns c; c_outs := c_outs c; c_bufs := c_bufs c; c_hints := c_hints c; c_gen := c_gen c; c_new := c_new c; c_next := v; c_log := c_log c |}.
Definition set_log v c := {| c_conns := c_conns c; c_outs := c_outs c; c_bufs := c_bufs c; c_hints := c_hints c; c_gen := c_gen c; c_new := c_new c; c_next := c_next c; c_log := v |}.

Definition note (e : entry) (c : con) : con := set_log (c_log c ++ [e]) c.

(** [commands.spawn(..).id()] *)
Definition spawn (c : con) : con * nat := (set_next (S (c_next c)) c, c_next c).

Definition spawn_slot (ty sc : nat) (c : con) : con * slot :=
  let '(c1, i) := spawn c in (c1, {| s_id := i; s_ty := ty; s_scope := sc |}).

Definition spawn_output (ty sc : nat) (c : con) : con * output :=
  let '(c1, i) := spawn c in (c1, {| o_id := i; o_ty := ty; o_scope := sc |}).

(** ** Maps keyed by references (HashMap) *)

Fixpoint look {A} (m : list (opref * A)) (r : opref) : option A :=
  match m with
  | [] => None
  | (r', a) :: m' => if opref_eq_dec r r' then Some a else look m' r
  end.

(** [HashMap::insert] (and [HashMap::extend] for one entry) *)
Fixpoint put {A} (m : list (opref * A)) (r : opref) (a : A) : list (opref * A) :=
  match m with
  | [] => [(r, a)]
  | (r', a') :: m' => if opref_eq_dec r r' then (r, a) :: m' else (r', a') :: put m' r a
  end.

(** [map.entry(r).or_default().push(o)] *)
Fixpoint push {A} (m : list (opref * list A)) (r : opref) (o : A) : list (opref * list A) :=
  match m with
  | [] => [(r, [o])]
  | (r', os) :: m' => if opref_eq_dec r r' then (r', os ++ [o]) :: m' else (r', os) :: push m' r o
  end.

(** ** Namespaces and the context of an operation *)

(** workflow_builder.rs 201-208 [add_output_into_target] while operations are
    built: the target is put into the namespaces of the operation here. *)
Definition add_output (ns : list nat) (r : opref) (o : output) (c : con) : con :=
  let r' := in_ns ns r in
  note (LPut r' o) (set_outs (push (c_outs c) r' o) c).

(** The same during the connect phase, where the namespaces are empty (857-868)
    and the construction is [connector_construction] (850). *)
Definition pass_output (r : opref) (o : output) (c : con) : con :=
  note (LPass r o) (set_new (push (c_new c) r o) c).

(** workflow_builder.rs 290-311 [impl_connect_into_target] *)
Definition set_conn (r : opref) (k : connector) (sc : nat) (c : con) : res con :=
  match look (c_conns c) r with
  | Some _ => Err (EDuplicateInputs r)
  | None => Ok (set_conns (put (c_conns c) r {| t_conn := k; t_scope := sc |}) c)
  end.

(** workflow_builder.rs 1066-1084 [standard_input_connection], serialization.rs
    213-226, 296-313 *)
Definition standard (g : registry) (s : slot) : std :=
  if s_ty s =? TJson then SSer s []
  else if r_de g (s_ty s) then SDe s None
  else SBasic s.

(** workflow_builder.rs 228-265 [set_input_for_target] (without tracing) *)
Definition set_input (g : registry) (ns : list nat) (r : opref) (s : slot) (sc : nat) (c : con) : res con :=
  let r' := in_ns ns r in
  let? c1 := set_conn r' (KStd (standard g s)) sc c in
  Ok (note (LSlot r' s) c1).

(** workflow_builder.rs 315-335 [set_buffer_for_operation] *)
Definition set_buffer (g : registry) (ns : list nat) (r : opref) (s : slot) (sc : nat) (c : con) : res con :=
  let? c1 := set_input g ns r s sc c in
  let r' := in_ns ns r in
  match look (c_bufs c1) r' with
  | Some _ => Err (EDuplicateBuffers r')
  | None => Ok (set_bufs (put (c_bufs c1) r' (BVal s)) c1)
  end.

Fixpoint mem (r : opref) (l : list opref) : bool :=
  match l with
  | [] => false
  | x :: l' => if opref_eq_dec r x then true else mem r l'
  end.

(** workflow_builder.rs 343-360: follow buffer references; the number of steps
    is bounded by the number of buffers because [visited] grows. [None] is a
    missing buffer or a circle. *)
Fixpoint find_buffer (fuel : nat) (bufs : list (opref * bufref)) (visited : list opref) (r : opref) : option slot :=
  match fuel with
  | 0 => None
  | S fuel' =>
      if mem r visited then None
      else match look bufs r with
           | None => None
           | Some (BVal s) => Some s
           | Some (BRef r') => find_buffer fuel' bufs (r :: visited) r'
           end
  end.

(** workflow_builder.rs 340-381 [create_buffer_map]: identifiers with buffers *)
Fixpoint buffer_map (ns : list nat) (c : con) (sel : list (nat * next_op)) : option (list (nat * slot)) :=
  match sel with
  | [] => Some []
  | (k, t) :: sel' =>
      match find_buffer (S (length (c_bufs c))) (c_bufs c) [] (in_ns ns (to_ref t)), buffer_map ns c sel' with
      | Some s, Some m => Some ((k, s) :: m)
      | _, _ => None
      end
  end.

Definition buf_types (m : list (nat * slot)) : list (nat * nat) :=
  map (fun p => (fst p, s_ty (snd p))) m.

(** ** Inferring message types *)

Definition std_slot (x : std) : slot :=
  match x with SSer s _ => s | SDe s _ => s | SBasic s => s end.

(** The [infer_input_type] functions (workflow_builder.rs 1048-1061, 1095-1102,
    1114-1121, 1139-1146, 1214-1220, 1267-1273; scope_schema.rs 218-228, 271-281,
    320-330) together with 174-190 [redirect_infer_input_type] and the
    [preferred_input_type] asked for by the only caller.  [fuel] bounds the
    length of a chain of redirects; [visited] makes it finite. *)
Fixpoint infer_conn (fuel : nat) (m : list (opref * target)) (visited : list opref) (k : connector)
  : res (option nat) :=
  let redirect (to : opref) :=
    match fuel with
    | 0 => Err ECircularRedirect
    | S fuel' =>
        if mem to visited then Err ECircularRedirect
        else match look m to with
             | Some t => infer_conn fuel' m (to :: visited) (t_conn t)
             | None => Ok None
             end
    end in
  match k with
  | KStd x => Ok (Some (s_ty (std_slot x)))
  | KDispose => Ok None
  | KCancel _ _ _ _ _ _ => Ok (Some TJson)
  | KRedirect to _ => redirect to
  | KRequest _ _ to x => match x with Some y => Ok (Some (s_ty (std_slot y))) | None => redirect to end
  | KResponse _ _ _ _ to x => match x with Some y => Ok (Some (s_ty (std_slot y))) | None => redirect to end
  | KStream _ _ to x => match x with Some y => Ok (Some (s_ty (std_slot y))) | None => redirect to end
  end.

(** workflow_builder.rs 116-141 [infer_input_type_into_target] *)
Definition infer_into (ns : list nat) (r : opref) (c : con) : res (option nat) :=
  let id := in_ns ns r in
  let? pref := match look (c_conns c) id with
               | Some t => infer_conn (S (length (c_conns c))) (c_conns c) [id] (t_conn t)
               | None => Ok None
               end in
  match pref with
  | Some ty => Ok (Some ty)
  | None => Ok (match look (c_outs c) id with
                | Some (o :: _) => Some (o_ty o)
                | _ => None
                end)
  end.

Fixpoint exact_hints (l : list (option nat)) : list nat :=
  match l with
  | [] => []
  | Some t :: l' => t :: exact_hints l'
  | None :: l' => exact_hints l'
  end.

(** workflow_builder.rs 143-169 [infer_buffer_message_type_from_hints] *)
Definition infer_hints (ns : list nat) (r : opref) (c : con) : res (option nat) :=
  match look (c_hints c) (in_ns ns r) with
  | None => Ok None
  | Some hs =>
      match exact_hints hs with
      | [] => Ok None
      | t :: ts => if forallb (Nat.eqb t) ts then Ok (Some t) else Err EInconsistentHints
      end
  end.

(** workflow_builder.rs 399-445 [set_type_hints]; [None] from the registry is
    CannotAccessBuffers, CannotListen or an incompatible layout. *)
Fixpoint add_hints (ns : list nat) (sel : list (nat * next_op)) (hs : list (option nat)) (c : con) : con :=
  match sel, hs with
  | (_, t) :: sel', h :: hs' =>
      add_hints ns sel' hs' (set_hints (push (c_hints c) (in_ns ns (to_ref t)) h) c)
  | _, _ => c
  end.

Definition set_type_hints (hints : nat -> list nat -> option (list (option nat)))
  (ns : list nat) (ty : nat) (sel : list (nat * next_op)) (c : con) : res con :=
  match hints ty (map fst sel) with
  | None => Err ERefused
  | Some hs => Ok (add_hints ns sel hs c)
  end.

(** ** Connecting outputs into targets *)

(** dyn_node.rs 147-165 [DynOutput::connect_to] *)
Definition connect_to (o : output) (s : slot) (c : con) : res con :=
  if o_ty o =? s_ty s then Ok (note (LConnect o s) c) else Err (EMismatch (o_ty o) (s_ty s)).

(** serialization.rs 75-90, 125-140: a fallible conversion node with its
    [fork_result], as one element.  It is created in the scope of the builder. *)
Definition new_fallible (k : conv) (tin tout sc : nat) (c : con) : con * (slot * output * output) :=
  let '(c1, i) := spawn_slot tin sc c in
  let '(c2, ok) := spawn_output tout sc c1 in
  let '(c3, er) := spawn_output TString sc c2 in
  (note (LConv k i ok (Some er)) c3, (i, ok, er)).

(** registration.rs 771 (trigger), 1330-1331 (to_string): an infallible one *)
Definition new_plain (k : conv) (tin tout sc : nat) (c : con) : con * (slot * output) :=
  let '(c1, i) := spawn_slot tin sc c in
  let '(c2, out) := spawn_output tout sc c1 in
  (note (LConv k i out None) c2, (i, out)).

(** serialization.rs 233-269 [try_implicit_serialize]; [inr] of the inner sum
    is an output which cannot be serialized. *)
Definition try_serialize (g : registry) (imp : opref) (sc : nat) (s : slot) (inc : list (nat * slot))
  (o : output) (c : con) : res (con * option (list (nat * slot))) :=
  if o_ty o =? TJson then
    let? c1 := connect_to o s c in Ok (c1, Some inc)
  else
    match find (o_ty o) inc with
    | Some i => let? c1 := connect_to o i c in Ok (c1, Some inc)
    | None =>
        if r_ser g (o_ty o) then
          let '(c1, (i, ok, er)) := new_fallible CSerialize (o_ty o) TJson sc c in
          let? c2 := connect_to ok s c1 in
          let c3 := pass_output imp er c2 in
          let? c4 := connect_to o i c3 in
          Ok (c4, Some ((o_ty o, i) :: inc))
        else Ok (c, None)
    end.

(** serialization.rs 315-359 [implicit_deserialize] *)
Definition deserialize (g : registry) (imp : opref) (sc : nat) (s : slot) (ser : option slot)
  (o : output) (c : con) : res (con * option slot) :=
  if o_ty o =? s_ty s then
    let? c1 := connect_to o s c in Ok (c1, ser)
  else if o_ty o =? TJson then
    match ser with
    | Some i => let? c1 := connect_to o i c in Ok (c1, ser)
    | None =>
        if r_de g (s_ty s) then
          let '(c1, (i, ok, er)) := new_fallible CDeserialize TJson (s_ty s) sc c in
          let? c2 := connect_to ok s c1 in
          let c3 := pass_output imp er c2 in
          let? c4 := connect_to o i c3 in
          Ok (c4, Some i)
        else Err ERefused
    end
  else Err (EMismatch (o_ty o) (s_ty s)).

(** workflow_builder.rs 1086-1137: [connect_into_target] of the standard connectors *)
Definition std_connect (g : registry) (imp : opref) (sc : nat) (x : std) (o : output) (c : con)
  : res (con * std) :=
  match x with
  | SSer s inc =>
      let? p := try_serialize g imp sc s inc o c in
      match p with
      | (c1, Some inc') => Ok (c1, SSer s inc')
      | (_, None) => Err ERefused
      end
  | SDe s ser =>
      let? p := deserialize g imp sc s ser o c in
      let '(c1, ser') := p in Ok (c1, SDe s ser')
  | SBasic s => let? c1 := connect_to o s c in Ok (c1, SBasic s)
  end.

(** serialization.rs 387-419 [try_implicit_stringify] *)
Definition try_string (g : registry) (sc : nat) (s : slot) (inc : list (nat * slot)) (o : output) (c : con)
  : res (con * option (list (nat * slot))) :=
  if o_ty o =? TString then
    let? c1 := connect_to o s c in Ok (c1, Some inc)
  else
    match find (o_ty o) inc with
    | Some i => let? c1 := connect_to o i c in Ok (c1, Some inc)
    | None =>
        if negb (r_known g (o_ty o)) then Err ERefused
        else if r_string g (o_ty o) then
          let '(c1, (i, out)) := new_plain CString (o_ty o) TString sc c in
          let? c2 := connect_to out s c1 in
          let? c3 := connect_to o i c2 in
          Ok (c3, Some ((o_ty o, i) :: inc))
        else Ok (c, None)
    end.

(** workflow_builder.rs 1169-1212 [ConnectToCancel::connect_into_target] *)
Definition cancel_connect (g : registry) (imp : opref) (sc : nat) (quiet json string : slot)
  (js ss ts : list (nat * slot)) (o : output) (c : con) : res (con * connector) :=
  let? p := try_string g sc string ss o c in
  match p with
  | (c1, Some ss') => Ok (c1, KCancel quiet json string js ss' ts)
  | (_, None) =>
      let? q := try_serialize g imp sc json js o c in
      match q with
      | (c1, Some js') => Ok (c1, KCancel quiet json string js' ss ts)
      | (_, None) =>
          match find (o_ty o) ts with
          | Some i => let? c1 := connect_to o i c in Ok (c1, KCancel quiet json string js ss ts)
          | None =>
              if r_known g (o_ty o) then
                let '(c1, (i, out)) := new_plain CTrigger (o_ty o) TUnit sc c in
                let? c2 := connect_to out quiet c1 in
                let? c3 := connect_to o i c2 in
                Ok (c3, KCancel quiet json string js ss ((o_ty o, i) :: ts))
              else Err ERefused
          end
      end
  end.

(** [connect_into_target] of all connectors, for the target [r].  [sc] is the
    scope stored with the target (workflow_builder.rs 844-847).  [KRequest],
    [KResponse] and [KStream] are scope_schema.rs 188-216, 241-269, 295-318 with
    scope.rs 801-878: the first output decides the message type.  (A second call
    of [set_request] or [set_response] for the same scope does not happen,
    because the connector keeps its connection; hence no RequestMismatch.) *)
Definition connect_into (g : registry) (imp : opref) (r : opref) (sc : nat) (k : connector) (o : output)
  (c : con) : res (con * connector) :=
  match k with
  | KStd x => let? p := std_connect g imp sc x o c in Ok (fst p, KStd (snd p))
  | KDispose => Ok (c, KDispose)
  | KCancel q j s js ss ts => cancel_connect g imp sc q j s js ss ts o c
  | KRedirect to seen =>
      if existsb (Nat.eqb (o_id o)) seen then Err ECircularRedirect
      else Ok (pass_output to o c, KRedirect to (o_id o :: seen))
  | KRequest scid enter start (Some x) =>
      let? p := std_connect g imp sc x o c in Ok (fst p, KRequest scid enter start (Some (snd p)))
  | KRequest scid enter start None =>
      if r_known g (o_ty o) then
        let c2 := pass_output start {| o_id := enter; o_ty := o_ty o; o_scope := scid |} c in
        let i := {| s_id := scid; s_ty := o_ty o; s_scope := sc |} in
        let? p := std_connect g imp sc (standard g i) o (note (LSlot r i) c2) in
        Ok (fst p, KRequest scid enter start (Some (snd p)))
      else Err ERefused
  | KResponse scid term ex par next (Some x) =>
      let? p := std_connect g imp sc x o c in Ok (fst p, KResponse scid term ex par next (Some (snd p)))
  | KResponse scid term ex par next None =>
      if r_known g (o_ty o) then
        let c2 := pass_output next {| o_id := ex; o_ty := o_ty o; o_scope := par |} c in
        let i := {| s_id := term; s_ty := o_ty o; s_scope := scid |} in
        let? p := std_connect g imp sc (standard g i) o (note (LSlot r i) c2) in
        Ok (fst p, KResponse scid term ex par next (Some (snd p)))
      else Err ERefused
  | KStream scid par to (Some x) =>
      let? p := std_connect g imp sc x o c in Ok (fst p, KStream scid par to (Some (snd p)))
  | KStream scid par to None =>
      if r_known g (o_ty o) then
        let '(c1, i) := spawn_slot (o_ty o) scid c in
        let '(c2, out) := spawn_output (o_ty o) par c1 in
        let c3 := pass_output to out c2 in
        let? p := std_connect g imp sc (standard g i) o (note (LStream r i out) (note (LSlot r i) c3)) in
        Ok (fst p, KStream scid par to (Some (snd p)))
      else Err ERefused
  end.

(** ** Building one operation *)

(** The loops [for (target, output) in .. { ctx.add_output_into_target(target, output) }] *)
Fixpoint add_outputs (ns : list nat) (l : list (next_op * output)) (c : con) : con :=
  match l with
  | [] => c
  | (t, o) :: l' => add_outputs ns l' (add_output ns (to_ref t) o c)
  end.

(** Pair every target with a fresh output of the given type. *)
Fixpoint fresh_outputs (l : list (next_op * nat)) (sc : nat) (c : con) : con * list (next_op * output) :=
  match l with
  | [] => (c, [])
  | (t, ty) :: l' =>
      let '(c1, o) := spawn_output ty sc c in
      let '(c2, r) := fresh_outputs l' sc c1 in (c2, (t, o) :: r)
  end.

Definition declared (l : list (next_op * output)) : list (option next_op * output) :=
  map (fun p => (Some (fst p), snd p)) l.

(** The last steps common to most operations: set the input slot (if any), add
    the outputs. The order differs between the operations, which cannot be
    observed. [bufs] is only recorded. *)
Definition finish (g : registry) (u : unf) (inp : option nat) (bufs : list (nat * slot))
  (outs : list (next_op * nat)) (c : con) : res con :=
  let? p := match inp with
            | Some ty => let '(c0, s) := spawn_slot ty (u_scope u) c in
                         let? c1 := set_input g (u_ns u) (RNamed [] None (u_id u)) s (u_scope u) c0 in
                         Ok (c1, [(None, s)])
            | None => Ok (c, [])
            end in
  let '(c1, ins) := p in
  let '(c2, os) := fresh_outputs outs (u_scope u) c1 in
  Ok (note (LBuilt u ins bufs (declared os)) (add_outputs (u_ns u) os c2)).

(** node_schema.rs 99-111: every declared stream has to exist *)
Fixpoint named_streams (have : list (nat * nat)) (l : list (nat * next_op)) : option (list (next_op * nat)) :=
  match l with
  | [] => Some []
  | (n, t) :: l' =>
      match find n have, named_streams have l' with
      | Some ty, Some r => Some ((t, ty) :: r)
      | _, _ => None
      end
  end.

(** fork_clone_schema.rs 84-99: the type of the inputs, or else of the first
    target whose type can be inferred *)
Fixpoint infer_first (ns : list nat) (l : list opref) (c : con) : res (option nat) :=
  match l with
  | [] => Ok None
  | r :: l' =>
      let? a := infer_into ns r c in
      match a with Some ty => Ok (Some ty) | None => infer_first ns l' c end
  end.

(** workflow_builder.rs 478-499 [add_child_operation] *)
Definition add_children (u : unf) (ops : list (nat * op)) (sc : nat) (c : con) : con :=
  set_gen (c_gen c ++ map (fun p => {| u_id := fst p; u_ns := u_ns u ++ [u_id u]; u_op := snd p; u_scope := sc |}) ops) c.

(** workflow_builder.rs 516-526, 587-605 [redirect_to_child_input] for all inputs *)
Fixpoint child_inputs (u : unf) (l : list (nat * next_op)) (c : con) : res con :=
  match l with
  | [] => Ok c
  | (x, t) :: l' =>
      let? c1 := set_conn (RNamed (u_ns u) (Some (u_id u)) x)
                          (KRedirect (in_ns (u_ns u ++ [u_id u]) (to_ref t)) []) (u_scope u) c in
      child_inputs u l' c1
  end.

(** workflow_builder.rs 529-553 [redirect_to_child_buffer] for all buffers *)
Fixpoint child_buffers (u : unf) (l : list (nat * next_op)) (c : con) : res con :=
  match l with
  | [] => Ok c
  | (x, t) :: l' =>
      let exposed := RNamed (u_ns u) (Some (u_id u)) x in
      let inner := in_ns (u_ns u ++ [u_id u]) (to_ref t) in
      let? c1 := set_conn exposed (KRedirect inner []) (u_scope u) c in
      match look (c_bufs c1) exposed with
      | Some _ => Err (EDuplicateBuffers exposed)
      | None => child_buffers u l' (set_bufs (put (c_bufs c1) exposed (BRef inner)) c1)
      end
  end.

(** workflow_builder.rs 567-585 [redirect_exposed_output_to_sibling] for all
    outputs (section_schema.rs 178-188) *)
Fixpoint child_outputs (u : unf) (connect : list (nat * next_op)) (l : list nat) (c : con) : res con :=
  match l with
  | [] => Ok c
  | x :: l' =>
      let t := match find x connect with Some t => t | None => NBuiltin BDispose end in
      let? c1 := set_conn (RNamed (u_ns u ++ [u_id u]) None x)
                          (KRedirect (in_ns (u_ns u) (to_ref t)) []) (u_scope u) c in
      child_outputs u connect l' c1
  end.

(** The inputs of a section made by a builder (section_schema.rs 126-135) *)
Fixpoint section_inputs (g : registry) (u : unf) (l : list (nat * nat)) (c : con)
  : res (con * list (option nat * slot)) :=
  match l with
  | [] => Ok (c, [])
  | (x, ty) :: l' =>
      let '(c0, s) := spawn_slot ty (u_scope u) c in
      let? c1 := set_input g (u_ns u) (RNamed [] (Some (u_id u)) x) s (u_scope u) c0 in
      let? q := section_inputs g u l' c1 in
      Ok (fst q, (Some x, s) :: snd q)
  end.

(** Its buffers (section_schema.rs 149-158) *)
Fixpoint section_buffers (g : registry) (u : unf) (l : list (nat * nat)) (c : con)
  : res (con * list (option nat * slot)) :=
  match l with
  | [] => Ok (c, [])
  | (x, ty) :: l' =>
      let '(c0, s) := spawn_slot ty (u_scope u) c in
      let? c1 := set_buffer g (u_ns u) (RNamed [] (Some (u_id u)) x) s (u_scope u) c0 in
      let? q := section_buffers g u l' c1 in
      Ok (fst q, (Some x, s) :: snd q)
  end.

(** Its outputs, those which are connected (section_schema.rs 143-147) *)
Fixpoint section_targets (connect : list (nat * next_op)) (l : list (nat * nat)) : list (next_op * nat) :=
  match l with
  | [] => []
  | (x, ty) :: l' =>
      match find x connect with
      | Some t => (t, ty) :: section_targets connect l'
      | None => section_targets connect l'
      end
  end.

(** section_schema.rs 137-141, 172-176 *)
Fixpoint unknown_output (connect : list (nat * next_op)) (have : list nat) : option nat :=
  match connect with
  | [] => None
  | (x, _) :: l => if existsb (Nat.eqb x) have then unknown_output l have else Some x
  end.

(** The streams of a scope (scope_schema.rs 138-148) *)
Fixpoint scope_streams (u : unf) (sc : nat) (l : list (nat * next_op)) (c : con) : res con :=
  match l with
  | [] => Ok c
  | (n, t) :: l' =>
      let? c1 := set_conn (in_ns (u_ns u) (RStream [u_id u] n))
                          (KStream sc (u_scope u) (in_ns (u_ns u) (to_ref t)) None) (u_scope u) c in
      scope_streams u sc l' c1
  end.

(** [build_diagram_operation] of every operation; the answer is whether the
    operation is finished ([BuildStatus], workflow_builder.rs 610-622).  No
    operation defers with progress. *)
Definition build_op (g : registry) (tm : list (nat * template)) (imp : opref) (u : unf) (c : con)
  : res (con * bool) :=
  let ns := u_ns u in
  let sc := u_scope u in
  let self := RNamed [] None (u_id u) in
  let done (r : res con) : res (con * bool) := let? c1 := r in Ok (c1, true) in
  let defer : res (con * bool) := Ok (c, false) in
  match u_op u with
  | ONode b next streams =>
      (* node_schema.rs 82-114 *)
      match r_node g b with
      | None => Err ERefused
      | Some (q, p, have) =>
          match named_streams have streams with
          | None => Err ERefused
          | Some outs => done (finish g u (Some q) [] ((next, p) :: outs) c)
          end
      end
  | OFork nexts =>
      (* fork_clone_schema.rs 78-114 *)
      let? a := infer_first ns (self :: map to_ref nexts) c in
      match a with
      | None => defer
      | Some ty =>
          if r_clone g ty then done (finish g u (Some ty) [] (map (fun t => (t, ty)) nexts) c)
          else Err ERefused
      end
  | OUnzip nexts =>
      (* unzip_schema.rs 93-124 *)
      let? a := infer_into ns self c in
      match a with
      | None => defer
      | Some ty =>
          match r_unzip g ty with
          | None => Err ERefused
          | Some tys =>
              if length tys =? length nexts
              then done (finish g u (Some ty) [] (combine nexts tys) c)
              else Err ERefused
          end
      end
  | OResult ok er =>
      (* fork_result_schema.rs 67-95 *)
      let? a := infer_into ns self c in
      match a with
      | None => defer
      | Some ty =>
          match r_result g ty with
          | None => Err ERefused
          | Some (t1, t2) => done (finish g u (Some ty) [] [(ok, t1); (er, t2)] c)
          end
      end
  | OSplit keyed seq rem =>
      (* split_schema.rs 118-141, 281-313 *)
      let? a := infer_into ns self c in
      match a with
      | None => defer
      | Some ty =>
          match r_split g ty (map fst keyed) (length seq) (match rem with Some _ => true | None => false end) with
          | None => Err ERefused
          | Some item =>
              done (finish g u (Some ty) []
                      (map (fun t => (t, item))
                           (map snd keyed ++ seq ++ match rem with Some t => [t] | None => [] end)) c)
          end
      end
  | OJoin next sel serialize =>
      (* join_schema.rs 101-147 *)
      match sel with
      | [] => Err EEmptyJoin
      | _ :: _ =>
          match buffer_map ns c sel with
          | None => defer
          | Some m =>
              if serialize then
                if r_join g TJson (buf_types m) then done (finish g u None m [(next, TJson)] c)
                else Err ERefused
              else
                let? a := infer_into ns (to_ref next) c in
                match a with
                | None => defer
                | Some ty =>
                    if r_join g ty (buf_types m) then done (finish g u None m [(next, ty)] c)
                    else Err ERefused
                end
          end
      end
  | OTransform next on_error =>
      (* transform_schema.rs 104-145: the error target is resolved (129) and then
         resolved again by add_output_into_target (138) *)
      let target := match on_error with Some t => in_ns ns (to_ref t) | None => imp end in
      let '(c1, er) := spawn_output TFailed sc c in
      let c2 := add_output ns target er c1 in
      let '(c3, s) := spawn_slot TJson sc c2 in
      let? c4 := set_input g ns self s sc c3 in
      let '(c5, ok) := spawn_output TJson sc c4 in
      Ok (note (LBuilt u [(None, s)] [] [(Some next, ok); (on_error, er)]) (add_output ns (to_ref next) ok c5), true)
  | OBuffer serialize =>
      (* buffer_schema.rs 109-148 *)
      let? a := if serialize then Ok (Some TJson)
                else let? b := infer_into ns self c in
                     match b with Some ty => Ok (Some ty) | None => infer_hints ns self c end in
      match a with
      | None => defer
      | Some ty =>
          if r_known g ty then
            let '(c1, s) := spawn_slot ty sc c in
            let? c2 := set_buffer g ns self s sc c1 in
            Ok (note (LBuilt u [(None, s)] [] []) c2, true)
          else Err ERefused
      end
  | OAccess next sel =>
      (* buffer_schema.rs 208-237 *)
      let? a := infer_into ns (to_ref next) c in
      match a with
      | None => defer
      | Some ty =>
          let? c1 := set_type_hints (r_access_hints g) ns ty sel c in
          match buffer_map ns c1 sel with
          | None => Ok (c1, false)
          | Some m =>
              match r_access g ty (buf_types m) with
              | None => Err ERefused
              | Some q => done (finish g u (Some q) m [(next, ty)] c1)
              end
          end
      end
  | OListen next sel =>
      (* buffer_schema.rs 292-320 *)
      let? a := infer_into ns (to_ref next) c in
      match a with
      | None => defer
      | Some ty =>
          let? c1 := set_type_hints (r_listen_hints g) ns ty sel c in
          match buffer_map ns c1 sel with
          | None => Ok (c1, false)
          | Some m =>
              if r_listen g ty (buf_types m) then done (finish g u None m [(next, ty)] c1)
              else Err ERefused
          end
      end
  | OStreamOut n =>
      (* stream_out_schema.rs 74-86 *)
      let? c1 := set_conn (in_ns ns self) (KRedirect (in_ns ns (RStream [] n)) []) sc c in
      Ok (note (LBuilt u [] [] []) c1, true)
  | OSection (PBuilder b) connect =>
      (* section_schema.rs 113-159, 193-199 *)
      match r_section g b with
      | None => Err ERefused
      | Some (ins, outs, bufs) =>
          let? p1 := section_inputs g u ins c in
          match unknown_output connect (map fst outs) with
          | Some x => Err (EUnknownOutput x)
          | None =>
              let '(c2, os) := fresh_outputs (section_targets connect outs) sc (fst p1) in
              let? p3 := section_buffers g u bufs (add_outputs ns os c2) in
              let? c4 := set_conn (in_ns ns (RTerminate [u_id u])) (KRedirect (RTerminate ns) []) sc (fst p3) in
              Ok (note (LBuilt u (snd p1 ++ snd p3) [] (declared os)) c4, true)
          end
      end
  | OSection (PTemplate t) connect =>
      (* section_schema.rs 160-199 *)
      match find t tm with
      | None => Err (EUnknownTemplate t)
      | Some T =>
          let c1 := add_children u (t_ops T) sc c in
          let? c2 := child_inputs u (t_inputs T) c1 in
          let? c3 := child_buffers u (t_buffers T) c2 in
          match unknown_output connect (t_outputs T) with
          | Some x => Err (EUnknownOutput x)
          | None =>
              let? c4 := child_outputs u connect (t_outputs T) c3 in
              let? c5 := set_conn (in_ns ns (RTerminate [u_id u])) (KRedirect (RTerminate ns) []) sc c4 in
              Ok (note (LBuilt u [] [] []) c5, true)
          end
      end
  | OScope start ops streams next =>
      (* scope_schema.rs 130-180, scope.rs 748-791 *)
      let '(c1, scid) := spawn c in
      let '(c2, ex) := spawn c1 in
      let '(c3, enter) := spawn c2 in
      let '(c4, term) := spawn c3 in
      let c5 := note (LScope u scid enter term ex) c4 in
      let? c6 := scope_streams u scid streams c5 in
      let c7 := add_children u ops scid c6 in
      let? c8 := set_conn (in_ns ns self)
                   (KRequest scid enter (in_ns ns (in_ns [u_id u] (to_ref start))) None) sc c7 in
      let? c9 := set_conn (in_ns ns (RTerminate [u_id u]))
                   (KResponse scid term ex sc (in_ns ns (to_ref next)) None) sc c8 in
      Ok (note (LBuilt u [] [] []) c9, true)
  end.

(** ** The whole construction *)

(** workflow_builder.rs 791-826: build all operations once.  [waiting] are the
    deferred operations, [seen] the deferred statuses (never cleared), [prog]
    is [made_progress]. *)
Fixpoint build_all (g : registry) (tm : list (nat * template)) (imp : opref) (todo waiting : list unf)
  (seen : list opref) (prog : bool) (c : con) : res (con * list unf * list opref * bool) :=
  match todo with
  | [] => Ok (c, waiting, seen, prog)
  | u :: todo' =>
      let? p := build_op g tm imp u c in
      let '(c1, fin) := p in
      let waiting1 := waiting ++ c_gen c1 in
      let prog1 := prog || negb (match c_gen c1 with [] => true | _ => false end) || fin in
      let c2 := set_gen [] c1 in
      if fin then build_all g tm imp todo' waiting1 seen prog1 c2
      else build_all g tm imp todo' (waiting1 ++ [u]) (seen ++ [u_ref u]) prog1 c2
  end.

(** workflow_builder.rs 871-877: give all outputs waiting for one target to its
    connector *)
Fixpoint hand_all (g : registry) (imp : opref) (r : opref) (sc : nat) (k : connector) (os : list output)
  (c : con) : res (con * connector) :=
  match os with
  | [] => Ok (c, k)
  | o :: os' =>
      let? p := connect_into g imp r sc k o (note (LHand r o) c) in
      let '(c1, k1) := p in hand_all g imp r sc k1 os' c1
  end.

(** workflow_builder.rs 834-878: one pass over the drained outputs. [idle] says
    that no operation is unfinished; [deferred] collects the outputs whose
    target has no connector yet. *)
Fixpoint pass (g : registry) (imp : opref) (idle : bool) (drained deferred : list (opref * list output))
  (prog : bool) (c : con) : res (con * list (opref * list output) * bool) :=
  match drained with
  | [] => Ok (c, deferred, prog)
  | (r, os) :: rest =>
      match look (c_conns c) r with
      | None =>
          if idle then Err (EUnknownOperation r)
          else pass g imp idle rest (put deferred r os) prog c
      | Some t =>
          let? p := hand_all g imp r (t_scope t) (t_conn t) os c in
          let '(c1, k1) := p in
          pass g imp idle rest deferred (prog || match os with [] => false | _ => true end)
               (set_conns (put (c_conns c1) r {| t_conn := k1; t_scope := t_scope t |}) c1)
      end
  end.

(** workflow_builder.rs 886-888 [HashMap::extend]: an entry of the second map
    replaces an entry with the same key; what was replaced is lost. *)
Fixpoint extend (deferred : list (opref * list output)) (c : con) : con :=
  match deferred with
  | [] => c
  | (r, os) :: rest =>
      let c1 := match look (c_outs c) r with
                | Some lost => set_log (c_log c ++ map (LLost r) lost) c
                | None => c
                end in
      extend rest (set_outs (put (c_outs c1) r os) c1)
  end.

(** workflow_builder.rs 833-904: the connect loop. [ord] is the order in which
    [HashMap::drain] visits the entries (an arbitrary one for every pass, because
    [left] is different for every pass); [left] is what is left of
    MAX_ITERATIONS. *)
Fixpoint connect_loop (g : registry) (imp : opref) (ord : nat -> list (opref * list output) -> list (opref * list output))
  (idle : bool) (left : nat) (prog : bool) (c : con) : res (con * bool * nat) :=
  let? p := pass g imp idle (ord left (c_outs c)) [] prog (set_outs [] c) in
  let '(c1, deferred, prog1) := p in
  let new := match c_new c1 with [] => false | _ => true end in
  let c2 := extend deferred (set_new [] (set_outs (c_new c1) c1)) in
  match left with
  | 0 => Err EExcessive
  | S left' => if new then connect_loop g imp ord idle left' prog1 c2 else Ok (c2, prog1, left')
  end.

(** workflow_builder.rs 76-85 [has_outputs] *)
Fixpoint has_outputs (m : list (opref * list output)) : bool :=
  match m with
  | [] => false
  | (_, []) :: m' => has_outputs m'
  | (_, _ :: _) :: _ => true
  end.

Definition is_nil {A} (l : list A) : bool := match l with [] => true | _ => false end.

(** workflow_builder.rs 788-923: the construction loop. Every round takes at
    least two of MAX_ITERATIONS, so [fuel] is never the reason for stopping if
    it is larger than [left] at the beginning. *)
Fixpoint build_loop (g : registry) (tm : list (nat * template)) (imp : opref)
  (ord : nat -> list (opref * list output) -> list (opref * list output))
  (fuel left : nat) (todo : list unf) (seen : list opref) (c : con) : res con :=
  if is_nil todo && negb (has_outputs (c_outs c)) then Ok c
  else
    match fuel with
    | 0 => Err EExcessive
    | S fuel' =>
        let? p := build_all g tm imp todo [] seen false c in
        let '(c1, todo1, seen1, prog) := p in
        let? q := connect_loop g imp ord (is_nil todo1) left prog c1 in
        let '(c2, prog1, left1) := q in
        if prog1 then
          match left1 with
          | 0 => Err EExcessive
          | S left2 => build_loop g tm imp ord fuel' left2 todo1 seen1 c2
          end
        else Err (EBuildHalted seen1)
    end.

(** scope_schema.rs 230-232, scope.rs 880-890: a scope is finished when both its
    request and its response were connected.  The response flag lives in the
    builder shared with the terminate connector. *)
Definition responded (m : list (opref * target)) (scid : nat) : bool :=
  existsb (fun r => match look m r with
                    | Some {| t_conn := KResponse sc _ _ _ _ (Some _) |} => sc =? scid
                    | _ => false
                    end) (map fst m).

Definition unfinished (m : list (opref * target)) : list opref :=
  filter (fun r => match look m r with
                   | Some {| t_conn := KRequest sc _ _ None |} => true
                   | Some {| t_conn := KRequest sc _ _ (Some _) |} => negb (responded m sc)
                   | _ => false
                   end) (map fst m).

(** workflow_builder.rs 992-1035 [initialize_builtin_operations]: the workflow
    has request type [q], response type [p] and named streams [ss]; its scope is
    number 0. *)
Fixpoint root_streams (g : registry) (ss : list (nat * nat)) (c : con) : res con :=
  match ss with
  | [] => Ok c
  | (n, ty) :: ss' =>
      let '(c0, s) := spawn_slot ty 0 c in
      let? c1 := set_input g [] (RStream [] n) s 0 c0 in
      root_streams g ss' c1
  end.

Definition init (g : registry) (start : next_op) (q p : nat) (ss : list (nat * nat)) : res con :=
  let '(c1, o) := spawn_output q 0 empty_con in
  let c2 := add_output [] (to_ref start) o c1 in
  let '(c3, t) := spawn_slot p 0 c2 in
  let? c4 := set_input g [] (RTerminate []) t 0 c3 in
  let? c5 := root_streams g ss c4 in
  let? c6 := set_conn RDispose KDispose 0 c5 in
  let '(c7, quiet) := spawn_slot TUnit 0 c6 in
  let '(c8, json) := spawn_slot TJson 0 c7 in
  let '(c9, string) := spawn_slot TString 0 c8 in
  let c10 := note (LSlot (RCancel []) string) (note (LSlot (RCancel []) json) (note (LSlot (RCancel []) quiet) c9)) in
  set_conn (RCancel []) (KCancel quiet json string [] [] []) 0 c10.

(** diagram.rs 89 [RESERVED_OPERATION_NAMES]: "" and "builtin" *)
Definition reserved (n : nat) : bool := n <? 2.

(** diagram.rs 597-601, 661-691 [validate_operation_names] *)
Definition validate_names (d : diagram) : option nat :=
  let bad (l : list nat) := List.find reserved l in
  match bad (map fst (d_ops d)) with
  | Some n => Some n
  | None =>
      bad (flat_map (fun p => fst p :: map fst (t_ops (snd p))) (d_templates d))
  end.

(** The templates of the sections of a template (diagram.rs 705-716) *)
Fixpoint section_templates (l : list (nat * op)) : list nat :=
  match l with
  | [] => []
  | (_, OSection (PTemplate t) _) :: l' => t :: section_templates l'
  | _ :: l' => section_templates l'
  end.

(** diagram.rs 693-747 [check_circular_template_dependency]: depth first, the
    last child first; every child is checked against the templates used on the
    way to it before any child is visited.  [fuel] bounds the depth: the used
    templates are different from each other. *)
Fixpoint check_template (fuel : nat) (tm : list (nat * template)) (used : list nat) (t : nat) : res unit :=
  match find t tm with
  | None => Err (EUnknownTemplate t)
  | Some T =>
      let kids := section_templates (t_ops T) in
      match List.find (fun k => existsb (Nat.eqb k) used) kids with
      | Some _ => Err (ECircularTemplate used)
      | None =>
          match fuel with
          | 0 => match kids with [] => Ok tt | _ => Err (ECircularTemplate used) end
          | S fuel' =>
              fold_right (fun k (acc : res unit) =>
                            let? _ := acc in check_template fuel' tm (k :: used) k) (Ok tt) kids
          end
      end
  end.

(** diagram.rs 603-620 [validate_template_usage] *)
Definition validate_templates (d : diagram) : res unit :=
  fold_left (fun (acc : res unit) t =>
               let? _ := acc in check_template (length (d_templates d)) (d_templates d) [t] t)
            (section_templates (d_ops d)) (Ok tt).

Definition implicit (d : diagram) : opref :=
  match d_implicit d with Some t => to_ref t | None => RCancel [] end.

Definition top (p : nat * op) : unf := {| u_id := fst p; u_ns := []; u_op := snd p; u_scope := 0 |}.

(** workflow_builder.rs 728-936 [create_workflow]; [max] is MAX_ITERATIONS *)
Definition create_workflow (g : registry) (ord : nat -> list (opref * list output) -> list (opref * list output))
  (max : nat) (d : diagram) (q p : nat) (ss : list (nat * nat)) : res con :=
  match validate_names d with
  | Some n => Err (EReserved n)
  | None =>
      let? _ := validate_templates d in
      let? c := init g (d_start d) q p ss in
      let? c1 := build_loop g (d_templates d) (implicit d) ord (S max) max (map top (d_ops d)) [] c in
      match unfinished (c_conns c1) with
      | [] => Ok c1
      | rs => Err (EFinishing rs)
      end
  end.
