(** * The registry of diagram elements: which messages, nodes and sections a
    diagram can use, and what can be done with each type of message.

    Models src/diagram/registration.rs and the [on_register] functions of
    src/diagram/{serialization,fork_clone_schema,fork_result_schema,unzip_schema,split_schema}.rs.

    Types of messages, ids of builders and names are numbers.  A function of the
    registry which is generic in a type is represented by the type for which it
    was made ([option nat]: [Some t] for the instance at [t]). *)

From Coq Require Import List Arith Bool.
Import ListNotations.

(** The parts of types that the traits give: [Vec<T>]; the elements of a tuple
    (unzip_schema.rs 149-153); the types of [Ok] and [Err] (fork_result_schema.rs
    101-107); [Splittable::Item] (split_schema.rs 274-279).  They are
    functions of the type because each trait is implemented once for a type. *)
Record rust := {
  vec_of : nat -> nat;
  parts_of : nat -> list nat;
  ok_of : nat -> nat;
  err_of : nat -> nat;
  item_of : nat -> nat
}.

(** registration.rs 729-748 [MessageOperation] and 874-879 [MessageRegistration].
    [m_made] is the type for which [MessageRegistration::new] was called: it
    decides the name and the functions for buffers, triggers and scopes
    (768-772, 887-889).  Hints are set together with access and listening and
    have no fields of their own.  Tracing is left out. *)
Record mreg := {
  m_made : nat;
  m_schema : option nat;
  m_de : option nat;
  m_ser : option nat;
  m_clone : option nat;
  m_unzip : option nat;
  m_result : option nat;
  m_split : option nat;
  m_join : option nat;
  m_access : option nat;
  m_listen : option nat;
  m_string : option nat
}.

(** registration.rs 750-778, 881-892 *)
Definition mreg_new (t : nat) : mreg :=
  {| m_made := t; m_schema := None; m_de := None; m_ser := None; m_clone := None;
     m_unzip := None; m_result := None; m_split := None; m_join := None;
     m_access := None; m_listen := None; m_string := None |}.

Definition set_schema r x := {| m_made := m_made r; m_schema := x; m_de := m_de r; m_ser := m_ser r; m_clone := m_clone r; m_unzip := m_unzip r; m_result := m_result r; m_split := m_split r; m_join := m_join r; m_access := m_access r; m_listen := m_listen r; m_string := m_string r |}.
Definition set_de r x := {| m_made := m_made r; m_schema := m_schema r; m_de := x; m_ser := m_ser r; m_clone := m_clone r; m_unzip := m_unzip r; m_result := m_result r; m_split := m_split r; m_join := m_join r; m_access := m_access r; m_listen := m_listen r; m_string := m_string r |}.
Definition set_ser r x := {| m_made := m_made r; m_schema := m_schema r; m_de := m_de r; m_ser := x; m_clone := m_clone r; m_unzip := m_unzip r; m_result := m_result r; m_split := m_split r; m_join := m_join r; m_access := m_access r; m_listen := m_listen r; m_string := m_string r |}.
Definition set_clone r x := {| m_made := m_made r; m_schema := m_schema r; m_de := m_de r; m_ser := m_ser r; m_clone := x; m_unzip := m_unzip r; m_result := m_result r; m_split := m_split r; m_join := m_join r; m_access := m_access r; m_listen := m_listen r; m_string := m_string r |}.
Definition set_unzip r x := {| m_made := m_made r; m_schema := m_schema r; m_de := m_de r; m_ser := m_ser r; m_clone := m_clone r; m_unzip := x; m_result := m_result r; m_split := m_split r; m_join := m_join r; m_access := m_access r; m_listen := m_listen r; m_string := m_string r |}.
Definition set_result r x := {| m_made := m_made r; m_schema := m_schema r; m_de := m_de r; m_ser := m_ser r; m_clone := m_clone r; m_unzip := m_unzip r; m_result := x; m_split := m_split r; m_join := m_join r; m_access := m_access r; m_listen := m_listen r; m_string := m_string r |}.
Definition set_split r x := {| m_made := m_made r; m_schema := m_schema r; m_de := m_de r; m_ser := m_ser r; m_clone := m_clone r; m_unzip := m_unzip r; m_result := m_result r; m_split := x; m_join := m_join r; m_access := m_access r; m_listen := m_listen r; m_string := m_string r |}.
Definition set_join r x := {| m_made := m_made r; m_schema := m_schema r; m_de := m_de r; m_ser := m_ser r; m_clone := m_clone r; m_unzip := m_unzip r; m_result := m_result r; m_split := m_split r; m_join := x; m_access := m_access r; m_listen := m_listen r; m_string := m_string r |}.
Definition set_access r x := {| m_made := m_made r; m_schema := m_schema r; m_de := m_de r; m_ser := m_ser r; m_clone := m_clone r; m_unzip := m_unzip r; m_result := m_result r; m_split := m_split r; m_join := m_join r; m_access := x; m_listen := m_listen r; m_string := m_string r |}.
Definition set_listen r x := {| m_made := m_made r; m_schema := m_schema r; m_de := m_de r; m_ser := m_ser r; m_clone := m_clone r; m_unzip := m_unzip r; m_result := m_result r; m_split := m_split r; m_join := m_join r; m_access := m_access r; m_listen := x; m_string := m_string r |}.
Definition set_string r x := {| m_made := m_made r; m_schema := m_schema r; m_de := m_de r; m_ser := m_ser r; m_clone := m_clone r; m_unzip := m_unzip r; m_result := m_result r; m_split := m_split r; m_join := m_join r; m_access := m_access r; m_listen := m_listen r; m_string := x |}.

(** registration.rs 58-71 [NodeRegistration] without texts and examples; [n_builder]
    stands for the function of the user, [n_config] for the type [Config] *)
Record nreg := {
  n_request : nat;
  n_response : nat;
  n_streams : list (nat * nat);
  n_config : nat;
  n_builder : nat
}.

(** registration.rs 655-665 [SectionRegistration]: [s_config] is the type that the
    function of the user takes, [s_schema] the type whose schema is published *)
Record sreg := {
  s_config : nat;
  s_schema : nat;
  s_builder : nat
}.

(** registration.rs 719-727 [DiagramElementRegistry], 894-901 [MessageRegistry].
    [json] and [cloned] are not part of the registry: they stand for the static
    tables of [JsonBuffer::register_for] and
    [CloneFromBuffer::register_clone_for_join], common to all registries. *)
Record state := {
  messages : nat -> option mreg;
  nodes : nat -> option nreg;
  sections : nat -> option sreg;
  json : nat -> bool;
  cloned : nat -> bool
}.

Definition upd {A} (f : nat -> A) (k : nat) (v : A) : nat -> A :=
  fun x => if Nat.eqb x k then v else f x.

Definition with_messages st m :=
  {| messages := m; nodes := nodes st; sections := sections st; json := json st; cloned := cloned st |}.
Definition with_nodes st n :=
  {| messages := messages st; nodes := n; sections := sections st; json := json st; cloned := cloned st |}.
Definition with_sections st s :=
  {| messages := messages st; nodes := nodes st; sections := s; json := json st; cloned := cloned st |}.
Definition with_json st j :=
  {| messages := messages st; nodes := nodes st; sections := sections st; json := j; cloned := cloned st |}.
Definition with_cloned st c :=
  {| messages := messages st; nodes := nodes st; sections := sections st; json := json st; cloned := c |}.

(** [entry(TypeInfo::of::<T>()).or_insert(MessageRegistration::new::<M>())] *)
Definition entry (st : state) (t made : nat) : mreg :=
  match messages st t with Some r => r | None => mreg_new made end.

Definition put (st : state) (t : nat) (r : mreg) : state :=
  with_messages st (upd (messages st) t (Some r)).

(** ** One ability of one type *)

Definition add_schema (r : mreg) (t : nat) : mreg :=
  match m_schema r with Some _ => r | None => set_schema r (Some t) end.

(** serialization.rs 63-104 and 150-154 ([supported] is the type parameter) *)
Definition register_serialize (supported : bool) (t : nat) (st : state) : state :=
  if supported then put st t (add_schema (set_ser (entry st t t) (Some t)) t) else st.

(** serialization.rs 113-148 and 156-163 *)
Definition register_deserialize (supported : bool) (t : nat) (st : state) : state :=
  if supported then put st t (add_schema (set_de (entry st t t) (Some t)) t) else st.

(** registration.rs 1014-1031, fork_clone_schema.rs 116-147.  The entry is made
    even when cloning is not supported. *)
Definition register_clone (supported : bool) (t : nat) (st : state) : state :=
  let r := entry st t t in
  if negb supported || match m_clone r with Some _ => true | None => false end
  then put st t r
  else with_cloned (put st t (set_clone r (Some t))) (upd (cloned st) t true).

(** serialization.rs 165-205, json_buffer.rs 114-121 *)
Definition register_json (ser de : bool) (t : nat) (st : state) : state :=
  if ser && de then with_json st (upd (json st) t true) else st.

(** registration.rs 1206-1223 *)
Definition register_join (t : nat) (st : state) : state :=
  let r := entry st t t in
  match m_join r with
  | Some _ => put st t r
  | None => put st t (set_join r (Some t))
  end.

(** registration.rs 1250-1272 *)
Definition register_buffer_access (t : nat) (st : state) : state :=
  let r := entry st t t in
  match m_access r with
  | Some _ => put st t r
  | None => put st t (set_access r (Some t))
  end.

(** registration.rs 1299-1318 *)
Definition register_listen (t : nat) (st : state) : state :=
  let r := entry st t t in
  match m_listen r with
  | Some _ => put st t r
  | None => put st t (set_listen r (Some t))
  end.

(** registration.rs 1320-1332 *)
Definition register_to_string (t : nat) (st : state) : state :=
  put st t (set_string (entry st t t) (Some t)).

Section Rust.
Context (R : rust).

(** unzip_schema.rs 172-180 *)
Definition unzip_on_register (full : bool) (t : nat) (st : state) : state :=
  fold_left (fun st p => register_clone full p (register_serialize full p st)) (parts_of R t) st.

(** registration.rs 1046-1067.  [full] says whether [Serializer] and [Cloneable]
    are [Supported]; the public functions set both in the same way (361, 371). *)
Definition register_unzip (full : bool) (t : nat) (st : state) : state :=
  let st := unzip_on_register full t st in
  let r := entry st t t in
  match m_unzip r with
  | Some _ => put st t r
  | None => put st t (set_unzip r (Some t))
  end.

(** fork_result_schema.rs 108-134.  A new entry is made for the type of [Ok]
    (line 112), not for the type of the result itself. *)
Definition register_result (full : bool) (t : nat) (st : state) : state :=
  let r := entry st t (ok_of R t) in
  match m_result r with
  | Some _ => put st t r
  | None =>
      let st := put st t (set_result r (Some t)) in
      let st := register_serialize full (ok_of R t) st in
      let st := register_clone full (ok_of R t) st in
      let st := register_serialize full (err_of R t) st in
      register_clone full (err_of R t) st
  end.

(** split_schema.rs 315-328 *)
Definition register_split (full : bool) (t : nat) (st : state) : state :=
  let st := put st t (set_split (entry st t t) (Some t)) in
  let st := register_serialize full (item_of R t) st in
  let st := register_clone full (item_of R t) st in
  let st := register_serialize full (vec_of R (item_of R t)) st in
  register_clone full (vec_of R (item_of R t)) st.

(** registration.rs 272-291 *)
Definition impl_register_message (d s c : bool) (t : nat) (st : state) : state :=
  let st := register_deserialize d t st in
  let st := register_serialize s t st in
  let st := register_clone c t st in
  register_json s d t st.

(** registration.rs 345-353 [MessageRegistrationBuilder::new] *)
Definition message_builder (t : nat) (st : state) : state :=
  register_join (vec_of R t) st.

(** The functions of [MessageRegistrationBuilder], registration.rs 357-451.  [full = false]
    stands for the functions whose names end in [_minimal]. *)
Inductive mop :=
| WithUnzip (full : bool)
| WithResult (full : bool)
| WithSplit (full : bool)
| WithJoin
| WithBufferAccess
| WithListen
| WithToString.

Definition run_mop (t : nat) (st : state) (o : mop) : state :=
  match o with
  | WithUnzip full => register_unzip full t st
  | WithResult full => register_result full t st
  | WithSplit full => register_split full t st
  | WithJoin => register_join t st
  | WithBufferAccess => register_buffer_access t st
  | WithListen => register_listen t st
  | WithToString => register_to_string t st
  end.

(** registration.rs 260-270 and 1489-1494 *)
Definition register_message (d s c : bool) (t : nat) (st : state) : state :=
  message_builder t (impl_register_message d s c t st).

(** The functions of [NodeRegistrationBuilder], registration.rs 474-641.
    [full = false] stands for [with_unzip_unserializable], [with_result_minimal]
    and [with_split_unserializable]. *)
Inductive nop :=
| NCommonRequest
| NCloneRequest
| NDeserializeRequest
| NCommonResponse
| NCloneResponse
| NSerializeResponse
| NUnzip (full : bool)
| NResult (full : bool)
| NSplit (full : bool)
| NJoin
| NBufferAccess
| NListen
| NRequestToString
| NResponseToString.

Definition run_nop (req resp : nat) (st : state) (o : nop) : state :=
  match o with
  | NCommonRequest => register_message true true true req st
  | NCloneRequest => register_clone true req st
  | NDeserializeRequest => register_deserialize true req st
  | NCommonResponse => register_message true true true resp st
  | NCloneResponse => register_clone true resp st
  | NSerializeResponse => register_serialize true resp st
  | NUnzip full => run_mop resp (message_builder resp st) (WithUnzip full)
  | NResult full => run_mop resp (message_builder resp st) (WithResult full)
  | NSplit full => run_mop resp (message_builder resp st) (WithSplit full)
  | NJoin => register_join req st
  | NBufferAccess => register_buffer_access req st
  | NListen => register_listen req st
  | NRequestToString => register_to_string req st
  | NResponseToString => register_to_string resp st
  end.

(** registration.rs 201-257: the types of the streams are noted, but not registered *)
Definition register_node (d s c : bool) (id : nat) (n : nreg) (st : state) : state :=
  let st := impl_register_message d s c (n_request n) st in
  let st := impl_register_message d s c (n_response n) st in
  with_nodes st (upd (nodes st) id (Some n)).

(** The type [()] *)
Definition t_unit : nat := 0.

(** registration.rs 696-716 and 1503-1515: the published schema is always that of
    [()] (708).  What the section registers for itself in [Section::on_register]
    are further calls: a call for a section is followed by them. *)
Definition register_section (id config builder : nat) (st : state) : state :=
  with_sections st
    (upd (sections st) id (Some {| s_config := config; s_schema := t_unit; s_builder := builder |})).

(** What a user does with a registry.  [d], [s], [c]: deserializing, serializing,
    cloning have not been opted out of (registration.rs 293-333). *)
Inductive call :=
| CMessage (d s c : bool) (t : nat) (ops : list mop)
| CNode (d s c : bool) (id : nat) (n : nreg) (ops : list nop)
| CSection (id config builder : nat).

Definition run_call (st : state) (x : call) : state :=
  match x with
  | CMessage d s c t ops => fold_left (run_mop t) ops (register_message d s c t st)
  | CNode d s c id n ops =>
      fold_left (run_nop (n_request n) (n_response n)) ops (register_node d s c id n st)
  | CSection id config builder => register_section id config builder st
  end.

Definition run (st : state) (xs : list call) : state := fold_left run_call xs st.

(** The type [serde_json::Value] *)
Definition t_json : nat := 1.

(** registration.rs 904-915, 1406-1414 [DiagramElementRegistry::blank]; [j] and [c] are
    what earlier registries have left in the static tables *)
Definition blank (j c : nat -> bool) : state :=
  {| messages := upd (fun _ => None) t_json (Some (mreg_new t_json));
     nodes := fun _ => None;
     sections := fun _ => None;
     json := upd j t_unit true;
     cloned := c |}.

(** registration.rs 1602-1630: [TransformError] is type 2; the other types are
    [String], [u8], ..., [char], numbered 3..17, and [()] *)
Definition t_transform_error : nat := 2.
Definition builtin : list call :=
  CMessage true true true t_json [WithJoin; WithSplit true]
  :: CMessage false false false t_transform_error [WithToString]
  :: map (fun t => CMessage true true true t []) (seq 3 15 ++ [t_unit]).

(** registration.rs 1380-1401 [DiagramElementRegistry::new] *)
Definition new_registry (j c : nat -> bool) : state := run (blank j c) builtin.

End Rust.

(** ** Using the registry *)

(** error.rs [DiagramErrorCode]: those that the functions below return *)
Inductive error :=
| NotSerializable (t : nat) | NotDeserializable (t : nat) | NotCloneable (t : nat)
| NotUnzippable (t : nat) | CannotForkResult (t : nat) | NotSplittable (t : nat)
| NotJoinable (t : nat) | CannotAccessBuffers (t : nat) | CannotListen (t : nat)
| UnregisteredType (t : nat) | BuilderNotFound (id : nat).

Definition field (f : mreg -> option nat) (st : state) (t : nat) (e : error) : nat + error :=
  match messages st t with
  | Some r => match f r with Some x => inl x | None => inr e end
  | None => inr e
  end.

(** registration.rs 924-931, 955-962, 1000-1010, 1033-1042, 1069-1079, 1090-1101,
    1191-1202, 1225-1236, 1274-1285: each gives the function of the entry or an error
    that names the type *)
Definition get_deserialize st t := field m_de st t (NotDeserializable t).
Definition get_serialize st t := field m_ser st t (NotSerializable t).
Definition get_fork_clone st t := field m_clone st t (NotCloneable t).
Definition get_unzip st t := field m_unzip st t (NotUnzippable t).
Definition get_fork_result st t := field m_result st t (CannotForkResult t).
Definition get_split st t := field m_split st t (NotSplittable t).
Definition get_join st t := field m_join st t (NotJoinable t).
Definition get_buffer_access st t := field m_access st t (CannotAccessBuffers t).
Definition get_listen st t := field m_listen st t (CannotListen t).

(** registration.rs 1112-1126 (and 1128-1189, which look up in the same way): the
    type of the messages of the buffer that is created *)
Definition get_create_buffer (st : state) (t : nat) : nat + error :=
  match messages st t with Some r => inl (m_made r) | None => inr (UnregisteredType t) end.

(** registration.rs 976-988 *)
Definition get_to_string (st : state) (t : nat) : option nat + error :=
  match messages st t with Some r => inl (m_string r) | None => inr (UnregisteredType t) end.

(** registration.rs 1570-1578 *)
Definition get_node (st : state) (id : nat) : nreg + error :=
  match nodes st id with Some n => inl n | None => inr (BuilderNotFound id) end.

(** registration.rs 1580-1590 *)
Definition get_section (st : state) (id : nat) : sreg + error :=
  match sections st id with Some n => inl n | None => inr (BuilderNotFound id) end.

(** What the creation of a node or section gives: the product of the user's function, an error, or a panic.
    [reads cfg v] says whether the value [v] can be read as the type [cfg];
    [f] is what the functions of users answer ([None]: [Err]).
    registration.rs 240-250 (nodes), 709-712 ([unwrap], sections). *)
Inductive created := Made (x : nat) | ConfigError | NodeBuildingError (id : nat) | Panics.

Definition create_node (reads : nat -> nat -> bool) (f : nat -> nat -> option nat)
    (id : nat) (n : nreg) (v : nat) : created :=
  if reads (n_config n) v then
    match f (n_builder n) v with Some x => Made x | None => NodeBuildingError id end
  else ConfigError.

Definition create_section (reads : nat -> nat -> bool) (f : nat -> nat -> nat)
    (s : sreg) (v : nat) : created :=
  if reads (s_config s) v then Made (f (s_builder s) v) else Panics.

(** ** The published description of the registry *)

Inductive key := KDeserialize | KSerialize | KForkClone | KUnzip | KForkResult | KSplit | KJoin
               | KOutputTypes.
Inductive js := JNull | JString (t : nat) | JArray (l : list js) | JObject (l : list (key * js)).

Definition entry_if (f : option nat) (k : key) (v : js) : list (key * js) :=
  match f with Some _ => [(k, v)] | None => [] end.

(** registration.rs 820-850 ([Serialize for MessageOperation]) *)
Definition describe (R : rust) (t : nat) (r : mreg) : js :=
  JObject (entry_if (m_de r) KDeserialize (JObject [])
        ++ entry_if (m_ser r) KSerialize (JObject [])
        ++ entry_if (m_clone r) KForkClone (JObject [])
        ++ entry_if (m_unzip r) KUnzip
             (JObject [(KOutputTypes, JArray (map JString (parts_of R t)))])
        ++ entry_if (m_result r) KForkResult (JObject [])
        ++ entry_if (m_split r) KSplit (JObject [])
        ++ entry_if (m_join r) KJoin (JObject [])).

(** registration.rs 780-783, 806-818 (an object) or null *)
Definition object_or_null (v : js) : bool :=
  match v with JObject _ | JNull => true | _ => false end.

(** An array of strings (type_info.rs 61-73) or null *)
Definition strings_or_null (v : js) : bool :=
  match v with
  | JNull => true
  | JArray l => forallb (fun x => match x with JString _ => true | _ => false end) l
  | _ => false
  end.

(** registration.rs 852-872 [MessageOperationSchema], registry.schema.json: other
    keys are not restricted *)
Definition conforms (v : js) : bool :=
  match v with
  | JObject l =>
      forallb (fun kv =>
        match fst kv with
        | KUnzip => strings_or_null (snd kv)
        | KOutputTypes => true
        | _ => object_or_null (snd kv)
        end) l
  | _ => false
  end.
