(** Model of buffers collected in a map and laid out for a join, a listener or an access:
    src/buffer/buffer_map.rs, macros/src/derive_buffer.rs, and the parts of
    src/buffer/{any_buffer,json_buffer,fetch_from_buffer}.rs and src/buffer.rs about
    converting and joining buffers. No proofs in this file. *)
From Coq Require Import String.
From Verif Require Import Base RosterModel BufferModel InputModel GateModel JoinModel.

(** std::any::TypeId. *)
Notation tid := nat (only parsing).

(** src/buffer/buffer_map.rs:54-59 [BufferIdentifier]. *)
Inductive ident := Name (n : string) | Index (i : nat).

Definition ident_eqb (a b : ident) : bool :=
  match a, b with
  | Name n, Name m => String.eqb n m
  | Index i, Index j => Nat.eqb i j
  | _, _ => false
  end.

(** serde_json::Value, as far as it matters here: anything but null, arrays and objects is
    a leaf. Objects are association lists in which the first entry of a key counts. *)
Inductive json := JNull | JLeaf (n : nat) | JArr (l : list json) | JObj (l : list (string * json)).

(** ** Buffers and conversions between kinds of buffers *)

(** The kinds of references to buffers: [AnyBuffer] (src/buffer/any_buffer.rs:49-53),
    [Buffer<T>] (src/buffer.rs:75-78), [FetchFromBuffer<T>]
    (src/buffer/fetch_from_buffer.rs:36-40), [CloneFromBuffer<T>] (src/buffer.rs:134-137),
    [JsonBuffer] (src/buffer/json_buffer.rs:52-56). *)
Inductive bkind := KAny | KBuf (t : tid) | KFetch (t : tid) | KClone (t : tid) | KJson.

(** A reference to a buffer: its kind, the entity of the buffer, what a join does with it
    (src/buffer/any_buffer.rs:188-194 [JoinBehavior]; [Pull] for a [Buffer<T>] and [Clone]
    for a [CloneFromBuffer<T>]), and the message type. The scope is left out. *)
Record bref := mk_bref { br_kind : bkind; br_id : entity; br_join : fetch; br_ty : tid }.

(** src/buffer/any_buffer.rs:49-53 [AnyBuffer]. *)
Record abuf := mk_abuf { ab_id : entity; ab_join : fetch; ab_ty : tid }.

(** Which message types were registered for JSON (src/buffer/json_buffer.rs:107-121,
    883-939) and for cloning (src/buffer.rs:185-205). *)
Record regs := mk_regs { r_json : tid -> bool; r_clone : tid -> bool }.

(** src/buffer/any_buffer.rs:162-182, 206-234, src/buffer/fetch_from_buffer.rs:104-123,
    src/buffer/json_buffer.rs:161-179 [as_any_buffer]. *)
Definition to_any (b : bref) : abuf := mk_abuf (br_id b) (br_join b) (br_ty b).

(** src/buffer/any_buffer.rs:153-159 [downcast_buffer] with what is registered in
    src/buffer/any_buffer.rs:975-1003, src/buffer.rs:198-203 and
    src/buffer/json_buffer.rs:890-899; src/buffer/fetch_from_buffer.rs:127-146. *)
Definition downcast (r : regs) (b : abuf) (k : bkind) : option bref :=
  match k with
  | KAny => Some (mk_bref KAny (ab_id b) (ab_join b) (ab_ty b))
  | KBuf t => if Nat.eqb t (ab_ty b) then Some (mk_bref (KBuf t) (ab_id b) Pull t) else None
  | KFetch t =>
      if Nat.eqb t (ab_ty b) then
        match ab_join b with
        | Pull => Some (mk_bref (KFetch t) (ab_id b) Pull t)
        | Clone => if r_clone r t then Some (mk_bref (KFetch t) (ab_id b) Clone t) else None
        end
      else None
  | KClone t =>
      if Nat.eqb t (ab_ty b) && r_clone r t then Some (mk_bref (KClone t) (ab_id b) Clone t) else None
  | KJson =>
      if r_json r (ab_ty b) then Some (mk_bref KJson (ab_id b) (ab_join b) (ab_ty b)) else None
  end.

(** What a user can do with a reference. *)
Inductive conv :=
| CvDowncast (k : bkind)
| CvForMessage (t : tid)
| CvCloning
| CvPulling.

(** [CvDowncast]: src/buffer/any_buffer.rs:153-159, src/buffer/json_buffer.rs:74-76 and
    the [From] impls (src/buffer.rs:232-239, src/buffer/fetch_from_buffer.rs:75-113,
    src/buffer/json_buffer.rs:139-169), which do the same for types that fit (registering a
    type for JSON on the way is left out).
    [CvForMessage]: src/buffer/any_buffer.rs:140-149, src/buffer/json_buffer.rs:62-71.
    [CvCloning]: src/buffer.rs:86-91, src/buffer/any_buffer.rs:69-73,
    src/buffer/json_buffer.rs:82-87; it registers a typed buffer (src/buffer.rs:174-180).
    [CvPulling]: src/buffer.rs:167-172, src/buffer/any_buffer.rs:58-61,
    src/buffer/json_buffer.rs:94-99. [None]: there is no such method, or it returns None. *)
Definition convert (r : regs) (b : bref) (c : conv) : option (regs * bref) :=
  match c with
  | CvDowncast k => option_map (pair r) (downcast r (to_any b) k)
  | CvForMessage t =>
      match br_kind b with
      | KAny | KJson => option_map (pair r) (downcast r (to_any b) (KBuf t))
      | _ => None
      end
  | CvCloning =>
      match br_kind b with
      | KBuf t =>
          Some (mk_regs (r_json r) (fun t' => if Nat.eqb t' t then true else r_clone r t'),
                mk_bref (KClone t) (br_id b) Clone t)
      | KAny =>
          if r_clone r (br_ty b) then Some (r, mk_bref KAny (br_id b) Clone (br_ty b)) else None
      | KJson => Some (r, mk_bref KJson (br_id b) Clone (br_ty b))
      | _ => None
      end
  | CvPulling =>
      match br_kind b with
      | KClone t => Some (r, mk_bref (KBuf t) (br_id b) Pull t)
      | KAny => Some (r, mk_bref KAny (br_id b) Pull (br_ty b))
      | KJson => Some (r, mk_bref KJson (br_id b) Pull (br_ty b))
      | _ => None
      end
  end.

Fixpoint converts (r : regs) (b : bref) (cs : list conv) : option (regs * bref) :=
  match cs with
  | [] => Some (r, b)
  | c :: cs' => match convert r b c with None => None | Some (r', b') => converts r' b' cs' end
  end.

(** ** Layouts *)

(** src/buffer/buffer_map.rs:115 [BufferMap]: the entries in the order in which the map is
    iterated; the keys are distinct. *)
Definition bmap := list (ident * abuf).

Fixpoint find {A} (m : list (ident * A)) (i : ident) : option A :=
  match m with
  | [] => None
  | (j, a) :: m' => if ident_eqb i j then Some a else find m' i
  end.

(** src/buffer/buffer_map.rs:142-150 [IncompatibleLayout], 237-244
    [BufferIncompatibility] (only the identifiers). *)
Record incompat := mk_incompat {
  ic_missing : list ident;
  ic_forbidden : list ident;
  ic_wrong : list ident;
}.

Definition no_incompat := mk_incompat [] [] [].

(** src/buffer/buffer_map.rs:154-164 [as_result]: is it Ok? *)
Definition as_result (c : incompat) : bool :=
  match ic_missing c with
  | [] => match ic_wrong c with [] => true | _ => false end
  | _ => false
  end.

(** src/buffer/buffer_map.rs:184-205 [require_buffer_for_identifier] and 210-232
    [require_buffer_for_borrowed_name]. *)
Definition require (r : regs) (m : bmap) (c : incompat) (i : ident) (k : bkind)
  : incompat * option bref :=
  match find m i with
  | Some b =>
      match downcast r b k with
      | Some d => (c, Some d)
      | None => (mk_incompat (ic_missing c) (ic_forbidden c) (ic_wrong c ++ [i]), None)
      end
  | None => (mk_incompat (ic_missing c ++ [i]) (ic_forbidden c) (ic_wrong c), None)
  end.

Fixpoint require_all (r : regs) (m : bmap) (c : incompat) (l : list (ident * bkind))
  : incompat * list (ident * bref) :=
  match l with
  | [] => (c, [])
  | (i, k) :: l' =>
      let '(c1, o) := require r m c i k in
      let '(c2, ds) := require_all r m c1 l' in
      (c2, match o with Some d => (i, d) :: ds | None => ds end)
  end.

(** The layouts: a struct with named fields, each with the kind of its buffer
    (macros/src/derive_buffer.rs:368-423; the kind is [FetchFromBuffer<T>] for a joined
    struct and the target of the key for an accessor by default, 215-221); one buffer
    (src/buffer/buffer_map.rs:739-799, src/buffer/any_buffer.rs:329-348,
    src/buffer/json_buffer.rs:1188-1208); [Vec<B>] and [SmallVec<[B; N]>]
    (src/buffer/buffer_map.rs:801-855); [HashMap<String, JsonBuffer>]
    (src/buffer/json_buffer.rs:1214-1248); [HashMap<BufferIdentifier, JsonBuffer>]
    (1277-1302); [BufferMap] (src/buffer/buffer_map.rs:647-665). *)
Inductive layout :=
| LStruct (fields : list (string * bkind))
| LOne (k : bkind)
| LVec (k : bkind)
| LJsonNames
| LJsonAll
| LMap.

(** src/buffer/json_buffer.rs:1216-1233: the loop over the keys of the map. *)
Fixpoint json_names (r : regs) (m : bmap) (c : incompat) (keys : list ident)
  : incompat * list (ident * bref) :=
  match keys with
  | [] => (c, [])
  | Name n :: keys' =>
      let '(c1, o) := require r m c (Name n) KJson in
      let '(c2, ds) := json_names r m c1 keys' in
      (c2, match o with Some d => (Name n, d) :: ds | None => ds end)
  | Index i :: keys' =>
      json_names r m (mk_incompat (ic_missing c) (ic_forbidden c ++ [Index i]) (ic_wrong c)) keys'
  end.

(** [try_from_buffer_map]. LStruct: macros/src/derive_buffer.rs:380-400 (an error unless
    every field was found). LOne: src/buffer/buffer_map.rs:740-750, 762-772, 782-792,
    src/buffer/any_buffer.rs:330-339, src/buffer/json_buffer.rs:1189-1199. LVec:
    src/buffer/buffer_map.rs:802-813, 833-844. LJsonNames:
    src/buffer/json_buffer.rs:1215-1237. LJsonAll: 1278-1291. LMap:
    src/buffer/buffer_map.rs:648-650. The buffers are given in the order in which they are
    fetched from. *)
Definition try_layout (r : regs) (L : layout) (m : bmap) : incompat + list (ident * bref) :=
  match L with
  | LStruct fields =>
      let '(c, ds) := require_all r m no_incompat (map (fun p => (Name (fst p), snd p)) fields) in
      if Nat.eqb (length ds) (length fields) then inr ds else inl c
  | LOne k =>
      match require r m no_incompat (Index 0) k with
      | (_, Some d) => inr [(Index 0, d)]
      | (c, None) => inl c
      end
  | LVec k =>
      let '(c, ds) := require_all r m no_incompat (map (fun i => (Index i, k)) (seq 0 (length m))) in
      if as_result c then inr ds else inl c
  | LJsonNames =>
      let '(c, ds) := json_names r m no_incompat (map fst m) in
      if as_result c then inr ds else inl c
  | LJsonAll =>
      let '(c, ds) := require_all r m no_incompat (map (fun p => (fst p, KJson)) m) in
      if as_result c then inr ds else inl c
  | LMap => inr (map (fun p => (fst p, mk_bref KAny (ab_id (snd p)) (ab_join (snd p)) (ab_ty (snd p)))) m)
  end.

(** ** Hints for the types of messages *)

(** src/buffer/buffer_map.rs:358-365 [MessageTypeHint]. *)
Inductive hint := Exact (t : tid) | Fallback (t : tid).

Section Hints.
(** The types [AnyMessageBox] and [JsonMessage]. *)
Context (t_any t_json : tid).

(** src/buffer/any_buffer.rs:211-213, 221-223, 231-233,
    src/buffer/fetch_from_buffer.rs:120-122, src/buffer/json_buffer.rs:176-178
    [message_type_hint]. *)
Definition kind_hint (k : bkind) : hint :=
  match k with
  | KAny => Fallback t_any
  | KBuf t | KFetch t | KClone t => Exact t
  | KJson => Fallback t_json
  end.

(** src/buffer/buffer_map.rs:247-252 [MessageTypeHintEvaluation]. *)
Record heval := mk_heval {
  he_todo : list ident;
  he_done : list (ident * hint);
  he_compat : incompat;
}.

(** src/buffer/buffer_map.rs:315-326 [set_hint]. *)
Definition set_hint (e : heval) (i : ident) (h : hint) : heval :=
  let c := he_compat e in
  if existsb (ident_eqb i) (he_todo e) then
    mk_heval (filter (fun j => negb (ident_eqb i j)) (he_todo e)) ((i, h) :: he_done e) c
  else
    mk_heval (he_todo e) (he_done e)
      (mk_incompat (ic_missing c ++ [i]) (ic_forbidden c) (ic_wrong c)).

(** src/buffer/buffer_map.rs:272-285 [next_index_required] and 289-302
    [next_name_required]: [keep] tells which identifiers are kept. *)
Definition forbid (keep : ident -> bool) (e : heval) : heval :=
  let c := he_compat e in
  mk_heval (filter keep (he_todo e)) (he_done e)
    (mk_incompat (ic_missing c) (ic_forbidden c ++ filter (fun i => negb (keep i)) (he_todo e))
       (ic_wrong c)).

Definition is_index (i : ident) : bool := match i with Index _ => true | Name _ => false end.
Definition is_name (i : ident) : bool := match i with Name _ => true | Index _ => false end.

(** The loops [while let Some(identifier) = next { set_hint(identifier, h) }]
    (src/buffer/buffer_map.rs:659-661, 819-821, 850-852, src/buffer/json_buffer.rs:1243-1245,
    1297-1299). After the first round nothing is left to forbid. An identifier is removed in
    each round, so there are as many rounds as identifiers. *)
Definition hint_all (keep : ident -> bool) (h : hint) (e : heval) : heval :=
  let e' := forbid keep e in
  fold_left (fun e i => set_hint e i h) (he_todo e') e'.

(** src/buffer/buffer_map.rs:329-335 [evaluate]. *)
Definition evaluate (e : heval) : incompat + list (ident * hint) :=
  let c := he_compat e in
  let c' := mk_incompat (ic_missing c) (ic_forbidden c ++ he_todo e) (ic_wrong c) in
  if as_result c' then inr (he_done e) else inl c'.

(** [get_buffer_message_type_hints]: macros/src/derive_buffer.rs:402-411;
    src/buffer/buffer_map.rs:652-664, 752-758, 774-778, 794-798, 815-823, 846-854;
    src/buffer/any_buffer.rs:341-347; src/buffer/json_buffer.rs:1201-1207, 1239-1247,
    1293-1301. *)
Definition hints (L : layout) (ids : list ident) : incompat + list (ident * hint) :=
  let e := mk_heval ids [] no_incompat in
  evaluate
    match L with
    | LStruct fields => fold_left (fun e p => set_hint e (Name (fst p)) (kind_hint (snd p))) fields e
    | LOne k => set_hint e (Index 0) (kind_hint k)
    | LVec k => hint_all is_index (kind_hint k) e
    | LJsonNames => hint_all is_name (Fallback t_json) e
    | LJsonAll => hint_all (fun _ => true) (Fallback t_json) e
    | LMap => hint_all (fun _ => true) (Fallback t_any) e
    end.

End Hints.

(** ** Joining *)

Section LayoutJoin.
Context {V : Type}.

(** serde_json::to_value for messages of each type; [None] is the error. *)
Context (ser : tid -> V -> option json).

(** What a join takes from one buffer: a message or a JSON value. *)
Inductive got := GVal (v : V) | GJson (j : json).

(** src/buffer/buffering.rs:272-284, 360-373 ([Buffer], [CloneFromBuffer]),
    src/buffer/fetch_from_buffer.rs:148-168, 219-229 ([FetchFromBuffer]),
    src/buffer/any_buffer.rs:1085-1108, 1224-1242 ([AnyBuffer]),
    src/buffer/json_buffer.rs:960-981, 1138-1156 ([JsonBuffer]) [fetch_for_join]. [types]:
    the message type of the storage of each buffer. [None]: the error Broken. *)
Definition fetch_ref (r : regs) (types : emap tid) (bufs : emap (bufnode V)) (s : entity) (b : bref)
  : emap (bufnode V) * option got :=
  match bufs (br_id b), types (br_id b) with
  | Some n, Some t =>
      if Nat.eqb t (br_ty b) then
        match br_kind b, br_join b with
        | KJson, Pull =>
            let '(bufs', o) := fetch_one bufs (br_id b) Pull s in
            (bufs', match o with Some v => option_map GJson (ser t v) | None => None end)
        | KJson, Clone =>
            (bufs, match newest (bn_store n) s with
                   | Some v => option_map GJson (ser t v)
                   | None => None
                   end)
        | KAny, Clone =>
            if r_clone r t then
              let '(bufs', o) := fetch_one bufs (br_id b) Clone s in (bufs', option_map GVal o)
            else (bufs, None)
        | _, f => let '(bufs', o) := fetch_one bufs (br_id b) f s in (bufs', option_map GVal o)
        end
      else (bufs, None)
  | _, _ => (bufs, None)
  end.

(** [fetch_for_join] of the layouts: macros/src/derive_buffer.rs:441-453 (fields in
    order), src/buffer/buffering.rs:739-747, 857-865 (vectors), src/buffer/buffer_map.rs:676-687,
    src/buffer/json_buffer.rs:1258-1270, 1320-1338 (maps, in the order of iteration). *)
Fixpoint fetch_layout (r : regs) (types : emap tid) (bufs : emap (bufnode V)) (s : entity)
    (l : list (ident * bref)) : emap (bufnode V) * option (list (ident * got)) :=
  match l with
  | [] => (bufs, Some [])
  | (i, b) :: l' =>
      match fetch_ref r types bufs s b with
      | (bufs1, None) => (bufs1, None)
      | (bufs1, Some v) =>
          match fetch_layout r types bufs1 s l' with
          | (bufs2, Some vs) => (bufs2, Some ((i, v) :: vs))
          | (bufs2, None) => (bufs2, None)
          end
      end
  end.

End LayoutJoin.

Arguments got : clear implicits.

(** src/buffer/json_buffer.rs:1323-1329: [resize] with null, then the assignment. *)
Definition set_at (a : list json) (i : nat) (j : json) : list json :=
  let a := if length a <=? i then a ++ repeat JNull (S i - length a) else a in
  firstn i a ++ j :: skipn (S i) a.

(** serde_json::Map::insert. *)
Definition obj_insert (o : list (string * json)) (n : string) (j : json) : list (string * json) :=
  (n, j) :: filter (fun p => negb (String.eqb n (fst p))) o.

(** src/buffer/json_buffer.rs:1317-1338: the loop, with the values that were fetched. *)
Fixpoint json_parts (l : list (ident * json)) (o : list (string * json)) (a : list json)
  : list (string * json) * list json :=
  match l with
  | [] => (o, a)
  | (Index i, j) :: l' => json_parts l' o (set_at a i j)
  | (Name n, j) :: l' => json_parts l' (obj_insert o n j) a
  end.

(** src/buffer/json_buffer.rs:1340-1361: the value that a join into a JsonMessage gives. *)
Definition joined_json (l : list (ident * json)) : json :=
  match json_parts l [] [] with
  | ((_ :: _) as o, (_ :: _) as a) => JObj [("array"%string, JArr a); ("object"%string, JObj o)]
  | ((_ :: _) as o, []) => JObj o
  | ([], (_ :: _) as a) => JArr a
  | ([], []) => JNull
  end.

(** src/buffer/json_buffer.rs:1256-1271: the value that a join into a map of JSON values
    gives (the identifiers are names). *)
Definition joined_names (l : list (ident * json)) : list (string * json) := fst (json_parts l [] []).
