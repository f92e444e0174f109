(** Model of the access to buffers through keys which do not know the message type at
    compile time: src/buffer/any_buffer.rs and src/buffer/json_buffer.rs. No proofs in
    this file. *)
From Verif Require Import Base RosterModel BufferModel InputModel GateModel.

(** std::any::TypeId. *)
Notation tid := nat (only parsing).

Section Erased.
Context {V J : Type}.

(** serde_json::to_value and serde_json::from_value for messages of each type; [None] is
    the error. *)
Context (ser : tid -> V -> option J) (de : tid -> J -> option V).

(** src/buffer/any_buffer.rs:760 [AnyMessageBox]: a value together with its type. *)
Record box := mk_box { bx_ty : tid; bx_val : V }.

(** src/buffer/any_buffer.rs:831-844 [from_any_message] for a buffer of type [T]. *)
Definition from_any_message (T : tid) (x : box) : option V :=
  if Nat.eqb (bx_ty x) T then Some (bx_val x) else None.

(** What the caller of a method of [AnyBufferMut] sees. *)
Inductive aout :=
| AOUnit
| AOBox (o : option box)
| AOPushed (displaced : option box)
| AORefused (x : box)
| AOList (l : list box)
| AOPanic
| AOLen (n : nat).

(** src/buffer/any_buffer.rs:776-779 [any_push]. *)
Definition any_push (T : tid) (st : storage V) (s : entity) (x : box) : storage V * aout :=
  match from_any_message T x with
  | None => (st, AORefused x)
  | Some v => let '(st', r) := push st s v in (st', AOPushed (option_map (mk_box T) r))
  end.

(** src/buffer/any_buffer.rs:781-788 [any_push_as_oldest]. *)
Definition any_push_as_oldest (T : tid) (st : storage V) (s : entity) (x : box)
  : storage V * aout :=
  match from_any_message T x with
  | None => (st, AORefused x)
  | Some v => let '(st', r) := push_as_oldest st s v in (st', AOPushed (option_map (mk_box T) r))
  end.

(** The methods of [AnyBufferMut] (src/buffer/any_buffer.rs:418-566). The borrow that
    [oldest_mut], [newest_mut] and [get_mut] give is a [&mut dyn Any]; the caller changes
    the message by downcasting it to a type [t] and applying [f]. *)
Inductive acall :=
| ACPush (x : box) | ACPushAny (x : box)
| ACPushOldest (x : box) | ACPushAnyOldest (x : box)
| ACPull | ACPullNewest
| ACOldestMut (t : tid) (f : V -> V) | ACNewestMut (t : tid) (f : V -> V)
| ACGetMut (i : nat) (t : tid) (f : V -> V)
| ACDrain (lo hi : nat) | ACDrainAll
| ACPulse
| ACOldest | ACNewest | ACGet (i : nat) | ACLen.

(** [<dyn Any>::downcast_mut]: nothing can be done to a message of another type. *)
Definition as_type (t T : tid) (f : V -> V) : V -> V := if Nat.eqb t T then f else fun v => v.

(** src/buffer/any_buffer.rs:810-816 [any_drain], 1163-1167 [any_next]. *)
Definition any_drained (T : tid) (r : drain_result V) : aout :=
  match r with Drained l => AOList (map (mk_box T) l) | DrainPanic => AOPanic end.

(** One method call: the storage, the [modified] flag and what the caller sees.
    src/buffer/any_buffer.rs:418-436 (reading), 444-466 ([oldest_mut], [newest_mut],
    [get_mut], [drain]), 471-481 ([pull], [pull_newest]), 491-508 ([push]), 518-523
    ([push_any]), 529-548 ([push_as_oldest]), 554-559 ([push_any_as_oldest]), 564-566
    ([pulse]). The storage behind them is src/buffer/any_buffer.rs:736-756, 775-817. *)
Definition any_call (T : tid) (st : storage V) (s : entity) (modified : bool) (c : acall)
  : storage V * bool * aout :=
  match c with
  | ACPush x =>
      if Nat.eqb (bx_ty x) T then let '(st', o) := any_push T st s x in (st', true, o)
      else (st, modified, AORefused x)
  | ACPushAny x => let '(st', o) := any_push T st s x in (st', modified, o)
  | ACPushOldest x =>
      if Nat.eqb (bx_ty x) T then let '(st', o) := any_push_as_oldest T st s x in (st', true, o)
      else (st, modified, AORefused x)
  | ACPushAnyOldest x => let '(st', o) := any_push_as_oldest T st s x in (st', modified, o)
  | ACPull => let '(st', r) := pull st s in (st', true, AOBox (option_map (mk_box T) r))
  | ACPullNewest =>
      let '(st', r) := pull_newest st s in (st', true, AOBox (option_map (mk_box T) r))
  | ACOldestMut t f =>
      let '(st', r) := oldest_mut st s (as_type t T f) in
      (st', true, AOBox (option_map (mk_box T) r))
  | ACNewestMut t f =>
      let '(st', r) := newest_mut st s (as_type t T f) in
      (st', true, AOBox (option_map (mk_box T) r))
  | ACGetMut i t f =>
      let '(st', r) := get_mut st s i (as_type t T f) in
      (st', true, AOBox (option_map (mk_box T) r))
  | ACDrain lo hi => let '(st', r) := drain st s lo hi in (st', true, any_drained T r)
  | ACDrainAll => let '(st', r) := drain_all st s in (st', true, any_drained T r)
  | ACPulse => (st, true, AOUnit)
  | ACOldest => (st, modified, AOBox (option_map (mk_box T) (oldest st s)))
  | ACNewest => (st, modified, AOBox (option_map (mk_box T) (newest st s)))
  | ACGet i => (st, modified, AOBox (option_map (mk_box T) (get st s i)))
  | ACLen => (st, modified, AOLen (count st s))
  end.

(** The calls made while the access is held; a panic ends them. *)
Fixpoint any_calls (T : tid) (st : storage V) (s : entity) (modified : bool) (l : list acall)
  : storage V * bool * list aout :=
  match l with
  | [] => (st, modified, [])
  | c :: l' =>
      let '(st1, m1, o) := any_call T st s modified c in
      match o with
      | AOPanic => (st1, m1, [o])
      | _ => let '(st2, m2, os) := any_calls T st1 s m1 l' in (st2, m2, o :: os)
      end
  end.

(** src/buffer/any_buffer.rs:244-247 [AnyBufferKey], src/buffer/json_buffer.rs:190-193
    [JsonBufferKey]: the tag of the key (src/buffer.rs:384-389, without the lifecycle)
    and the type its interface was made for. The accessor is [None] if
    [allow_closed_loops] is called on the access (any_buffer.rs:412-415,
    json_buffer.rs:359-362). *)
Record ekey := mk_ekey {
  ek_ty : tid;
  ek_buf : entity;
  ek_sess : entity;
  ek_acc : option entity;
}.

(** Queries for [BufferStorage<T>] (src/buffer/any_buffer.rs:879-881, 1123-1128): the
    buffer must exist and hold messages of the type [T]. [types] gives the type of the
    messages of each buffer. *)
Definition storage_of (types : emap tid) (w : gworld V) (k : ekey) : option (bufnode V) :=
  match types (ek_buf k) with
  | Some t => if Nat.eqb t (ek_ty k) then gw_bufs w (ek_buf k) else None
  | None => None
  end.

(** The drop of [BufferMut], [AnyBufferMut], [JsonBufferMut] (src/buffer.rs:807-820,
    src/buffer/any_buffer.rs:569-579, src/buffer/json_buffer.rs:502-512). *)
Definition close_access (w : gworld V) (n : bufnode V) (k : ekey) (st : storage V) (m : bool)
  : gworld V :=
  let w1 := set_buf w (ek_buf k) (mk_bufnode st (bn_gates n) (bn_targets n)) in
  if m
  then mk_gworld (gw_bufs w1) (gw_lis w1)
         (gw_cmds w1 ++ [mk_notify (ek_buf k) (ek_sess k) (ek_acc k)])
  else w1.

(** src/buffer/any_buffer.rs:871-891 [as_any_buffer_mut], the calls, the drop. [None]:
    [BufferError::BufferMissing]. *)
Definition any_edit (types : emap tid) (w : gworld V) (k : ekey) (l : list acall)
  : gworld V * option (list aout) :=
  match storage_of types w k with
  | None => (w, None)
  | Some n =>
      let '(st, m, os) := any_calls (ek_ty k) (bn_store n) (ek_sess k) false l in
      (close_access w n k st m, Some os)
  end.

(** src/buffer/any_buffer.rs:607-617 [World::any_buffer_mut]: the [SystemState] and with
    it the queued notification is dropped without being applied. *)
Definition world_any_buffer_mut (types : emap tid) (w : gworld V) (k : ekey) (l : list acall)
  : gworld V * option (list aout) :=
  let '(w1, o) := any_edit types w k l in (mk_gworld (gw_bufs w1) (gw_lis w1) (gw_cmds w), o).

(** ** Access as JSON *)

(** What the caller of a method of [JsonBufferMut] sees. *)
Inductive jout :=
| JOErr
| JOUnit
| JOVal (o : option J)
| JOList (l : list (option J))
| JOPanic
| JOLen (n : nat).

(** [Option<T>::map(serde_json::to_value).transpose()]. *)
Definition to_value (T : tid) (r : option V) : jout :=
  match r with
  | None => JOVal None
  | Some v => match ser T v with Some j => JOVal (Some j) | None => JOErr end
  end.

(** src/buffer/json_buffer.rs:720-725 [json_push]. *)
Definition json_push (T : tid) (st : storage V) (s : entity) (j : J) : storage V * jout :=
  match de T j with
  | None => (st, JOErr)
  | Some v => let '(st', r) := push st s v in (st', to_value T r)
  end.

(** src/buffer/json_buffer.rs:727-736 [json_push_as_oldest], which calls [push]. *)
Definition json_push_as_oldest (T : tid) (st : storage V) (s : entity) (j : J)
  : storage V * jout :=
  match de T j with
  | None => (st, JOErr)
  | Some v => let '(st', r) := push st s v in (st', to_value T r)
  end.

(** The methods of [JsonMut] (src/buffer/json_buffer.rs:559-606). *)
Inductive jmut := JMSerialize | JMReplace (j : J) | JMInsert (j : J) | JMModify (f : J -> J).

(** src/buffer/json_buffer.rs:815-819 and 592-595 [insert]: the new message, the flag (set
    even if the insertion fails), what the caller sees. *)
Definition json_insert (T : tid) (v : V) (j : J) : V * bool * jout :=
  match de T j with Some v' => (v', true, JOUnit) | None => (v, true, JOErr) end.

(** src/buffer/json_buffer.rs:564-606 [serialize], [replace], [insert], [modify] over
    803-820: the new message, the flag, what the caller sees. *)
Definition json_mut (T : tid) (v : V) (modified : bool) (a : jmut) : V * bool * jout :=
  match a with
  | JMSerialize => (v, modified, to_value T (Some v))
  | JMReplace j =>
      match de T j with
      | None => (v, true, JOErr)
      | Some v' =>
          match ser T v with
          | None => (v, true, JOErr)
          | Some old => (v', true, JOVal (Some old))
          end
      end
  | JMInsert j => json_insert T v j
  | JMModify f =>
      match ser T v with
      | None => (v, modified, JOErr)
      | Some j => json_insert T v (f j)
      end
  end.

(** The methods of [JsonBufferMut] (src/buffer/json_buffer.rs:365-499). [push] and
    [push_as_oldest] take a value of the caller, which is serialised first: [None] if that
    fails. [pull_as] and [pull_newest_as] deserialise into a type of the caller:
    [accepts] says whether that succeeds. More than one call on the same [JsonMut] is the
    same as several borrows. *)
Inductive jcall :=
| JCPush (o : option J) | JCPushJson (j : J)
| JCPushOldest (o : option J) | JCPushJsonOldest (j : J)
| JCPull | JCPullNewest
| JCPullAs (accepts : J -> bool) | JCPullNewestAs (accepts : J -> bool)
| JCOldestMut (a : jmut) | JCNewestMut (a : jmut) | JCGetMut (i : nat) (a : jmut)
| JCDrain (lo hi : nat) | JCDrainAll
| JCPulse
| JCOldest | JCNewest | JCGet (i : nat) | JCLen.

(** src/buffer/json_buffer.rs:424-426, 437-441. *)
Definition pulled_as (accepts : J -> bool) (o : jout) : jout :=
  match o with
  | JOVal (Some j) => if accepts j then o else JOErr
  | _ => o
  end.

(** src/buffer/json_buffer.rs:782-788 [json_drain], 1077-1081 [json_next]. *)
Definition json_drained (T : tid) (r : drain_result V) : jout :=
  match r with Drained l => JOList (map (ser T) l) | DrainPanic => JOPanic end.

(** src/buffer/json_buffer.rs:365-382 (reading), 390-406 ([oldest_mut], [newest_mut],
    [get_mut]), 408-413 ([drain]), 417-441 (pulling), 454-493 (pushing), 497-499
    ([pulse]); the storage behind them is 693-789. *)
Definition json_call (T : tid) (st : storage V) (s : entity) (modified : bool) (c : jcall)
  : storage V * bool * jout :=
  match c with
  | JCPush None | JCPushOldest None => (st, modified, JOErr)
  | JCPush (Some j) | JCPushJson j => let '(st', o) := json_push T st s j in (st', true, o)
  | JCPushOldest (Some j) | JCPushJsonOldest j =>
      let '(st', o) := json_push_as_oldest T st s j in (st', true, o)
  | JCPull => let '(st', r) := pull st s in (st', true, to_value T r)
  | JCPullNewest => let '(st', r) := pull_newest st s in (st', true, to_value T r)
  | JCPullAs a => let '(st', r) := pull st s in (st', true, pulled_as a (to_value T r))
  | JCPullNewestAs a =>
      let '(st', r) := pull_newest st s in (st', true, pulled_as a (to_value T r))
  | JCOldestMut a =>
      match oldest st s with
      | None => (st, modified, JOVal None)
      | Some v =>
          let '(v', m, o) := json_mut T v modified a in
          (fst (oldest_mut st s (fun _ => v')), m, o)
      end
  | JCNewestMut a =>
      match newest st s with
      | None => (st, modified, JOVal None)
      | Some v =>
          let '(v', m, o) := json_mut T v modified a in
          (fst (newest_mut st s (fun _ => v')), m, o)
      end
  | JCGetMut i a =>
      match get st s i with
      | None => (st, modified, JOVal None)
      | Some v =>
          let '(v', m, o) := json_mut T v modified a in
          (fst (get_mut st s i (fun _ => v')), m, o)
      end
  | JCDrain lo hi => let '(st', r) := drain st s lo hi in (st', true, json_drained T r)
  | JCDrainAll => let '(st', r) := drain_all st s in (st', true, json_drained T r)
  | JCPulse => (st, true, JOUnit)
  | JCOldest => (st, modified, to_value T (oldest st s))
  | JCNewest => (st, modified, to_value T (newest st s))
  | JCGet i => (st, modified, to_value T (get st s i))
  | JCLen => (st, modified, JOLen (count st s))
  end.

(** The calls made while the access is held; a panic ends them. *)
Fixpoint json_calls (T : tid) (st : storage V) (s : entity) (modified : bool) (l : list jcall)
  : storage V * bool * list jout :=
  match l with
  | [] => (st, modified, [])
  | c :: l' =>
      let '(st1, m1, o) := json_call T st s modified c in
      match o with
      | JOPanic => (st1, m1, [o])
      | _ => let '(st2, m2, os) := json_calls T st1 s m1 l' in (st2, m2, o :: os)
      end
  end.

(** src/buffer/json_buffer.rs:1042-1058 [as_json_buffer_mut], the calls, the drop. *)
Definition json_edit (types : emap tid) (w : gworld V) (k : ekey) (l : list jcall)
  : gworld V * option (list jout) :=
  match storage_of types w k with
  | None => (w, None)
  | Some n =>
      let '(st, m, os) := json_calls (ek_ty k) (bn_store n) (ek_sess k) false l in
      (close_access w n k st m, Some os)
  end.

(** src/buffer/json_buffer.rs:540-550 [World::json_buffer_mut], the only way to obtain a
    [JsonBufferMut]; the queued notification is dropped as in [world_any_buffer_mut]. *)
Definition world_json_buffer_mut (types : emap tid) (w : gworld V) (k : ekey) (l : list jcall)
  : gworld V * option (list jout) :=
  let '(w1, o) := json_edit types w k l in (mk_gworld (gw_bufs w1) (gw_lis w1) (gw_cmds w), o).

(** src/buffer/json_buffer.rs:329-336 [IterJsonBufferView::next], called [n] times
    beginning at position [i]; [JOVal None]: the end. *)
Fixpoint json_iter (T : tid) (st : storage V) (s : entity) (i n : nat) : list jout :=
  match n with
  | 0 => []
  | S n' => to_value T (get st s i) :: json_iter T st s (S i) n'
  end.

(** ** Conversions between kinds of keys *)

(** A key as the user holds it: [BufferKey<T>], [AnyBufferKey] or [JsonBufferKey]. *)
Inductive keykind := KkTyped | KkAny | KkJson.

Inductive keyconv :=
| KvToAny        (* any_buffer.rs:315-323, json_buffer.rs:257-264 [From for AnyBufferKey] *)
| KvToJson       (* json_buffer.rs:247-255 [From<BufferKey<T>> for JsonBufferKey] *)
| KvForMessage (t : tid) (* [downcast_for_message]: any_buffer.rs:253-262, json_buffer.rs:199-201 *)
| KvDowncast (kk : keykind) (t : tid) (* [downcast_buffer_key]: any_buffer.rs:266-271 *)
| KvDeepClone.   (* any_buffer.rs:298-303, json_buffer.rs:227-232, buffer.rs:364-369 *)

(** One conversion, [None] if it does not exist for that kind of key or gives nothing.
    [json t]: the type was registered for JSON (json_buffer.rs:883-915). The key
    downcasts that are registered are those to [AnyBufferKey] (any_buffer.rs:1005-1016) and
    [JsonBufferKey] (json_buffer.rs:901-909), none to [BufferKey<T>]. *)
Definition convert_key (json : tid -> bool) (c : keyconv) (x : keykind * ekey)
  : option (keykind * ekey) :=
  let '(kk, k) := x in
  match c, kk with
  | KvToAny, (KkTyped | KkJson) => Some (KkAny, k)
  | KvToJson, KkTyped => Some (KkJson, k)
  | KvForMessage t, (KkAny | KkJson) =>
      if Nat.eqb t (ek_ty k) then Some (KkTyped, k) else None
  | KvDowncast KkAny _, (KkAny | KkJson) => Some (KkAny, k)
  | KvDowncast KkJson _, (KkAny | KkJson) => if json (ek_ty k) then Some (KkJson, k) else None
  | KvDeepClone, _ => Some (kk, k)
  | _, _ => None
  end.

Fixpoint convert_keys (json : tid -> bool) (l : list keyconv) (x : keykind * ekey)
  : option (keykind * ekey) :=
  match l with
  | [] => Some x
  | c :: l' =>
      match convert_key json c x with
      | Some y => convert_keys json l' y
      | None => None
      end
  end.

End Erased.

Arguments box : clear implicits.
Arguments aout : clear implicits.
Arguments acall : clear implicits.
Arguments jout : clear implicits.
Arguments jmut : clear implicits.
Arguments jcall : clear implicits.
