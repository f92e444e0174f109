(** Streams: which target an item of a stream is sent to, how the items that
    a node has buffered or queued are sent out, how streams leave a workflow
    or a scope, how they are received or collected outside, and which streams
    a service says it offers.

    Simplifications made throughout this file.
    - A Rust type is a value of [ty].  Names are numbers.
    - The user's [StreamEffect::side_effect] is a function [V -> option V];
      [None] stands for an error of the kind [Broken].
    - Of the world only the entities that receive items, the activity of the
      sessions, the wake-ups, the errors and the collections are kept.  The
      roster and the deferred roster are one list of wake-ups. *)
From Coq Require Import List Arith Bool Lia.
From Verif Require Import Base.
Import ListNotations.

(** A type: one chosen by the user, or [NamedValue<T>]
    (src/stream/named_stream.rs:212-217). *)
Inductive ty := Ty (t : nat) | NamedTy (t : ty).

Fixpoint ty_eqb (a b : ty) : bool :=
  match a, b with
  | Ty x, Ty y => Nat.eqb x y
  | NamedTy x, NamedTy y => ty_eqb x y
  | _, _ => false
  end.

(** src/stream/named_stream.rs:212-217 [NamedValue] beside a bare value *)
Inductive datum (V : Type) := Plain (v : V) | Named (n : nat) (v : V).
Arguments Plain {V}. Arguments Named {V}.

(** src/stream.rs:66-76 [StreamEffect]: the type itself, its [Input], its
    [Output] and its [side_effect] *)
Record effect (V : Type) := mkEffect {
  ef_self : ty;
  ef_in : ty;
  ef_out : ty;
  ef_fun : V -> option V;
}.
Arguments mkEffect {V}. Arguments ef_self {V}. Arguments ef_in {V}.
Arguments ef_out {V}. Arguments ef_fun {V}.

(** * The table of stream targets *)

(** src/stream/stream_target_map.rs:33-37 [StreamTargetMap].  The hash maps
    are association lists; [tm_dups] counts the [DuplicateStream] errors. *)
Record tmap := mkTmap {
  tm_anon : list (ty * entity);
  tm_named : list (nat * (ty * entity));
  tm_dups : nat;
}.

(** src/stream/stream_target_map.rs:33 [Default] *)
Definition tmap_empty : tmap := mkTmap [] [] 0.

(** lookup in the hash map [anonymous] *)
Fixpoint look_ty (l : list (ty * entity)) (t : ty) : option entity :=
  match l with
  | [] => None
  | (u, e) :: l' => if ty_eqb u t then Some e else look_ty l' t
  end.

(** lookup in the hash map [named] *)
Fixpoint look_name {A} (l : list (nat * A)) (n : nat) : option A :=
  match l with
  | [] => None
  | (m, a) :: l' => if Nat.eqb m n then Some a else look_name l' n
  end.

(** src/stream/stream_target_map.rs:40-62 [add_anonymous] *)
Definition add_anonymous (t : ty) (target : entity) (m : tmap) : tmap :=
  match look_ty (tm_anon m) t with
  | None => mkTmap (tm_anon m ++ [(t, target)]) (tm_named m) (tm_dups m)
  | Some _ => mkTmap (tm_anon m) (tm_named m) (S (tm_dups m))
  end.

(** src/stream/stream_target_map.rs:64-87 [add_named] *)
Definition add_named (n : nat) (t : ty) (target : entity) (m : tmap) : tmap :=
  match look_name (tm_named m) n with
  | None => mkTmap (tm_anon m) (tm_named m ++ [(n, (t, target))]) (tm_dups m)
  | Some _ => mkTmap (tm_anon m) (tm_named m) (S (tm_dups m))
  end.

(** src/stream/stream_target_map.rs:93-95 [get_anonymous] *)
Definition get_anonymous (m : tmap) (t : ty) : option entity :=
  look_ty (tm_anon m) t.

(** src/stream/stream_target_map.rs:97-103 [get_named] *)
Definition get_named (m : tmap) (t : ty) (n : nat) : option entity :=
  match look_name (tm_named m) n with
  | Some (u, e) => if ty_eqb u t then Some e else None
  | None => None
  end.

(** src/stream/named_stream.rs:279-285 [NamedTarget] *)
Inductive ntarget := TNamedValue (e : entity) | TValue (e : entity).

(** src/stream/named_stream.rs:288-293 [as_entity] *)
Definition as_entity (t : ntarget) : entity :=
  match t with TNamedValue e => e | TValue e => e end.

(** [Option::map] and [Option::or_else], used by the lookups below *)
Definition omap {A B} (f : A -> B) (o : option A) : option B :=
  match o with Some a => Some (f a) | None => None end.
Definition or_else {A} (o p : option A) : option A :=
  match o with Some a => Some a | None => p end.

(** src/stream/stream_target_map.rs:105-116 [get_named_or_anonymous] *)
Definition get_named_or_anonymous (m : tmap) (t : ty) (n : nat) : option ntarget :=
  or_else (or_else (omap TValue (get_named m t n))
                   (omap TNamedValue (get_anonymous m (NamedTy t))))
          (omap TValue (get_anonymous m t)).

(** src/stream/named_stream.rs:228-236 [NamedStreamTargets] *)
Record ntargets := mkNtargets {
  nt_specific : list (nat * entity);
  nt_general : option entity;
  nt_anonymous : option entity;
}.

(** src/stream/named_stream.rs:246-251, the loop filling [specific] *)
Fixpoint specific_of (t : ty) (l : list (nat * (ty * entity))) : list (nat * entity) :=
  match l with
  | [] => []
  | (n, (u, e)) :: l' =>
      if ty_eqb u t then (n, e) :: specific_of t l' else specific_of t l'
  end.

(** src/stream/named_stream.rs:239-261 [NamedStreamTargets::new] *)
Definition ntargets_new (t : ty) (m : option tmap) : ntargets :=
  match m with
  | None => mkNtargets [] None None
  | Some m =>
      mkNtargets (specific_of t (tm_named m))
                 (get_anonymous m (NamedTy t)) (get_anonymous m t)
  end.

(** src/stream/named_stream.rs:263-276 [NamedStreamTargets::get] *)
Definition ntargets_get (ts : ntargets) (n : nat) : option ntarget :=
  or_else (or_else (omap TValue (look_name (nt_specific ts) n))
                   (omap TNamedValue (nt_general ts)))
          (omap TValue (nt_anonymous ts)).

(** The streams of a pack: an unnamed stream (src/stream/anonymous_stream.rs),
    a field of a derived pack (macros/src/derive_stream_pack.rs:122-270), or a
    dynamically named stream (src/stream/dynamically_named_stream.rs:49).  A
    pack is the list of its streams, nested tuples flattened
    (src/stream/stream_pack.rs:176-347). *)
Inductive stream (V : Type) :=
| SAnon (f : effect V)
| SNamed (n : nat) (f : effect V)
| SDyn (f : effect V).
Arguments SAnon {V}. Arguments SNamed {V}. Arguments SDyn {V}.

(** Entering the target of a stream into the table.
    anonymous_stream.rs:92-104, 106-123, 125-138; named_stream.rs:71-84, 86-99,
    101-116; dynamically_named_stream.rs:88-100, 102-119, 121-134 *)
Definition declare {V} (s : stream V) (target : entity) (m : tmap) : tmap :=
  match s with
  | SAnon f => add_anonymous (ef_out f) target m
  | SNamed n f => add_named n (ef_out f) target m
  | SDyn f => add_anonymous (NamedTy (ef_out f)) target m
  end.

(** src/stream/stream_pack.rs:222-232, 234-240, 242-251: the streams of the
    pack are declared one after the other *)
Definition declare_all {V} (ds : list (stream V * entity)) (m : tmap) : tmap :=
  fold_left (fun m d => declare (fst d) (snd d) m) ds m.

(** * Sending *)

(** An entity that may receive items: its [InputStorage<T>] (the type and the
    [reverse_queue], newest first) and whether it is an [UnusedTarget].
    src/input.rs:50-59, src/operation.rs:209 *)
Record node (V : Type) := mkNode {
  nd_ty : option ty;
  nd_unused : bool;
  nd_queue : list (entity * datum V);
}.
Arguments mkNode {V}. Arguments nd_ty {V}. Arguments nd_unused {V}. Arguments nd_queue {V}.

(** [st_broken]: the nodes for which an error was put into the resource of
    unhandled errors.  [st_cancel]: the nodes of which the execution failed, so
    that the scope they belong to was told to cancel all of its sessions.
    [st_coll e] are the collections held by entity [e]: the stored type and
    the items, oldest first (src/series.rs:352-367 [Storage], [Collection]) *)
Record st (V : Type) := mkSt {
  st_nodes : entity -> option (node V);
  st_active : entity -> bool;
  st_wakes : list entity;
  st_broken : list entity;
  st_cancel : list entity;
  st_coll : entity -> option (list (ty * entity * datum V));
}.
Arguments mkSt {V}. Arguments st_nodes {V}. Arguments st_active {V}.
Arguments st_wakes {V}. Arguments st_broken {V}. Arguments st_cancel {V}.
Arguments st_coll {V}.

(** replacing one entity *)
Definition put_node {V} (e : entity) (n : option (node V)) (w : st V) : st V :=
  mkSt (emap_set (st_nodes w) e n) (st_active w) (st_wakes w) (st_broken w) (st_cancel w) (st_coll w).

(** src/operation.rs [OperationRoster::queue] *)
Definition wake {V} (e : entity) (w : st V) : st V :=
  mkSt (st_nodes w) (st_active w) (st_wakes w ++ [e]) (st_broken w) (st_cancel w) (st_coll w).

(** src/operation.rs:590-602 [report_unhandled]: [None] stands for
    [Err(Broken)] *)
Definition report_unhandled {V} (source : entity) (w : st V) (r : option (st V)) : st V :=
  match r with
  | Some w' => w'
  | None =>
      mkSt (st_nodes w) (st_active w) (st_wakes w) (st_broken w ++ [source])
           (st_cancel w) (st_coll w)
  end.

(** src/operation.rs:719-733 [perform_operation] and src/cancel.rs:417-433
    [emit_broken]: when the execution of an operation ends with [Broken], its
    scope is told to cancel, without naming a session, which means all of
    them.  [None] stands for [Err(Broken)]. *)
Definition perform {V} (self : entity) (w : st V) (r : option (st V)) : st V :=
  match r with
  | Some w' => w'
  | None =>
      mkSt (st_nodes w) (st_active w) (st_wakes w) (st_broken w)
           (st_cancel w ++ [self]) (st_coll w)
  end.

(** src/input.rs:173-183 [give_input] with 197-262 [sneak_input].  The branch
    for detached series (224-235) is left out: stream targets are no such
    series.  [None] stands for [Err(Broken)]. *)
Definition give_input {V} (e : entity) (n : node V) (session : entity) (t : ty)
    (d : datum V) (w : st V) : option (st V) :=
  if negb (st_active w session) then Some w
  else
    match nd_ty n with
    | Some u =>
        if ty_eqb u t
        then Some (wake e (put_node e
               (Some (mkNode (nd_ty n) (nd_unused n) ((session, d) :: nd_queue n))) w))
        else if nd_unused n then Some (wake e w) else None
    | None => if nd_unused n then Some (wake e w) else None
    end.

(** src/stream.rs:132-148 [StreamRequest::send_output] *)
Definition send_output {V} (session : entity) (target : option entity) (t : ty)
    (d : datum V) (w : st V) : option (st V) :=
  match target with
  | None => Some w
  | Some e =>
      match st_nodes w e with
      | None => None
      | Some n => give_input e n session t d w
      end
  end.

(** src/stream/named_stream.rs:295-304 [NamedTarget::send_output]; the target
    of the request is the entity of the named target *)
Definition ntarget_send {V} (session : entity) (tg : ntarget) (t : ty) (n : nat) (v : V)
    (w : st V) : option (st V) :=
  match tg with
  | TNamedValue e => send_output session (Some e) (NamedTy t) (Named n v) w
  | TValue e => send_output session (Some e) t (Plain v) w
  end.

(** One item of an unnamed stream: the side effect, then the output.
    anonymous_stream.rs:172-182 (processing), 264-274 (deferred);
    stream_channel.rs:41-51 (channel) *)
Definition anon_item {V} (f : effect V) (source session : entity) (target : option entity)
    (w : st V) (v : V) : st V :=
  report_unhandled source w
    (match ef_fun f v with
     | None => None
     | Some v' => send_output session target (ef_out f) (Plain v') w
     end).

(** One item of a named stream.  named_stream.rs:154-177 (processing),
    341-357 (deferred), 525-540 (channel);
    dynamically_named_stream.rs:166-181 *)
Definition named_item {V} (f : effect V) (source session : entity) (ts : ntargets)
    (w : st V) (i : nat * V) : st V :=
  let target := ntargets_get ts (fst i) in
  report_unhandled source w
    (match ef_fun f (snd i) with
     | None => None
     | Some v' =>
         match target with
         | Some tg => ntarget_send session tg (ef_out f) (fst i) v' w
         | None => Some w
         end
     end).

(** What a node holds to send on a stream: the targets that were looked up
    when its channel or buffer was made.
    anonymous_stream.rs:140-154; named_stream.rs:118-134;
    dynamically_named_stream.rs:136-148 *)
Inductive handle (V : Type) :=
| HAnon (f : effect V) (target : option entity)
| HNamed (n : nat) (f : effect V) (ts : ntargets)
| HDyn (f : effect V) (ts : ntargets).
Arguments HAnon {V}. Arguments HNamed {V}. Arguments HDyn {V}.

Definition make_handle {V} (s : stream V) (m : option tmap) : handle V :=
  match s with
  | SAnon f =>
      HAnon f (match m with Some m => get_anonymous m (ef_out f) | None => None end)
  | SNamed n f => HNamed n f (ntargets_new (ef_out f) m)
  | SDyn f => HDyn f (ntargets_new (ef_out f) m)
  end.

(** An item as the sender gives it: the value, and for a dynamically named
    stream also a name (ignored by the other streams). *)
Definition item (V : Type) : Type := (nat * V)%type.

(** Blocking nodes: the items are pushed to the end of the container
    (stream_buffer.rs:41-44; named_stream.rs:558-562) and sent when the
    node's function has returned: anonymous_stream.rs:156-190;
    named_stream.rs:136-185; dynamically_named_stream.rs:150-189.  The error
    for a container that is still shared is not modelled. *)
Definition process_buffer {V} (h : handle V) (source session : entity)
    (items : list (item V)) (w : st V) : st V :=
  match h with
  | HAnon f target =>
      fold_left (fun w i => anon_item f source session target w (snd i)) items w
  | HNamed n f ts =>
      fold_left (fun w i => named_item f source session ts w (n, snd i)) items w
  | HDyn f ts => fold_left (fun w i => named_item f source session ts w i) items w
  end.

(** Continuous nodes: the items are given names (named_stream.rs:195-203), a
    command is queued, and the command sends them: anonymous_stream.rs:192-204
    and 260-277; named_stream.rs:187-209 and 337-360;
    dynamically_named_stream.rs:191-203 *)
Inductive command (V : Type) :=
| SendAnon (f : effect V) (target : option entity) (container : list V)
| SendNamed (f : effect V) (ts : ntargets) (container : list (nat * V)).
Arguments SendAnon {V}. Arguments SendNamed {V}.

Definition defer_buffer {V} (h : handle V) (items : list (item V)) : command V :=
  match h with
  | HAnon f target => SendAnon f target (map snd items)
  | HNamed n f ts => SendNamed f ts (map (fun i => (n, snd i)) items)
  | HDyn f ts => SendNamed f ts items
  end.

Definition apply_command {V} (c : command V) (source session : entity) (w : st V) : st V :=
  match c with
  | SendAnon f target container => fold_left (anon_item f source session target) container w
  | SendNamed f ts container => fold_left (named_item f source session ts) container w
  end.

(** Async nodes: each call of [send] puts one closure into the channel
    (stream_channel.rs:33-55; named_stream.rs:480-490;
    dynamically_named_stream.rs:236-247), and the flush runs the closures in
    the order of the channel (FlushModel). *)
Definition channel_send {V} (h : handle V) (source session : entity) (i : item V)
    : st V -> st V :=
  match h with
  | HAnon f target => fun w => anon_item f source session target w (snd i)
  | HNamed n f ts => fun w => named_item f source session ts w (n, snd i)
  | HDyn f ts => fun w => named_item f source session ts w i
  end.

Definition run_channel {V} (queue : list (st V -> st V)) (w : st V) : st V :=
  fold_left (fun w g => g w) queue w.

(** * Streams that leave a workflow or a scope *)

(** The nodes at which a stream leaves.  [RScope]: [RedirectScopeStream]
    (src/operation/scope.rs:1993-2074).  The others are
    [RedirectWorkflowStream] (2076-2117) of an [AnonymousStreamRedirect]
    (2125-2210, made without a name by anonymous_stream.rs:82-90), and of a
    [NamedStreamRedirect] with a static name or without
    (named_stream.rs:363-382). *)
Inductive redirect (V : Type) :=
| RScope (f : effect V) (target : entity)
| RAnon (f : effect V)
| RStatic (n : nat) (f : effect V)
| RDyn (f : effect V).
Arguments RScope {V}. Arguments RAnon {V}. Arguments RStatic {V}. Arguments RDyn {V}.

(** The type of the input storage made by [setup].  scope.rs:2014-2017,
    2143-2145; named_stream.rs:392-400.  For a dynamically named stream in a
    scope, [f] is the effect of [DynamicallyNamedStream<S>] itself
    (dynamically_named_stream.rs:37-47, 66-70). *)
Definition storage_ty {V} (r : redirect V) : ty :=
  match r with
  | RScope f _ => ef_in f
  | RAnon f => ef_in f
  | RStatic _ f => ef_in f
  | RDyn f => NamedTy (ef_in f)
  end.

(** The type that [is_reachable] and [cleanup] ask for.  scope.rs:2056, 2071
    ([S] itself); 2099, 2114 ([S::Input] of the redirect, that is
    scope.rs:2140 or named_stream.rs:388) *)
Definition asked_ty {V} (r : redirect V) : ty :=
  match r with
  | RScope f _ => ef_self f
  | RAnon f => ef_in f
  | RStatic _ f => NamedTy (ef_in f)
  | RDyn f => NamedTy (ef_in f)
  end.

(** The redirect as a node of the world. *)
Definition redirect_node {V} (r : redirect V) (queue : list (entity * datum V)) : node V :=
  mkNode (Some (storage_ty r)) false queue.

(** src/input.rs:377-389 [has_input]; [None] stands for [Err(Broken)] *)
Definition has_input {V} (n : node V) (t : ty) (session : entity) : option bool :=
  match nd_ty n with
  | Some u =>
      if ty_eqb u t
      then Some (existsb (fun i => Nat.eqb (fst i) session) (nd_queue n))
      else None
  | None => None
  end.

(** scope.rs:2055-2066 and 2098-2109 [is_reachable]; [upstream] is the answer
    for the scope itself *)
Definition redirect_reachable {V} (r : redirect V) (n : node V) (session : entity)
    (upstream : option bool) : option bool :=
  match has_input n (asked_ty r) session with
  | None => None
  | Some true => Some true
  | Some false => upstream
  end.

(** src/input.rs:330-374 [cleanup_inputs] for a node that is no buffer *)
Definition cleanup_inputs {V} (n : node V) (t : ty) (session : entity) : node V :=
  match nd_ty n with
  | Some u =>
      if ty_eqb u t
      then mkNode (nd_ty n) (nd_unused n)
             (filter (fun i => negb (Nat.eqb (fst i) session)) (nd_queue n))
      else n
  | None => n
  end.

(** scope.rs:2068-2073 and 2111-2116 [cleanup], without the notification *)
Definition redirect_cleanup {V} (r : redirect V) (n : node V) (session : entity) : node V :=
  cleanup_inputs n (asked_ty r) session.

(** scope.rs:1985-1991 [ExitTarget]: where the outcome of the session goes;
    only the stream targets of its source and the parent session matter here.
    For [RScope] the parent session is the [ParentSession] of the session
    (2038-2041) and the table plays no role. *)
Record exit := mkExit { ex_map : tmap; ex_parent : entity }.

(** the data of an item, as the redirect receives it *)
Definition value_of {V} (d : datum V) : V := match d with Plain v => v | Named _ v => v end.
Definition name_of {V} (d : datum V) : nat := match d with Plain _ => 0 | Named n _ => n end.

(** Executing a redirect [self]: scope.rs:2021-2053, 2149-2209;
    named_stream.rs:407-469.  The oldest input is taken.  If the session has
    no exit any more the item is discarded: for a workflow by [or_not_ready],
    for a scope by [or_broken].  A node that is gone is skipped
    (src/operation.rs:678-698). *)
Definition redirect_execute {V} (r : redirect V) (exits : entity -> option exit)
    (self : entity) (w : st V) : st V :=
  match st_nodes w self with
  | None => w
  | Some n =>
      match pop_last (nd_queue n) with
      | (_, None) => w
      | (q, Some (session, d)) =>
          let w := put_node self (Some (mkNode (nd_ty n) (nd_unused n) q)) w in
          match exits session with
          | None =>
              match r with RScope _ _ => perform self w None | _ => w end
          | Some x =>
              match r with
              | RScope f target =>
                  perform self w
                    (match ef_fun f (value_of d) with
                     | None => None
                     | Some v' =>
                         send_output (ex_parent x) (Some target) (ef_out f)
                           (match d with Plain _ => Plain v' | Named k _ => Named k v' end) w
                     end)
              | RAnon f =>
                  perform self w
                    (match ef_fun f (value_of d) with
                     | None => None
                     | Some v' =>
                         send_output (ex_parent x) (get_anonymous (ex_map x) (ef_out f))
                           (ef_out f) (Plain v') w
                     end)
              | RStatic k f =>
                  perform self w
                    (match ef_fun f (value_of d) with
                     | None => None
                     | Some v' =>
                         match get_named_or_anonymous (ex_map x) (ef_out f) k with
                         | Some tg => ntarget_send (ex_parent x) tg (ef_out f) k v' w
                         | None => Some w
                         end
                     end)
              | RDyn f =>
                  perform self w
                    (match ef_fun f (value_of d) with
                     | None => None
                     | Some v' =>
                         match get_named_or_anonymous (ex_map x) (ef_out f) (name_of d) with
                         | Some tg =>
                             ntarget_send (ex_parent x) tg (ef_out f) (name_of d) v' w
                         | None => Some w
                         end
                     end)
              end
          end
      end
  end.

(** executing the redirect several times, once for each wake-up *)
Fixpoint redirect_run {V} (k : nat) (r : redirect V) (exits : entity -> option exit)
    (self : entity) (w : st V) : st V :=
  match k with
  | 0 => w
  | S k' => redirect_run k' r exits self (redirect_execute r exits self w)
  end.

(** * Streams that are received outside *)

(** src/series/push.rs:32-55 [PushSettings] *)
Record push := mkPush { ps_target : entity; ps_stream : bool; ps_name : option nat }.

(** src/series/push.rs:68-102 [Push::execute] of the items of type [t].  The
    items are appended to the collection of their type (or of the named type)
    in the target; the redirect then despawns itself if it is a stream.
    Despawning an entity drops the inputs that wait in it. *)
Definition push_execute {V} (p : push) (t : ty) (self : entity) (w : st V) : st V :=
  match st_nodes w self with
  | None => w
  | Some n =>
      match pop_last (nd_queue n) with
      | (_, None) => w
      | (q, Some (session, d)) =>
          let w := put_node self (Some (mkNode (nd_ty n) (nd_unused n) q)) w in
          match st_coll w (ps_target p) with
          | None => perform self w None
          | Some items =>
              let entry :=
                match ps_name p with
                | Some k => (NamedTy t, session, Named k (value_of d))
                | None => (t, session, d)
                end in
              let w :=
                mkSt (st_nodes w) (st_active w) (st_wakes w) (st_broken w) (st_cancel w)
                     (emap_set (st_coll w) (ps_target p) (Some (items ++ [entry]))) in
              if ps_stream p then put_node self None w else w
          end
      end
  end.

(** src/series/taken.rs:87-93 [TakenStream::execute]: the receiver gets the
    item.  [received] is what the receiver has been sent, oldest first. *)
Definition taken_execute {V} (self : entity) (s : st V * list (datum V))
    : st V * list (datum V) :=
  let (w, received) := s in
  match st_nodes w self with
  | None => (w, received)
  | Some n =>
      match pop_last (nd_queue n) with
      | (_, None) => (w, received)
      | (q, Some (_, d)) =>
          (put_node self (Some (mkNode (nd_ty n) (nd_unused n) q)) w, received ++ [d])
      end
  end.

(** A history of a stream whose target is [self]: items are sent to it by the
    node [source], and it is executed, in any order. *)
Inductive happening (V : Type) := Send (v : V) | Execute.
Arguments Send {V}. Arguments Execute {V}.

Definition push_step {V} (p : push) (f : effect V) (source session self : entity)
    (w : st V) (h : happening V) : st V :=
  match h with
  | Send v => anon_item f source session (Some self) w v
  | Execute => push_execute p (ef_out f) self w
  end.

Definition push_run {V} (p : push) (f : effect V) (source session self : entity)
    (hs : list (happening V)) (w : st V) : st V :=
  fold_left (push_step p f source session self) hs w.

Definition taken_step {V} (f : effect V) (source session self : entity)
    (s : st V * list (datum V)) (h : happening V) : st V * list (datum V) :=
  match h with
  | Send v => (anon_item f source session (Some self) (fst s) v, snd s)
  | Execute => taken_execute self s
  end.

Definition taken_run {V} (f : effect V) (source session self : entity)
    (hs : list (happening V)) (s : st V * list (datum V)) : st V * list (datum V) :=
  fold_left (taken_step f source session self) hs s.

(** * Which streams a service offers *)

(** src/stream/stream_availability.rs:29-33 [StreamAvailability]; of a named
    stream only the type of the value is kept, since the other type is
    computed from it (100-113) *)
Record avail := mkAvail { av_anon : list ty; av_named : list (nat * ty) }.

(** [Default] *)
Definition avail_empty : avail := mkAvail [] [].

(** stream_availability.rs:57-59 [dyn_has_anonymous] *)
Definition has_anonymous (a : avail) (t : ty) : bool := existsb (ty_eqb t) (av_anon a).

(** stream_availability.rs:65-69 [dyn_has_named] *)
Definition has_named (a : avail) (n : nat) (t : ty) : bool :=
  match look_name (av_named a) n with
  | Some u => ty_eqb u t
  | None => false
  end.

(** [set_stream_availability] of one stream: anonymous_stream.rs:206-208;
    macros/src/derive_stream_pack.rs:235-239 with stream_availability.rs:40-51
    [add_named] (its error is ignored); dynamically_named_stream.rs:205-207 *)
Definition offer {V} (a : avail) (s : stream V) : avail :=
  match s with
  | SAnon f => mkAvail (ef_out f :: av_anon a) (av_named a)
  | SNamed n f =>
      match look_name (av_named a) n with
      | None => mkAvail (av_anon a) (av_named a ++ [(n, ef_out f)])
      | Some _ => a
      end
  | SDyn f => mkAvail (NamedTy (ef_out f) :: av_anon a) (av_named a)
  end.

(** stream_pack.rs:301-305: for a whole pack.  The component is put on the
    provider by src/service/service_builder.rs:137-138, 201-202 and
    src/workflow.rs:262-263. *)
Definition offers {V} (pack : list (stream V)) : avail := fold_left offer pack avail_empty.

(** [are_streams_available] of one stream: anonymous_stream.rs:210-212;
    derive_stream_pack.rs:241-246; dynamically_named_stream.rs:209-211 *)
Definition available {V} (a : avail) (s : stream V) : bool :=
  match s with
  | SAnon f => has_anonymous a (ef_out f)
  | SNamed n f => has_named a n (ef_out f)
  | SDyn f => has_anonymous a (ef_out f)
  end.

(** A filter of [ServiceDiscovery]: src/stream/stream_filter.rs:72-108 *)
Inductive sfilter (V : Type) :=
| Require (pack : list (stream V))
| Optional (pack : list (stream V))
| FTuple (fs : list (sfilter V)).
Arguments Require {V}. Arguments Optional {V}. Arguments FTuple {V}.

(** stream_filter.rs:72-80 [Require], 82-88 [Option], 90-108 tuples; for a
    pack stream_pack.rs:307-312 *)
Fixpoint required_available {V} (a : option avail) (f : sfilter V) : bool :=
  match f with
  | Require pack =>
      match a with
      | None => false
      | Some a => forallb (available a) pack
      end
  | Optional _ => true
  | FTuple fs => forallb (required_available a) fs
  end.

(** A provider as the query of the discovery sees it: the request and response
    types in its [ServiceMarker] and its availability.  src/service/discovery.rs:41-46 *)
Record provider := mkProvider { pv_id : entity; pv_marker : ty * ty; pv_avail : option avail }.

(** src/service/discovery.rs:58-65 and 105-120 [iter], with no extra query
    filter *)
Definition discover {V} (marker : ty * ty) (f : sfilter V) (ps : list provider) : list entity :=
  map pv_id
    (filter (fun p => required_available (pv_avail p) f)
       (filter (fun p => ty_eqb (fst (pv_marker p)) (fst marker)
                         && ty_eqb (snd (pv_marker p)) (snd marker)) ps)).

(** stream_availability.rs:71-90 [can_cast_to] *)
Definition can_cast_to (a target : avail) : bool :=
  forallb (has_anonymous target) (av_anon a)
  && forallb (fun nt => match look_name (av_named target) (fst nt) with
                        | Some u => ty_eqb (snd nt) u
                        | None => has_anonymous target (NamedTy (snd nt))
                        end) (av_named a).

(** src/service.rs:164-183 [Service::stream_cast] from the streams [from] to
    the streams [to]: whether the cast is allowed *)
Definition stream_cast {V} (from to : list (stream V)) : bool :=
  can_cast_to (offers from) (offers to).
