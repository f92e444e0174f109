(** Model of the operations that pass one message on: src/operation/fork_clone.rs,
    fork_unzip.rs, branching.rs, spread.rs, collect.rs, operate_split.rs, with
    src/chain/unzip.rs, src/chain/split.rs and the emission of disposals in
    src/disposal.rs. No proofs in this file. *)
From Verif Require Import Base RosterModel BufferModel InputModel GateModel.

(** Message payloads. The Rust type of a message is fixed by the connection it travels
    on; here all messages have one type. An operation that meets a value of another
    shape than its own input type answers Broken, as with a missing [InputStorage<T>]. *)
Inductive val :=
| VUnit
| VAtom (n : nat)
| VTuple (l : list val)
| VOk (v : val)
| VErr (v : val)
| VSome (v : val)
| VNone
| VList (l : list val).

(** Keys of src/chain/split.rs:504-509 [ListSplitKey] ([KSequential], [KRemaining]) and
    666-675 [MapSplitKey]. Map keys are numbers. *)
Inductive skey :=
| KSpecific (k : nat)
| KSequential (i : nat)
| KRemaining.

Definition skey_eqb (a b : skey) : bool :=
  match a, b with
  | KSpecific i, KSpecific j => Nat.eqb i j
  | KSequential i, KSequential j => Nat.eqb i j
  | KRemaining, KRemaining => true
  | _, _ => false
  end.

(** src/disposal.rs:142-212 [DisposalCause], the causes that appear in the model. *)
Inductive disposal :=
| DBranching (at_node target : entity)
| DEmptySpread (at_node : entity)
| DDeficient (at_node : entity) (min actual : nat)
| DIncompleteSplit (at_node : entity) (missing : list (option skey))
| DSupplanted (at_node by_node by_session : entity)
| DFiltered (at_node : entity)
| DClosedGate (gate : entity) (buffers : list entity)
| DTrimming (trimmer : entity) (nodes : list entity)
| DUnusedStreams (at_node : entity)
| DTaskDespawned (task node : entity)
| DServiceUnavailable (service node : entity)
| DBufferKey (accessor buffer : entity)
| DScopeCancelled (cause : nat).

(** src/operation/operate_split.rs:29-41 [OperateSplit] with the [ForkTargetStorage] of
    the node. [index_to_key] holds the keys instead of their debug text. *)
Record split_state := mk_split {
  sp_connections : list (skey * nat);
  sp_index_to_key : list skey;
  sp_cache : option (list (list val));
  sp_targets : list entity;
}.

(** The world as the operations see it. [o_w]: inputs, session statuses and roster.
    [o_scope]: [ScopeStorage]; [o_series]: [SeriesMarker]; [o_disp]: [DisposalStorage];
    [o_unhandled]: [UnhandledErrors::disposals]; [o_coll]: [CollectionStorage::map];
    [o_split]: [OperateSplit]; [o_bufs]: the buffers. *)
Record oworld := mk_ow {
  o_w : world val;
  o_scope : emap entity;
  o_series : entity -> bool;
  o_disp : entity -> entity -> list disposal;
  o_unhandled : list (entity * disposal);
  o_coll : entity -> emap (list val);
  o_split : emap split_state;
  o_bufs : emap (bufnode val);
}.

Definition with_w (o : oworld) (w : world val) : oworld :=
  mk_ow w (o_scope o) (o_series o) (o_disp o) (o_unhandled o) (o_coll o) (o_split o) (o_bufs o).
Definition with_roster (o : oworld) (r : roster) : oworld :=
  with_w o (mk_world (w_nodes (o_w o)) (w_status (o_w o)) r).
Definition with_disp (o : oworld) (d : entity -> entity -> list disposal) : oworld :=
  mk_ow (o_w o) (o_scope o) (o_series o) d (o_unhandled o) (o_coll o) (o_split o) (o_bufs o).
Definition with_unhandled (o : oworld) (u : list (entity * disposal)) : oworld :=
  mk_ow (o_w o) (o_scope o) (o_series o) (o_disp o) u (o_coll o) (o_split o) (o_bufs o).
Definition with_coll (o : oworld) (c : entity -> emap (list val)) : oworld :=
  mk_ow (o_w o) (o_scope o) (o_series o) (o_disp o) (o_unhandled o) c (o_split o) (o_bufs o).
Definition with_split (o : oworld) (s : emap split_state) : oworld :=
  mk_ow (o_w o) (o_scope o) (o_series o) (o_disp o) (o_unhandled o) (o_coll o) s (o_bufs o).
Definition with_bufs (o : oworld) (b : emap (bufnode val)) : oworld :=
  mk_ow (o_w o) (o_scope o) (o_series o) (o_disp o) (o_unhandled o) (o_coll o) (o_split o) b.

(** Result of [Operation::execute]; [OpPanic]: the code panics. *)
Inductive opres := OpOk | OpNotReady | OpBroken | OpPanic.

(** Update at one pair of keys. *)
Definition set2 {B} (m : entity -> entity -> B) (n s : entity) (b : B) : entity -> entity -> B :=
  fun n' s' => if Nat.eqb n' n && Nat.eqb s' s then b else m n' s'.

(** src/disposal.rs:492-544 [ManageDisposal::emit_disposal] and 598-617 [emit_disposal].
    The cancellation cause of a supplanted series is reduced to 1. *)
Definition emit_disposal (o : oworld) (n s : entity) (d : disposal) : oworld :=
  match w_nodes (o_w o) n with
  | None => with_unhandled o (o_unhandled o ++ [(n, d)])
  | Some nd =>
      match o_scope o n with
      | Some sc =>
          let o1 := with_disp o (set2 (o_disp o) n s (o_disp o n s ++ [d])) in
          with_roster o1 (ro_disposed (w_roster (o_w o1)) (mk_disposal sc n s))
      | None =>
          if o_series o n then
            match d with
            | DSupplanted _ _ _ =>
                with_roster o (ro_cancel (w_roster (o_w o)) (mk_cancel n s (Some s) 1))
            | _ => o
            end
          else if n_unused nd then o
          else with_unhandled o (o_unhandled o ++ [(n, d)])
      end
  end.

(** src/disposal.rs:546-550 [clear_disposals]. *)
Definition clear_disposals (o : oworld) (n s : entity) : oworld :=
  with_disp o (set2 (o_disp o) n s []).

(** [give_input] (src/input.rs:173-183) inside the larger world. *)
Definition o_give (o : oworld) (t s : entity) (v : val) : oworld * bool :=
  let '(w, ok) := give_input (o_w o) t s v in (with_w o w, ok).

(** Several messages for one session, stopping at the first error. *)
Fixpoint o_give_all (o : oworld) (s : entity) (l : list (entity * val)) : oworld * bool :=
  match l with
  | [] => (o, true)
  | (t, v) :: l' =>
      match o_give o t s v with
      | (o1, true) => o_give_all o1 s l'
      | (o1, false) => (o1, false)
      end
  end.

Definition o_take (o : oworld) (n : entity) : oworld * take_result val :=
  let '(w, t) := take_input (o_w o) n in (with_w o w, t).

(** Every [execute] starts by taking one input of its own type. *)
Definition with_input (o : oworld) (n : entity) (f : oworld -> entity -> val -> oworld * opres)
  : oworld * opres :=
  match o_take o n with
  | (o1, Took (s, v)) => f o1 s v
  | (o1, NotReady) => (o1, OpNotReady)
  | (o1, TakeBroken) => (o1, OpBroken)
  end.

Definition res (p : oworld * bool) : oworld * opres :=
  (fst p, if snd p then OpOk else OpBroken).

(** src/operation/fork_clone.rs:60-94 [execute]. With no target at all, line 85
    subtracts 1 from 0 and slices out of range. *)
Definition fork_clone_execute (targets : list entity) (n : entity) (o : oworld) : oworld * opres :=
  with_input o n (fun o1 s v =>
    match targets with
    | [] => (o1, OpPanic)
    | _ =>
        match o_give_all o1 s (map (fun t => (t, v)) (removelast targets)) with
        | (o2, false) => (o2, OpBroken)
        | (o2, true) =>
            match last_opt targets with
            | Some t => res (o_give o2 t s v)
            | None => (o2, OpOk)
            end
        end
    end).

(** src/operation/fork_clone.rs:132-141 [try_add_branch_to_fork_clone]. *)
Definition add_branch (targets : list entity) (t : entity) : list entity := targets ++ [t].

(** src/chain/unzip.rs:72-87 [distribute_values] (called from
    src/operation/fork_unzip.rs:52-54): too few targets is Broken, a target entity that
    no longer exists is skipped. *)
Fixpoint unzip_distribute (o : oworld) (s : entity) (l : list (entity * val)) : oworld * bool :=
  match l with
  | [] => (o, true)
  | (t, v) :: l' =>
      match w_nodes (o_w o) t with
      | None => unzip_distribute o s l'
      | Some _ =>
          match o_give o t s v with
          | (o1, true) => unzip_distribute o1 s l'
          | (o1, false) => (o1, false)
          end
      end
  end.

Definition unzip_execute (targets : list entity) (n : entity) (o : oworld) : oworld * opres :=
  with_input o n (fun o1 s v =>
    match v with
    | VTuple vs =>
        if length targets <? length vs then (o1, OpBroken)
        else res (unzip_distribute o1 s (combine targets vs))
    | _ => (o1, OpBroken)
    end).

(** src/operation/branching.rs:182-187 [branch_result], 197-202 [branch_option]: what
    goes to the first and to the second branch ([None]: disposed of). The reasons are
    not modelled. *)
Definition branch_result (v : val) : option (option val * option val) :=
  match v with
  | VOk x => Some (Some x, None)
  | VErr e => Some (None, Some e)
  | _ => None
  end.

Definition branch_option (v : val) : option (option val * option val) :=
  match v with
  | VSome x => Some (Some x, None)
  | VNone => Some (None, Some VUnit)
  | _ => None
  end.

(** src/operation/branching.rs:146-156 (and the same at 158-168): one branch. *)
Definition branch_to (o : oworld) (n s t : entity) (a : option val) : oworld * bool :=
  match w_nodes (o_w o) t with
  | None => (o, false)
  | Some _ =>
      match a with
      | Some v => o_give o t s v
      | None => (emit_disposal o n s (DBranching n t), true)
      end
  end.

(** src/operation/branching.rs:80-96 [execute] and 134-171 [activate]. *)
Definition branching_execute (activator : val -> option (option val * option val))
    (targets : list entity) (n : entity) (o : oworld) : oworld * opres :=
  with_input o n (fun o1 s v =>
    match activator v with
    | None => (o1, OpBroken)
    | Some (a, b) =>
        match nth_error targets 0, nth_error targets 1 with
        | Some ta, Some tb =>
            match branch_to o1 n s ta a with
            | (o2, false) => (o2, OpBroken)
            | (o2, true) => res (branch_to o2 n s tb b)
            end
        | _, _ => (o1, OpBroken)
        end
    end).

(** src/operation/spread.rs:59-85 [execute]. *)
Definition spread_execute (t n : entity) (o : oworld) : oworld * opres :=
  with_input o n (fun o1 s v =>
    match v with
    | VList l =>
        match w_nodes (o_w o1) t with
        | None => (o1, OpBroken)
        | Some _ =>
            match o_give_all o1 s (map (fun x => (t, x)) l) with
            | (o2, false) => (o2, OpBroken)
            | (o2, true) =>
                match l with
                | [] => (emit_disposal o2 n s (DEmptySpread n), OpOk)
                | _ => (o2, OpOk)
                end
            end
        end
    | _ => (o1, OpBroken)
    end).

(** src/operation/collect.rs:62-65: the assertions of [setup]; [false]: panic. *)
Definition collect_setup_ok (min : nat) (max : option nat) : bool :=
  match max with
  | Some m => (0 <? m) && (min <=? m)
  | None => true
  end.

(** What a collect has gathered for a session. *)
Definition progress (o : oworld) (n s : entity) : list val :=
  match o_coll o n s with Some l => l | None => [] end.

Definition set_progress (o : oworld) (n s : entity) (l : list val) : oworld :=
  with_coll o (fun n' => if Nat.eqb n' n then emap_set (o_coll o n) s (Some l) else o_coll o n').

(** src/operation/collect.rs:249-284 [on_unreachable_collection]. *)
Definition on_unreachable (o : oworld) (n s t min len : nat) : oworld * opres :=
  if len <? min then (emit_disposal o n s (DDeficient n min len), OpOk)
  else
    let out := progress o n s in
    res (o_give (set_progress o n s []) t s (VList out)).

(** src/operation/collect.rs:78-118 [execute]. [active] is [is_upstream_active]
    (222-247), [None] standing for its error. *)
Definition collect_execute (active : oworld -> entity -> entity -> option entity -> option bool)
    (min : nat) (max : option nat) (t n : entity) (o : oworld) : oworld * opres :=
  with_input o n (fun o1 s v =>
    let l := progress o1 n s ++ [v] in
    let o2 := set_progress o1 n s l in
    let len := length l in
    if match max with Some m => m <=? len | None => false end then
      res (o_give (set_progress o2 n s []) t s (VList l))
    else
      match active o2 s n None with
      | None => (o2, OpBroken)
      | Some true => (o2, OpOk)
      | Some false => on_unreachable o2 n s t min len
      end).

(** src/operation/collect.rs:185-220 [collection_disposal_listener]. [downstream] is
    [is_downstream_of] (src/operation.rs:792-818). *)
Definition collect_disposal (active : oworld -> entity -> entity -> option entity -> option bool)
    (downstream : entity -> entity -> bool)
    (min : nat) (t n origin s : entity) (o : oworld) : oworld * opres :=
  if Nat.eqb n origin then (o, OpOk)
  else if negb (downstream origin n) then (o, OpOk)
  else
    match active o s n (Some origin) with
    | None => (o, OpBroken)
    | Some true => (o, OpOk)
    | Some false => on_unreachable o n s t min (length (progress o n s))
    end.

(** src/operation/collect.rs:120-130 [cleanup] without the notification of the cleaner.
    [by_scope]: the cleaner is the scope of the node, src/operation/cleanup.rs:88-97. *)
Definition collect_cleanup (by_scope : bool) (n s : entity) (o : oworld) : oworld :=
  let o1 := with_w o (cleanup_inputs (o_w o) n s) in
  let o2 := if by_scope then clear_disposals o1 n s else o1 in
  with_coll o2 (fun n' => if Nat.eqb n' n then emap_set (o_coll o2 n) s None else o_coll o2 n').

(** What happens to a collect node: a message arrives, the node executes, the node is
    told of a disposal, a session is cleaned. The answers of the reachability checks are
    part of the history: every answer is considered. *)
Inductive cop :=
| CArrive (s : entity) (v : val)
| CExec (active : option bool)
| CNotice (origin s : entity) (downstream : bool) (active : option bool)
| CCleanup (by_scope : bool) (s : entity).

Definition cstep (min : nat) (max : option nat) (t n : entity) (o : oworld) (c : cop) : oworld :=
  match c with
  | CArrive s v => fst (o_give o n s v)
  | CExec a => fst (collect_execute (fun _ _ _ _ => a) min max t n o)
  | CNotice origin s d a =>
      fst (collect_disposal (fun _ _ _ _ => a) (fun _ _ => d) min t n origin s o)
  | CCleanup b s => collect_cleanup b n s o
  end.

Definition crun (min : nat) (max : option nat) (t n : entity) (o : oworld) (ops : list cop) : oworld :=
  fold_left (cstep min max t n) ops o.

(** src/chain/split.rs:464-474 [SplitDispatcher::outputs_for]: the index of a key. *)
Fixpoint sp_lookup (c : list (skey * nat)) (k : skey) : option nat :=
  match c with
  | [] => None
  | (k', i) :: c' => if skey_eqb k k' then Some i else sp_lookup c' k
  end.

Definition resize_to (outs : list (list val)) (n : nat) : list (list val) :=
  outs ++ repeat [] (n - length outs).

Definition sp_push (c : list (skey * nat)) (outs : list (list val)) (k : skey) (v : val)
  : option (list (list val)) :=
  match sp_lookup c k with
  | None => None
  | Some i =>
      let outs1 := if length outs <=? i then resize_to outs (i + 1) else outs in
      Some (update_nth i (fun l => l ++ [v]) outs1)
  end.

(** src/chain/split.rs:567-585 [SplitAsList::split]; vectors, small vectors and arrays
    (588-661) call it. The item sent is the pair of its position and its value. *)
Fixpoint split_list (c : list (skey * nat)) (outs : list (list val)) (i : nat) (l : list val)
  : list (list val) :=
  match l with
  | [] => outs
  | v :: l' =>
      let item := VTuple [VAtom i; v] in
      let outs1 :=
        match sp_push c outs (KSequential i) item with
        | Some o => o
        | None => match sp_push c outs KRemaining item with Some o => o | None => outs end
        end in
      split_list c outs1 (S i) l'
  end.

(** src/chain/split.rs:775-809 [SplitAsMap::split]; hash maps and btree maps call it. The
    argument lists the entries of the map in its iteration order. *)
Fixpoint split_map (c : list (skey * nat)) (outs : list (list val)) (next_seq : nat)
    (l : list (nat * val)) : list (list val) :=
  match l with
  | [] => outs
  | (k, v) :: l' =>
      let item := VTuple [VAtom k; v] in
      match sp_push c outs (KSpecific k) item with
      | Some o => split_map c o next_seq l'
      | None =>
          let outs1 :=
            match sp_push c outs (KSequential next_seq) item with
            | Some o => o
            | None => match sp_push c outs KRemaining item with Some o => o | None => outs end
            end in
          split_map c outs1 (S next_seq) l'
      end
  end.

(** The entries of a map value: a list of (key, value) pairs. *)
Fixpoint map_entries (l : list val) : option (list (nat * val)) :=
  match l with
  | [] => Some []
  | VTuple [VAtom k; v] :: l' =>
      match map_entries l' with Some r => Some ((k, v) :: r) | None => None end
  | _ => None
  end.

(** src/operation/operate_split.rs:83-94: send what each output holds to its target, and
    collect the indices of the outputs which hold nothing. [zip] stops at the shorter. *)
Fixpoint split_send (o : oworld) (s : entity) (i : nat) (outs : list (list val))
    (targets : list entity) : oworld * option (list nat) :=
  match outs, targets with
  | items :: outs', t :: targets' =>
      match o_give_all o s (map (fun x => (t, x)) items) with
      | (o1, false) => (o1, None)
      | (o1, true) =>
          match split_send o1 s (S i) outs' targets' with
          | (o2, Some missed) =>
              (o2, Some (match items with [] => i :: missed | _ => missed end))
          | (o2, None) => (o2, None)
          end
      end
  | _, _ => (o, Some [])
  end.

Definition set_split (o : oworld) (n : entity) (sp : split_state) : oworld :=
  with_split o (emap_set (o_split o) n (Some sp)).

(** src/operation/operate_split.rs:63-120 [execute]. When sending fails the cache has
    been taken out of the component and stays out. *)
Definition split_execute (is_map : bool) (n : entity) (o : oworld) : oworld * opres :=
  with_input o n (fun o1 s v =>
    match o_split o1 n with
    | None => (o1, OpBroken)
    | Some sp =>
        let outs := match sp_cache sp with Some c => c | None => [] end in
        let o2 := set_split o1 n (mk_split (sp_connections sp) (sp_index_to_key sp) None (sp_targets sp)) in
        let filled :=
          match v with
          | VList l =>
              if is_map then
                match map_entries l with
                | Some es => Some (split_map (sp_connections sp) outs 0 es)
                | None => None
                end
              else Some (split_list (sp_connections sp) outs 0 l)
          | _ => None
          end in
        match filled with
        | None => (o1, OpBroken)
        | Some outs1 =>
            match split_send o2 s 0 outs1 (sp_targets sp) with
            | (o3, None) => (o3, OpBroken)
            | (o3, Some missed) =>
                let o4 :=
                  match missed with
                  | [] => o3
                  | _ => emit_disposal o3 n s
                           (DIncompleteSplit n (map (nth_error (sp_index_to_key sp)) missed))
                  end in
                (* the drained outputs go back into the cache; those beyond the targets
                   were not drained *)
                let drained :=
                  map (fun _ => []) (firstn (length (sp_targets sp)) outs1)
                  ++ skipn (length (sp_targets sp)) outs1 in
                (set_split o4 n (mk_split (sp_connections sp) (sp_index_to_key sp)
                                   (Some drained) (sp_targets sp)), OpOk)
            end
        end
    end).

(** src/operation/operate_split.rs:43-51 [default] and 54-61 [setup]. *)
Definition split_new : split_state := mk_split [] [] (Some []) [].

(** HashMap::insert. *)
Definition sp_insert (c : list (skey * nat)) (k : skey) (i : nat) : list (skey * nat) :=
  (k, i) :: filter (fun p => negb (skey_eqb k (fst p))) c.

(** src/operation/operate_split.rs:154-219 [ConnectToSplit::connect]; reporting a key that
    was connected before, or a reverse map out of step, is not modelled. [resize_with]
    may only grow here. *)
Definition split_connect (sp : split_state) (k : skey) (t : entity) : split_state :=
  let i := length (sp_targets sp) in
  mk_split (sp_insert (sp_connections sp) k i)
    (if Nat.eqb (length (sp_index_to_key sp)) i then sp_index_to_key sp ++ [k]
     else sp_index_to_key sp)
    (match sp_cache sp with Some c => Some (resize_to (firstn (i + 1) c) (i + 1)) | None => None end)
    (sp_targets sp ++ [t]).

(** src/chain/split.rs:358-363 [SplitOutputs], the part that decides which keys may be
    connected. *)
Record split_builder := mk_sb {
  sb_last : option skey;
  sb_used : list skey;
}.

(** [validate] and [next]: lists (550-565), arrays of a fixed length (637-653), maps
    (685-699, 766-773). *)
Inductive splittable := SplitList | SplitArray (n : nat) | SplitMap.

Definition validate (ty : splittable) (k : skey) : bool :=
  match ty, k with
  | SplitArray n, KSequential i => i <? n
  | _, _ => true
  end.

(** The next key for the iterator of a split builder. *)
Definition next_key (ty : splittable) (k : option skey) : option skey :=
  let nk :=
    match k with
    | None => Some (KSequential 0)
    | Some (KSequential i) => Some (KSequential (S i))
    | Some _ => None
    end in
  match ty, nk with
  | SplitArray _, Some k' => if validate ty k' then Some k' else None
  | _, _ => nk
  end.

Inductive connect_error := KeyAlreadyUsed | KeyOutOfBounds.

(** src/chain/split.rs:250-269 [output_for]: on success the connection is made to a freshly
    spawned target, given here as an argument. *)
Definition output_for (ty : splittable) (sb : split_builder) (sp : split_state) (k : skey)
    (t : entity) : split_builder * split_state * option connect_error :=
  if negb (validate ty k) then (sb, sp, Some KeyOutOfBounds)
  else if existsb (skey_eqb k) (sb_used sb) then (sb, sp, Some KeyAlreadyUsed)
  else (mk_sb (sb_last sb) (sb_used sb ++ [k]), split_connect sp k t, None).

(** src/chain/split.rs:328-352 [Iterator::next]. [fuel] bounds the turns of the loop; the
    loop passes over used keys only, so more turns than used keys are never needed
    (proved). *)
Fixpoint builder_next (fuel : nat) (ty : splittable) (sb : split_builder) (sp : split_state)
    (t : entity) : split_builder * split_state * option skey :=
  match fuel with
  | 0 => (sb, sp, None)
  | S fuel' =>
      match next_key ty (sb_last sb) with
      | None => (sb, sp, None)
      | Some k =>
          let sb1 := mk_sb (Some k) (sb_used sb) in
          match output_for ty sb1 sp k t with
          | (sb2, sp2, None) => (sb2, sp2, Some k)
          | (sb2, sp2, Some KeyAlreadyUsed) => builder_next fuel' ty sb2 sp2 t
          | (sb2, sp2, Some KeyOutOfBounds) => (sb2, sp2, None)
          end
      end
  end.

(** The calls a user can make on a split builder, each with the fresh target. *)
Inductive bop :=
| BOutputFor (k : skey) (t : entity)
| BNext (t : entity).

Definition bstep (ty : splittable) (st : split_builder * split_state) (b : bop)
  : split_builder * split_state :=
  let '(sb, sp) := st in
  match b with
  | BOutputFor k t => fst (output_for ty sb sp k t)
  | BNext t => fst (builder_next (S (S (length (sb_used sb)))) ty sb sp t)
  end.

Definition brun (ty : splittable) (ops : list bop) : split_builder * split_state :=
  fold_left (bstep ty) ops (mk_sb None [], split_new).
