(** Building a workflow: operations are set up, outputs are connected to inputs. Models
    src/builder/connect.rs and the parts of the builder and of the operations which keep
    the targets of operations and the inputs of their targets. No proofs in this file. *)
From Verif Require Import Base.

(** The components which take part.
    - [c_inputs]: [SingleInputStorage], src/operation.rs:101-144
    - [c_single]: [SingleTargetStorage], src/operation.rs:174-190
    - [c_fork]: [ForkTargetStorage], src/operation.rs:192-206
    - [c_anon], [c_named]: [StreamTargetMap], src/stream/stream_target_map.rs:33-37; types
      and names are numbers, the type of a named stream is left out, a missing map is an
      empty one
    - [c_entry]: [EntryForScope], src/operation/scope.rs:1213-1215
    - [c_start]: [ScopeEntryStorage], src/operation/scope.rs:1210-1211 *)
Record cnode := mk_cnode {
  c_inputs : option (list entity);
  c_single : option entity;
  c_fork : option (list entity);
  c_anon : list (nat * entity);
  c_named : list (nat * entity);
  c_entry : option entity;
  c_start : option entity;
}.

Definition c_empty : cnode := mk_cnode None None None [] [] None None.

Definition set_inputs (i : option (list entity)) (c : cnode) : cnode :=
  mk_cnode i (c_single c) (c_fork c) (c_anon c) (c_named c) (c_entry c) (c_start c).
Definition set_single (t : option entity) (c : cnode) : cnode :=
  mk_cnode (c_inputs c) t (c_fork c) (c_anon c) (c_named c) (c_entry c) (c_start c).
Definition set_fork (ts : option (list entity)) (c : cnode) : cnode :=
  mk_cnode (c_inputs c) (c_single c) ts (c_anon c) (c_named c) (c_entry c) (c_start c).
Definition set_streams (a n : list (nat * entity)) (c : cnode) : cnode :=
  mk_cnode (c_inputs c) (c_single c) (c_fork c) a n (c_entry c) (c_start c).
Definition set_entry (e : option entity) (c : cnode) : cnode :=
  mk_cnode (c_inputs c) (c_single c) (c_fork c) (c_anon c) (c_named c) e (c_start c).
Definition set_start (e : option entity) (c : cnode) : cnode :=
  mk_cnode (c_inputs c) (c_single c) (c_fork c) (c_anon c) (c_named c) (c_entry c) e.

(** What is reported in [UnhandledErrors]: src/errors.rs, [connections] (connect.rs:43-49),
    [broken] (connect.rs:123-131), [setup] (operation.rs:622-633), [miscellaneous]
    (fork_clone.rs:116-130), [duplicate_streams] (stream_target_map.rs:49-60). *)
Inductive cerror :=
| ConnectionFailed (o n : entity)
| NotConnected (m : entity)
| SetupFailed (m : entity)
| BranchFailed (m : entity)
| StreamDuplicate (t : entity).

(** Entities are numbered in the order in which they are spawned. *)
Record cworld := mk_cworld {
  cw_node : emap cnode;
  cw_next : entity;
  cw_errors : list cerror;
}.

Definition put (w : cworld) (e : entity) (c : option cnode) : cworld :=
  mk_cworld (emap_set (cw_node w) e c) (cw_next w) (cw_errors w).
Definition fail (w : cworld) (r : cerror) : cworld :=
  mk_cworld (cw_node w) (cw_next w) (cw_errors w ++ [r]).

(** [commands.spawn]. *)
Definition spawn (w : cworld) (c : cnode) : cworld :=
  mk_cworld (emap_set (cw_node w) (cw_next w) (Some c)) (S (cw_next w)) (cw_errors w).

(** src/operation.rs:125-129 [SingleInputStorage::add]. *)
Definition add_input (m : entity) (l : list entity) : list entity :=
  if existsb (Nat.eqb m) l then l else l ++ [m].

(** src/builder/connect.rs:133-140 and src/buffer/buffering.rs:914-921: an input is added
    to a storage which may not be there yet. *)
Definition add_to (m : entity) (i : option (list entity)) : option (list entity) :=
  match i with Some l => Some (add_input m l) | None => Some [m] end.

(** src/builder/connect.rs:87-121: every target of the node which is the original one is
    replaced. *)
Definition swap (o n t : entity) : entity := if Nat.eqb t o then n else t.
Definition retarget (o n : entity) (c : cnode) : cnode :=
  mk_cnode (c_inputs c) (option_map (swap o n) (c_single c)) (option_map (map (swap o n)) (c_fork c))
    (map (fun p => (fst p, swap o n (snd p))) (c_anon c))
    (map (fun p => (fst p, swap o n (snd p))) (c_named c)) (c_entry c) (c_start c).

(** All targets of a node. *)
Definition targets (c : cnode) : list entity :=
  (match c_single c with Some t => [t] | None => [] end)
  ++ (match c_fork c with Some l => l | None => [] end)
  ++ map snd (c_anon c) ++ map snd (c_named c).

(** [connection_happened] of src/builder/connect.rs:87-121. *)
Definition happened (o : entity) (c : cnode) : bool := existsb (Nat.eqb o) (targets c).

(** The loop of src/builder/connect.rs:84-141; [false]: it was left by an error. *)
Fixpoint reroute (o n : entity) (l : list entity) (w : cworld) : cworld * bool :=
  match l with
  | [] => (w, true)
  | m :: l' =>
      match cw_node w m with
      | None => (w, false)
      | Some c =>
          let w1 := put w m (Some (retarget o n c)) in
          let w2 := if happened o c then w1 else fail w1 (NotConnected m) in
          match cw_node w2 n with
          | None => (w2, false)
          | Some d => reroute o n l' (put w2 n (Some (set_inputs (add_to m (c_inputs d)) d)))
          end
      end
  end.

(** src/builder/connect.rs:54-149 [try_connect] with 39-52. [take] at 80 removes the
    inputs of the original target. *)
Definition try_connect (o n : entity) (w : cworld) : cworld * bool :=
  match cw_node w o with
  | None => (w, false)
  | Some c =>
      match c_entry c with
      | Some scope =>
          match cw_node w n with
          | None => (w, false)
          | Some d =>
              let w1 := put w n (Some (set_entry (Some scope) d)) in
              match cw_node w1 scope with
              | None => (w1, false)
              | Some s => (put (put w1 scope (Some (set_start (Some n) s))) o None, true)
              end
          end
      | None =>
          match c_inputs c with
          | None => (w, false)
          | Some l =>
              let w1 := put w o (Some (set_inputs None c)) in
              match reroute o n l w1 with
              | (w2, true) => (put w2 o None, true)
              | (w2, false) => (w2, false)
              end
          end
      end
  end.

Definition connect (o n : entity) (w : cworld) : cworld :=
  match try_connect o n w with
  | (w1, true) => w1
  | (w1, false) => fail w1 (ConnectionFailed o n)
  end.

(** [SingleInputStorage::new(source)] is inserted in a target, as every [setup] does:
    src/operation/operate_map.rs:73-77, fork_clone.rs:48-53, branching.rs:66-71 etc. *)
Definition feed (m t : entity) (w : cworld) : cworld * bool :=
  match cw_node w t with
  | Some c => (put w t (Some (set_inputs (Some [m]) c)), true)
  | None => (w, false)
  end.

Fixpoint feed_all (m : entity) (ts : list entity) (w : cworld) : cworld * bool :=
  match ts with
  | [] => (w, true)
  | t :: ts' => match feed m t w with (w1, true) => feed_all m ts' w1 | r => r end
  end.

(** The component is inserted in the source: [world.entity_mut(source)] panics without the
    source, which does not happen here. *)
Definition change (m : entity) (f : cnode -> cnode) (w : cworld) : cworld :=
  match cw_node w m with Some c => put w m (Some (f c)) | None => w end.

(** The [setup] of operations with one target ([OperateMap], [OperateService],
    [OperateCallback], [Noop], [Spread], [Collect], [Trim], gates, filters, [Join],
    [Listen], [OperateBufferAccess], [Injection], [RedirectScopeStream]; see
    operate_map.rs:73-81) and of those with many ([ForkClone], [ForkUnzip], [Branching],
    and without targets at first [OperateBuffer], [OperateSplit]; see fork_clone.rs:47-58). *)
Definition setup_single (m t : entity) (w : cworld) : cworld :=
  match feed m t w with
  | (w1, true) => change m (set_single (Some t)) w1
  | (w1, false) => fail w1 (SetupFailed m)
  end.
Definition setup_fork (m : entity) (ts : list entity) (w : cworld) : cworld :=
  match feed_all m ts w with
  | (w1, true) => change m (set_fork (Some ts)) w1
  | (w1, false) => fail w1 (SetupFailed m)
  end.

(** Fresh unused outputs: [commands.spawn(UnusedTarget)]. *)
Fixpoint spawn_outputs (k : nat) (w : cworld) : cworld * list entity :=
  match k with
  | 0 => (w, [])
  | S k' => let (w1, l) := spawn_outputs k' (spawn w c_empty) in (w1, cw_next w :: l)
  end.

(** src/stream/stream_target_map.rs:39-87 [add_anonymous], [add_named]: the first one of a
    type or name is kept. *)
Fixpoint key_used (k : nat) (l : list (nat * entity)) : bool :=
  match l with [] => false | (k', _) :: l' => Nat.eqb k k' || key_used k l' end.
Definition add_stream (k : nat) (t : entity) (w : cworld) (l : list (nat * entity))
  : cworld * list (nat * entity) :=
  if key_used k l then (fail w (StreamDuplicate t), l) else (w, l ++ [(k, t)]).

(** src/stream/anonymous_stream.rs:92-104 [spawn_node_streams], named_stream.rs:71-84
    [spawn_node_stream]: an unused output with the node as input, for each stream. Returns
    the map and the outputs. *)
Fixpoint spawn_streams (m : entity) (ks : list nat) (l : list (nat * entity)) (w : cworld)
  : cworld * list (nat * entity) * list entity :=
  match ks with
  | [] => (w, l, [])
  | k :: ks' =>
      let t := cw_next w in
      let w1 := spawn w (set_inputs (Some [m]) c_empty) in
      let (w2, l2) := add_stream k t w1 l in
      let '(w3, l3, ts) := spawn_streams m ks' l2 w2 in
      (w3, l3, t :: ts)
  end.

(** What an operation has: one target, a number of targets, streams. *)
Record shape := mk_shape {
  sh_single : bool;
  sh_fork : option nat;
  sh_anon : list nat;
  sh_named : list nat;
}.

(** An operation is made at [m]: src/builder.rs:72-93 [create_node], 230-315 and 390-690 the
    other functions, src/chain.rs:97-135 [then], [then_node] etc. Returns the outputs. *)
Definition place (m : entity) (sh : shape) (w : cworld) : cworld * list entity :=
  let (w1, l1) :=
    if sh_single sh then
      let t := cw_next w in (setup_single m t (spawn w c_empty), [t])
    else (w, []) in
  let (w2, l2) :=
    match sh_fork sh with
    | Some k => let (wa, ts) := spawn_outputs k w1 in (setup_fork m ts wa, ts)
    | None => (w1, [])
    end in
  let '(w3, la, l3) := spawn_streams m (sh_anon sh) [] w2 in
  let '(w4, ln, l4) := spawn_streams m (sh_named sh) [] w3 in
  (change m (set_streams la ln) w4, l1 ++ l2 ++ l3 ++ l4).

(** A workflow being built: the components, and the things the user holds: outputs which
    were not used yet ([Output] and [Chain] cannot be copied), input slots, and operations
    that take further branches or listeners. *)
Record api := mk_api {
  a_w : cworld;
  a_outs : list entity;
  a_slots : list entity;
  a_scopes : list entity;
}.

Definition has (l : list entity) (e : entity) : bool := existsb (Nat.eqb e) l.
Definition without (l : list entity) (e : entity) : list entity := filter (fun x => negb (Nat.eqb x e)) l.

(** What the user can do. An act with something the user does not hold does nothing: the
    types of the API do not allow it.
    - [ACreate sh]: a node is created
    - [AChain o sh]: a node is created at the end of a chain (its input is the output [o])
    - [ABranch m]: src/node.rs:168-180 [clone_output]; src/chain/split.rs:250-269
      [output_for] has the same effect
    - [AListen b m]: src/buffer/buffering.rs:904-924 [add_listener_to_source]: operation [m]
      is set up as a listener of buffer [b]
    - [AScope]: src/builder.rs:200-213 [create_scope], 703-755 and src/operation/scope.rs:631-688,
      259-289; its streams are created by [ACreate]
    - [AConnect o n]: src/builder.rs:158-164; that both are of the same scope (a panic
      otherwise) is not modelled. *)
Inductive act :=
| ACreate (sh : shape)
| AChain (o : entity) (sh : shape)
| ABranch (m : entity)
| AListen (b m : entity)
| AScope
| AConnect (o n : entity).

Definition forks (w : cworld) (m : entity) : bool :=
  match cw_node w m with Some c => match c_fork c with Some _ => true | None => false end | None => false end.

(** src/operation/fork_clone.rs:132-141. *)
Definition add_branch (m t : entity) (w : cworld) : cworld :=
  match cw_node w m with
  | Some c =>
      match c_fork c with
      | Some l => put w m (Some (set_fork (Some (l ++ [t])) c))
      | None => fail w (BranchFailed m)
      end
  | None => fail w (BranchFailed m)
  end.

(** src/buffer/buffering.rs:904-924. *)
Definition add_listener (b m : entity) (w : cworld) : cworld :=
  match cw_node w b with
  | Some c =>
      match c_fork c with
      | Some l =>
          let w1 := put w b (Some (set_fork (Some (add_input m l)) c)) in
          match cw_node w1 m with
          | Some d => put w1 m (Some (set_inputs (add_to b (c_inputs d)) d))
          | None => fail w1 (SetupFailed m)
          end
      | None => fail w (SetupFailed m)
      end
  | None => fail w (SetupFailed m)
  end.

Definition astep (a : api) (x : act) : api :=
  let w := a_w a in
  match x with
  | ACreate sh =>
      let m := cw_next w in
      let (w1, ts) := place m sh (spawn w c_empty) in
      mk_api w1 (a_outs a ++ ts) (a_slots a ++ [m]) (a_scopes a)
  | AChain o sh =>
      if has (a_outs a) o then
        let (w1, ts) := place o sh w in
        mk_api w1 (without (a_outs a) o ++ ts) (a_slots a ++ [o]) (a_scopes a)
      else a
  | ABranch m =>
      if has (a_slots a) m && forks w m then
        let t := cw_next w in
        mk_api (add_branch m t (spawn w (set_inputs (Some [m]) c_empty))) (a_outs a ++ [t])
          (a_slots a) (a_scopes a)
      else a
  | AListen b m =>
      if has (a_slots a) b && forks w b && has (a_slots a) m then
        mk_api (add_listener b m w) (a_outs a) (a_slots a) (a_scopes a)
      else a
  | AScope =>
      let s := cw_next w in
      let w1 := spawn w c_empty in
      let exit := cw_next w1 in
      let w2 := spawn w1 c_empty in
      let entry := cw_next w2 in
      let w3 := spawn w2 (set_entry (Some s) c_empty) in
      let terminal := cw_next w3 in
      let w4 := spawn w3 c_empty in
      let w5 := change s (set_start (Some entry)) w4 in
      let w6 := setup_single s exit w5 in
      mk_api w6 (a_outs a ++ [exit; entry]) (a_slots a ++ [s; terminal]) (a_scopes a ++ [s])
  | AConnect o n =>
      if has (a_outs a) o && has (a_slots a) n then
        mk_api (connect o n w) (without (a_outs a) o) (a_slots a) (a_scopes a)
      else a
  end.

(** The workflow before anything is built: src/service/traits.rs and src/workflow.rs spawn
    its scope in the same way as [AScope]. *)
Definition nothing : api := mk_api (mk_cworld (fun _ => None) 0 []) [] [] [].
Definition build (l : list act) : api := fold_left astep l nothing.
