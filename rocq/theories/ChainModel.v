(** Workflows written as chains: the functions of src/chain.rs, each of which puts an
    operation at the end of the chain and goes on with a fresh output. Puts together a
    workflow as in ExecModel.v. No proofs in this file. *)
From Verif Require Import Base RosterModel BufferModel InputModel OpsModel ExecModel.

(** A workflow being built: the operations, the next entity that is spawned, and the node
    the request goes to ([ScopeEntryStorage]). The inputs of the nodes are not kept: they
    are the nodes which have it as a target (C57_agree). Commands are carried out in the
    order in which they are queued, here at once. *)
Record bworld := mk_b {
  b_kind : emap okind;
  b_next : entity;
  b_entry : entity;
}.

(** [commands.spawn]. *)
Definition b_spawn (k : okind) (b : bworld) : bworld :=
  mk_b (emap_set (b_kind b) (b_next b) (Some k)) (S (b_next b)) (b_entry b).

(** src/operation.rs:620-664 [AddOperation::apply]: entity [t] becomes an operation. *)
Definition b_add (t : entity) (k : okind) (b : bworld) : bworld :=
  mk_b (emap_set (b_kind b) t (Some k)) (b_next b) (b_entry b).

(** [spawn(UnusedTarget)], [n] times. *)
Fixpoint b_outputs (n : nat) (b : bworld) : bworld * list entity :=
  match n with
  | 0 => (b, [])
  | S n' => let (b1, ts) := b_outputs n' (b_spawn OUnused b) in (b1, b_next b :: ts)
  end.

(** src/builder/connect.rs:87-121: the targets of a node, with [o] replaced by [n]. *)
Definition to_new (o n t : entity) : entity := if Nat.eqb t o then n else t.
Definition redirect (o n : entity) (k : okind) : okind :=
  match k with
  | OMap f t => OMap f (to_new o n t)
  | OForkClone ts => OForkClone (map (to_new o n) ts)
  | OUnzip ts => OUnzip (map (to_new o n) ts)
  | OBranch act ta tb => OBranch act (to_new o n ta) (to_new o n tb)
  | OSpread t => OSpread (to_new o n t)
  | OFilter f t => OFilter f (to_new o n t)
  | OCancelFilter f t => OCancelFilter f (to_new o n t)
  | OCollect min max t => OCollect min max (to_new o n t)
  | OCancel => OCancel
  | OTerminate => OTerminate
  | OUnused => OUnused
  end.

(** src/builder.rs:158-164 [connect], src/builder/connect.rs:54-149: output [o] is replaced
    by input [n]. Only the inputs of [o] are redirected there, which are all the nodes that
    have it as a target. *)
Definition b_connect (o n : entity) (b : bworld) : bworld :=
  mk_b (fun e => if Nat.eqb e o then None else option_map (redirect o n) (b_kind b e))
       (b_next b) (to_new o n (b_entry b)).

(** Input slots: [Scope::terminate], and the inputs of the nodes which were created before
    (src/node.rs [Node::input]). *)
Inductive slot := SEnd | SNode (i : nat).

(** The functions which go on with one output.
    - [SMap]: src/chain.rs:97-111 [then], 139-148 [map], 170-178 [map_block], with a
      blocking provider; also 1150-1158 [key], [value]
    - [STrigger]: 290-292
    - [SNoop]: 697-707
    - [SSpread]: 456-470
    - [SDisposeOnErr]: 861-875 [dispose_on_err], 881-892 [dispose_on_quiet_err]
    - [SDisposeOnOk]: 897-908, [SDisposeOnNone]: 990-1001, [SDisposeOnSome]: 1007-1018
    - [SCancelOnErr]: 822-836 [cancel_on_err], 842-853 [cancel_on_quiet_err]
    - [SCancelOnNone]: 971-982 *)
Inductive step :=
| SMap (f : val -> val)
| STrigger
| SNoop
| SSpread
| SDisposeOnErr
| SDisposeOnOk
| SDisposeOnNone
| SDisposeOnSome
| SCancelOnErr
| SCancelOnNone.

(** src/operation/filter.rs:56-58 [filter_err], 64-66 [filter_quiet_err], 72-77 [filter_ok],
    32-34 [filter_none], 40-45 [filter_some]. Values of other types are not given to them. *)
Definition filter_err (v : val) : option val := match v with VOk x => Some x | _ => None end.
Definition filter_ok (v : val) : option val := match v with VErr e => Some e | _ => None end.
Definition filter_none (v : val) : option val := match v with VSome x => Some x | _ => None end.
Definition filter_some (v : val) : option val := match v with VNone => Some VUnit | _ => None end.

(** The operation which each of them adds; the target is the fresh output. *)
Definition step_kind (s : step) (t : entity) : okind :=
  match s with
  | SMap f => OMap f t
  | STrigger => OMap (fun _ => VUnit) t
  | SNoop => OMap (fun v => v) t
  | SSpread => OSpread t
  | SDisposeOnErr => OFilter filter_err t
  | SDisposeOnOk => OFilter filter_ok t
  | SDisposeOnNone => OFilter filter_none t
  | SDisposeOnSome => OFilter filter_some t
  | SCancelOnErr => OCancelFilter filter_err t
  | SCancelOnNone => OCancelFilter filter_none t
  end.

(** What can be built onto an output.
    - [CConnect]: src/chain.rs:83-86
    - [CUnused]: 90-92, or the output is dropped
    - [CThenCancel]: 360-369, 1166-1172 [then_quiet_cancel]
    - [CForkResult]: 756-774, [CForkOption]: 934-952
    - [CBranchForErr], [CBranchForNone]: 742-747, 920-925; the branch first, then what comes
      after it
    - [CBranchClone]: 395-403
    - [CForkClone]: 415-420 with chain/fork_clone_builder.rs:34-69
    - [CForkUnzip]: 440-445 with chain/unzip.rs:45-70, 117-127 *)
Inductive chain :=
| CConnect (s : slot)
| CUnused
| CThenCancel
| CStep (s : step) (c : chain)
| CForkResult (ok err : chain)
| CForkOption (some none : chain)
| CBranchForErr (err c : chain)
| CBranchForNone (none c : chain)
| CBranchClone (branch c : chain)
| CForkClone (cs : list chain)
| CForkUnzip (cs : list chain).

(** src/chain.rs:783-788 [connect_on_err], 961-966 [connect_on_none], 340-351
    [cancellation_filter], 374-385 [disposal_filter]. *)
Definition connect_on_err (s : slot) (c : chain) : chain :=
  CBranchForErr (CStep (SMap VErr) (CConnect s)) c.
Definition connect_on_none (s : slot) (c : chain) : chain :=
  CBranchForNone (CStep (SMap (fun _ => VNone)) (CConnect s)) c.
Definition cancellation_filter (f : val -> val) (c : chain) : chain :=
  CStep (SMap f) (CStep SCancelOnNone c).
Definition disposal_filter (f : val -> val) (c : chain) : chain :=
  CStep (SMap f) (CStep SDisposeOnNone c).

(** The scope, the terminal and the output of the scope's input are spawned first
    (src/operation/scope.rs:631-688 [OperateScope::add]); the entities which do not take
    part are left out and the numbers are a matter of convention. Then two entities for each
    node that is created. *)
Definition the_scope : entity := 0.
Definition the_terminal : entity := 1.
Definition the_input : entity := 2.
Definition node_input (i : nat) : entity := 3 + 2 * i.
Definition node_output (i : nat) : entity := 4 + 2 * i.

Definition slot_at (s : slot) : entity :=
  match s with SEnd => the_terminal | SNode i => node_input i end.

(** The chain is built onto output [t]. *)
Fixpoint attach (c : chain) (t : entity) (b : bworld) : bworld :=
  match c with
  | CConnect s => b_connect t (slot_at s) b
  | CUnused => b
  | CThenCancel => b_add t OCancel b
  | CStep s c' =>
      let u := b_next b in
      attach c' u (b_add t (step_kind s u) (b_spawn OUnused b))
  | CForkResult a d =>
      let ua := b_next b in
      let b1 := b_spawn OUnused b in
      let ud := b_next b1 in
      let b2 := b_add t (OBranch branch_result ua ud) (b_spawn OUnused b1) in
      attach d ud (attach a ua b2)
  | CForkOption a d =>
      let ua := b_next b in
      let b1 := b_spawn OUnused b in
      let ud := b_next b1 in
      let b2 := b_add t (OBranch branch_option ua ud) (b_spawn OUnused b1) in
      attach d ud (attach a ua b2)
  | CBranchForErr d a =>
      let ua := b_next b in
      let b1 := b_spawn OUnused b in
      let ud := b_next b1 in
      let b2 := b_add t (OBranch branch_result ua ud) (b_spawn OUnused b1) in
      attach a ua (attach d ud b2)
  | CBranchForNone d a =>
      let ua := b_next b in
      let b1 := b_spawn OUnused b in
      let ud := b_next b1 in
      let b2 := b_add t (OBranch branch_option ua ud) (b_spawn OUnused b1) in
      attach a ua (attach d ud b2)
  | CBranchClone d a =>
      let ua := b_next b in
      let b1 := b_spawn OUnused b in
      let ud := b_next b1 in
      let b2 := b_add t (OForkClone [ua; ud]) (b_spawn OUnused b1) in
      attach a ua (attach d ud b2)
  | CForkClone cs =>
      let (b1, ts) := b_outputs (length cs) b in
      (fix attach_all (cs : list chain) (ts : list entity) (b : bworld) : bworld :=
         match cs, ts with
         | c :: cs', t :: ts' => attach_all cs' ts' (attach c t b)
         | _, _ => b
         end) cs ts (b_add t (OForkClone ts) b1)
  | CForkUnzip cs =>
      let (b1, ts) := b_outputs (length cs) b in
      (fix attach_all (cs : list chain) (ts : list entity) (b : bworld) : bworld :=
         match cs, ts with
         | c :: cs', t :: ts' => attach_all cs' ts' (attach c t b)
         | _, _ => b
         end) cs ts (b_add t (OUnzip ts) b1)
  end.

(** A workflow as the user writes it: nodes are created first (src/builder.rs:72-105
    [create_node], [create_map_block]), so that their inputs can be connected to, then the
    chain from the input of the scope is built, then the chains from the outputs of the
    nodes. *)
Record program := mk_program {
  p_main : chain;
  p_nodes : list ((val -> val) * chain);
}.

Definition b_new : bworld :=
  mk_b (fun e => if Nat.eqb e the_terminal then Some OTerminate
                 else if Nat.eqb e the_input then Some OUnused else None) 3 the_input.

Fixpoint create_nodes (l : list ((val -> val) * chain)) (b : bworld) : bworld :=
  match l with
  | [] => b
  | (f, _) :: l' =>
      let t := S (b_next b) in
      create_nodes l' (b_spawn OUnused (b_spawn (OMap f t) b))
  end.

Fixpoint attach_nodes (i : nat) (l : list ((val -> val) * chain)) (b : bworld) : bworld :=
  match l with
  | [] => b
  | (_, c) :: l' => attach_nodes (S i) l' (attach c (node_output i) b)
  end.

Definition assemble (p : program) : bworld :=
  attach_nodes 0 (p_nodes p) (attach (p_main p) the_input (create_nodes (p_nodes p) b_new)).

(** The workflow which was built. *)
Definition present (k : emap okind) (e : entity) : bool :=
  match k e with Some _ => true | None => false end.
Definition workflow_of (p : program) : workflow :=
  let b := assemble p in
  mk_workflow the_scope (b_entry b) the_terminal (filter (present (b_kind b)) (seq 0 (b_next b))) (b_kind b).
