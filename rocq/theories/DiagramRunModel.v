(** The workflow that a diagram was built into, at work: the log of a construction
    (DiagramModel.v) read as a workflow of ExecModel.v. No proofs in this file. *)
From Verif Require Import Base RosterModel BufferModel InputModel GateModel OpsModel ReachModel ExecModel DiagramModel.

(** What the registered functions compute; they are total, as in ExecModel.v. *)
Record meaning := {
  m_node : nat -> val -> val;              (* the node made by a builder; registration.rs 74-90 [create_node]: one response for each request *)
  m_ser : nat -> val -> val + val;         (* serialization.rs 75-90: [serde_json::to_value], or the text of its error *)
  m_de : nat -> val -> val + val;          (* serialization.rs 125-140: [serde_json::from_value] into the given type *)
  m_text : nat -> val -> val;              (* registration.rs 1330-1331: [to_string] *)
  m_cel : nat -> val -> val + val          (* transform_schema.rs 109-123: the CEL program of the operation, or its error *)
}.

(** [Result] to two branches: transform_schema.rs 136-138 and serialization.rs 84-90, 134-140
    chain a map with a [fork_result] *)
Definition choice (f : val -> val + val) (v : val) : option (option val * option val) :=
  Some (match f v with inl a => (Some a, None) | inr b => (None, Some b) end).

(** The slot that an output was connected to: dyn_node.rs 147-165 *)
Definition connected (log : list entry) (o : output) : option slot :=
  match List.find (fun e => match e with LConnect o' _ => o_id o' =? o_id o | _ => false end) log with
  | Some (LConnect _ s) => Some s
  | _ => None
  end.

(** The entity that messages of an output come to: src/builder/connect.rs 54-160 redirects the
    sender to the slot; else it is the unused target made together with the output *)
Definition dest (log : list entry) (o : output) : entity :=
  match connected log o with Some s => s_id s | None => o_id o end.

(** The nodes which an entry of the log stands for.
    - node_schema.rs 82-114: a node; registration.rs 771, 1330-1331: trigger and to_string are nodes
    - fork_clone_schema.rs 78-114, unzip_schema.rs 93-124, fork_result_schema.rs 67-95
    - transform_schema.rs 104-145 and serialization.rs 75-90, 125-140: a node with its [fork_result],
      as one branching node
    - workflow_builder.rs 992-1035: terminate and the three cancelling nodes of the scope
    - src/operation.rs [UnusedTarget]: an output which was not connected
    Other operations (buffers, joins, splits, sections, scopes, streams) are left out. *)
Definition entry_nodes (m : meaning) (log : list entry) (e : entry) : list (entity * okind) :=
  match e with
  | LBuilt u [(None, s)] _ outs =>
      let ts := map (fun x => dest log (snd x)) outs in
      match u_op u, ts with
      | ONode b _ _, [t] => [(s_id s, OMap (m_node m b) t)]
      | OFork _, _ => [(s_id s, OForkClone ts)]
      | OUnzip _, _ => [(s_id s, ExecModel.OUnzip ts)]
      | OResult _ _, [a; b] => [(s_id s, OBranch branch_result a b)]
      | OTransform _ _, [a; b] => [(s_id s, OBranch (choice (m_cel m (u_id u))) a b)]
      | _, _ => []
      end
  | LConv CSerialize i ok (Some er) => [(s_id i, OBranch (choice (m_ser m (s_ty i))) (dest log ok) (dest log er))]
  | LConv CDeserialize i ok (Some er) => [(s_id i, OBranch (choice (m_de m (o_ty ok))) (dest log ok) (dest log er))]
  | LConv CString i ok _ => [(s_id i, OMap (m_text m (s_ty i)) (dest log ok))]
  | LConv CTrigger i ok _ => [(s_id i, OMap (fun _ => VUnit) (dest log ok))]
  | LSlot (RTerminate []) s => [(s_id s, OTerminate)]
  | LSlot (RCancel []) s => [(s_id s, OCancel)]
  | LPut _ o | LPass _ o => match connected log o with None => [(o_id o, OUnused)] | Some _ => [] end
  | _ => []
  end.

Definition all_nodes (m : meaning) (log : list entry) : list (entity * okind) := flat_map (entry_nodes m log) log.

(** workflow_builder.rs 728-782: the request is the first output that is made; the scope of the
    workflow is an entity of its own *)
Definition entry_of (log : list entry) : entity :=
  match List.find (fun e => match e with LPut _ o => o_id o =? 1 | _ => false end) log with
  | Some (LPut _ o) => dest log o
  | _ => 0
  end.

Definition terminal_of (log : list entry) : entity :=
  match List.find (fun e => match e with LSlot (RTerminate []) _ => true | _ => false end) log with
  | Some (LSlot _ s) => s_id s
  | _ => 0
  end.

Definition workflow_of (m : meaning) (log : list entry) : workflow :=
  let l := all_nodes m log in
  {| f_scope := S (list_max (map fst l)); f_entry := entry_of log; f_terminal := terminal_of log;
     f_nodes := nodup Nat.eq_dec (map fst l); f_kind := fun n => find n l |}.
