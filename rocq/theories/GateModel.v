(** Model of buffer nodes, their gates and the notifications of their listeners:
    src/operation/operate_buffer.rs, src/buffer/buffer_gate.rs, the [BufferMut]
    access of src/buffer.rs. No proofs in this file. *)
From Verif Require Import Base RosterModel BufferModel InputModel.

(** src/gate.rs:20-36 [Gate]. *)
Inductive gate := Open | Closed.

Definition gate_eqb (a b : gate) : bool :=
  match a, b with Open, Open | Closed, Closed => true | _, _ => false end.

(** src/operation/operate_buffer.rs:283-292 [NotifyBufferUpdate]. *)
Record notify := mk_notify {
  nt_buffer : entity;
  nt_session : entity;
  nt_accessor : option entity;
}.

Section Gate.
Context {V : Type}.

(** Components of a buffer node (src/operation/operate_buffer.rs:51-64 [setup]):
    the storage, the [GateState] map (lines 128-131) and the listeners in
    [ForkTargetStorage]. *)
Record bufnode := mk_bufnode {
  bn_store : storage V;
  bn_gates : emap gate;
  bn_targets : list entity;
}.

(** Buffer nodes; the listener nodes, which take messages of type unit; and the
    queue of commands not yet applied (bevy's Commands). *)
Record gworld := mk_gworld {
  gw_bufs : emap bufnode;
  gw_lis : world unit;
  gw_cmds : list notify;
}.

(** src/operation/operate_buffer.rs:170-174 [is_closed]. *)
Definition is_closed (gs : emap gate) (s : entity) : bool :=
  match gs s with Some Closed => true | _ => false end.

(** src/buffer/buffer_gate.rs:58-69 [BufferGateView::gate], 128-134 [get]. *)
Definition gate_of (gs : emap gate) (s : entity) : gate :=
  match gs s with Some g => g | None => Open end.

(** The loops which wake the listeners (operate_buffer.rs:86-92, 158-163,
    326-332): give each target an empty message, stopping at the first error.
    [false]: the error Broken. *)
Fixpoint wake_all (l : world unit) (targets : list entity) (s : entity) : world unit * bool :=
  match targets with
  | [] => (l, true)
  | t :: ts =>
      match give_input l t s tt with
      | (l1, true) => wake_all l1 ts s
      | (l1, false) => (l1, false)
      end
  end.

Definition set_buf (w : gworld) (b : entity) (n : bufnode) : gworld :=
  mk_gworld (emap_set (gw_bufs w) b (Some n)) (gw_lis w) (gw_cmds w).

(** src/operation/operate_buffer.rs:66-95 [execute] from the point where the
    message [(s, v)] was taken from the input storage. *)
Definition buffer_execute (w : gworld) (b s : entity) (v : V) : gworld * bool :=
  match gw_bufs w b with
  | None => (w, false)
  | Some n =>
      let n1 := mk_bufnode (fst (force_push (bn_store n) s v)) (bn_gates n) (bn_targets n) in
      let w1 := set_buf w b n1 in
      if is_closed (bn_gates n1) s then (w1, true)
      else
        let '(l, ok) := wake_all (gw_lis w1) (bn_targets n1) s in
        (mk_gworld (gw_bufs w1) l (gw_cmds w1), ok)
  end.

(** src/operation/operate_buffer.rs:134-167 [GateState::apply]. *)
Definition gate_apply (w : gworld) (b s : entity) (action : gate) : gworld * bool :=
  match gw_bufs w b with
  | None => (w, false)
  | Some n =>
      let state := match bn_gates n s with Some g => g | None => Open end in
      let gs := emap_set (bn_gates n) s (Some state) in
      if gate_eqb state action then
        (set_buf w b (mk_bufnode (bn_store n) gs (bn_targets n)), true)
      else
        let gs' := emap_set gs s (Some action) in
        let w1 := set_buf w b (mk_bufnode (bn_store n) gs' (bn_targets n)) in
        match action with
        | Open =>
            let '(l, ok) := wake_all (gw_lis w1) (bn_targets n) s in
            (mk_gworld (gw_bufs w1) l (gw_cmds w1), ok)
        | Closed => (w1, true)
        end
  end.

(** src/buffer/buffer_gate.rs:137-144 [open_gate] and 147-153 [close_gate], as
    dispatched by [gate_action] (156-161): new gate map and the modified flag. *)
Definition key_gate_action (gs : emap gate) (s : entity) (modified : bool) (action : gate)
  : emap gate * bool :=
  match action with
  | Open =>
      match gs s with
      | Some Closed => (emap_set gs s (Some Open), true)
      | _ => (gs, modified)
      end
  | Closed =>
      match gs s with
      | Some _ => (emap_set gs s (Some Closed), modified)
      | None => (gs, modified)
      end
  end.

Fixpoint key_gate_actions (gs : emap gate) (s : entity) (modified : bool) (l : list gate)
  : emap gate * bool :=
  match l with
  | [] => (gs, modified)
  | a :: l' =>
      let '(gs1, m1) := key_gate_action gs s modified a in key_gate_actions gs1 s m1 l'
  end.

(** One use of a [BufferGateMut] (src/buffer/buffer_gate.rs:96-107 [get_mut], the
    actions of the user, 181-191 [drop]). [acc] is the accessor of the key, [None]
    after [allow_closed_loops]. Unknown buffers give an error to the caller and
    nothing else. *)
Definition key_gate (w : gworld) (b s : entity) (acc : option entity) (l : list gate) : gworld :=
  match gw_bufs w b with
  | None => w
  | Some n =>
      let '(gs, m) := key_gate_actions (bn_gates n) s false l in
      let w1 := set_buf w b (mk_bufnode (bn_store n) gs (bn_targets n)) in
      if m then mk_gworld (gw_bufs w1) (gw_lis w1) (gw_cmds w1 ++ [mk_notify b s acc]) else w1
  end.

(** The mutating methods of [BufferMut] (src/buffer.rs:698-780). *)
Inductive bmethod :=
| MPush (v : V) | MPushOldest (v : V) | MPull | MPullNewest
| MIterMut (f : nat -> V -> V) | MOldestMut (f : V -> V) | MNewestMut (f : V -> V)
| MNewestMutOr (d : V) (f : V -> V) | MGetMut (i : nat) (f : V -> V)
| MDrain (lo hi : nat) | MDrainAll.

(** They forward to the storage with the session of the key. *)
Definition method_op (s : entity) (m : bmethod) : bop V :=
  match m with
  | MPush v => OPush s v
  | MPushOldest v => OPushOldest s v
  | MPull => OPull s
  | MPullNewest => OPullNewest s
  | MIterMut f => OIterMut s f
  | MOldestMut f => OOldestMut s f
  | MNewestMut f => ONewestMut s f
  | MNewestMutOr d f => ONewestMutOr s d f
  | MGetMut i f => OGetMut s i f
  | MDrain lo hi => ODrain s lo hi
  | MDrainAll => ODrainAll s
  end.

(** What the user of a [BufferMut] does: a mutating method, a [pulse] (785-787) or a
    read-only method (668-696). *)
Inductive access := AMutate (m : bmethod) | APulse | ARead.

Fixpoint do_accesses (st : storage V) (s : entity) (modified : bool) (l : list access)
  : storage V * bool :=
  match l with
  | [] => (st, modified)
  | AMutate m :: l' => do_accesses (fst (bstep st (method_op s m))) s true l'
  | APulse :: l' => do_accesses st s true l'
  | ARead :: l' => do_accesses st s modified l'
  end.

(** One use of a [BufferMut] (src/buffer.rs:470-480 [get_mut], the user's calls,
    807-820 [drop]). *)
Definition key_edit (w : gworld) (b s : entity) (acc : option entity) (l : list access) : gworld :=
  match gw_bufs w b with
  | None => w
  | Some n =>
      let '(st, m) := do_accesses (bn_store n) s false l in
      let w1 := set_buf w b (mk_bufnode st (bn_gates n) (bn_targets n)) in
      if m then mk_gworld (gw_bufs w1) (gw_lis w1) (gw_cmds w1 ++ [mk_notify b s acc]) else w1
  end.

(** src/buffer.rs:556-570 [World::buffer_mut]: the [SystemState] and with it the
    command queue that holds the notification is dropped without being applied. *)
Definition world_buffer_mut (w : gworld) (b s : entity) (acc : option entity) (l : list access)
  : gworld :=
  let w1 := key_edit w b s acc l in mk_gworld (gw_bufs w1) (gw_lis w1) (gw_cmds w).

(** src/operation/operate_buffer.rs:304-350 [NotifyBufferUpdate::apply]. The
    deferred roster is merged into the roster, see [InputModel.input_command]. *)
Definition notify_apply (w : gworld) (c : notify) : gworld * bool :=
  match gw_bufs w (nt_buffer c) with
  | None => (w, false)
  | Some n =>
      if is_closed (bn_gates n) (nt_session c) then (w, true)
      else
        let targets :=
          filter (fun t => negb (match nt_accessor c with Some a => Nat.eqb a t | None => false end))
            (bn_targets n) in
        let '(l, ok) := wake_all (gw_lis w) targets (nt_session c) in
        (mk_gworld (gw_bufs w) l (gw_cmds w), ok)
  end.

(** Bevy applies the queued commands in order. *)
Definition apply_next (w : gworld) : gworld :=
  match gw_cmds w with
  | [] => w
  | c :: cs => fst (notify_apply (mk_gworld (gw_bufs w) (gw_lis w) cs) c)
  end.

Inductive gop :=
| GPush (b s : entity) (v : V)
| GAction (b s : entity) (g : gate)
| GKeyGate (b s : entity) (acc : option entity) (l : list gate)
| GKeyEdit (b s : entity) (acc : option entity) (l : list access)
| GApply.

Definition gstep (w : gworld) (o : gop) : gworld :=
  match o with
  | GPush b s v => fst (buffer_execute w b s v)
  | GAction b s g => fst (gate_apply w b s g)
  | GKeyGate b s acc l => key_gate w b s acc l
  | GKeyEdit b s acc l => key_edit w b s acc l
  | GApply => apply_next w
  end.

Definition grun (w : gworld) (ops : list gop) : gworld := fold_left gstep ops w.

End Gate.

Arguments bufnode : clear implicits.
Arguments gworld : clear implicits.
Arguments access : clear implicits.
Arguments bmethod : clear implicits.
Arguments gop : clear implicits.
