(** Model of src/operation/join.rs and of the parts of src/buffer/buffering.rs,
    src/buffer/manage_buffer.rs it uses. No proofs in this file. *)
From Verif Require Import Base RosterModel BufferModel InputModel GateModel.

Section Join.
Context {V : Type}.

(** How a buffer takes part in a join: [Buffer<T>] (src/buffer/buffering.rs:272-284)
    or [CloneFromBuffer<T>] (360-373). [FetchFromBuffer] and [AnyBuffer] dispatch to
    one of the two (src/buffer/fetch_from_buffer.rs:148-168). All buffers carry the
    same type of value here. *)
Inductive fetch := Pull | Clone.

(** A tuple, array or vector of buffers. *)
Notation joined := (list (entity * fetch)) (only parsing).

(** src/buffer/buffering.rs:410-421, 555-565, 675-685, 793-803 [buffered_count] over
    src/buffer/manage_buffer.rs:52-58: the smallest count, 0 if there is no buffer.
    [None]: the error Broken. *)
Fixpoint buffered_counts (bufs : emap (bufnode V)) (l : joined) (s : entity) : option (list nat) :=
  match l with
  | [] => Some []
  | (b, _) :: l' =>
      match bufs b with
      | None => None
      | Some n =>
          match buffered_counts bufs l' s with
          | Some cs => Some (count (bn_store n) s :: cs)
          | None => None
          end
      end
  end.

Definition buffered_count (bufs : emap (bufnode V)) (l : joined) (s : entity) : option nat :=
  match buffered_counts bufs l s with
  | None => None
  | Some [] => Some 0
  | Some (c :: cs) => Some (fold_left Nat.min cs c)
  end.

(** src/buffer/buffering.rs:272-284 with src/buffer/manage_buffer.rs:81-87 and 105-111
    (pull), 360-373 with 60-66 (clone the oldest). [None]: the error Broken. *)
Definition fetch_one (bufs : emap (bufnode V)) (b : entity) (f : fetch) (s : entity)
  : emap (bufnode V) * option V :=
  match bufs b with
  | None => (bufs, None)
  | Some n =>
      match f with
      | Pull =>
          let '(st, o) := pull (bn_store n) s in
          (emap_set bufs b (Some (mk_bufnode st (bn_gates n) (bn_targets n))), o)
      | Clone => (bufs, oldest (bn_store n) s)
      end
  end.

(** src/buffer/buffering.rs:489-498, 621-629, 739-747, 857-865 [fetch_for_join]: in the
    declared order, stopping at the first error. What was already pulled is dropped. *)
Fixpoint fetch_for_join (bufs : emap (bufnode V)) (l : joined) (s : entity)
  : emap (bufnode V) * option (list V) :=
  match l with
  | [] => (bufs, Some [])
  | (b, f) :: l' =>
      match fetch_one bufs b f s with
      | (bufs1, None) => (bufs1, None)
      | (bufs1, Some v) =>
          match fetch_for_join bufs1 l' s with
          | (bufs2, Some vs) => (bufs2, Some (v :: vs))
          | (bufs2, None) => (bufs2, None)
          end
      end
  end.

(** The buffers with the nodes that listen to them, and the nodes that receive the
    joined messages. *)
Record jworld := mk_jworld {
  jw : gworld V;
  jw_out : world (list V);
}.

Inductive jresult := JDone (ok : bool) | JNotReady | JBroken.

(** src/operation/join.rs:61-85 [execute] of the join node [j] with the buffers [l] and
    the target [t]. *)
Definition join_execute (w : jworld) (j t : entity) (l : joined) : jworld * jresult :=
  let g := jw w in
  match take_input (gw_lis g) j with
  | (lis, TakeBroken) => (mk_jworld (mk_gworld (gw_bufs g) lis (gw_cmds g)) (jw_out w), JBroken)
  | (lis, NotReady) => (mk_jworld (mk_gworld (gw_bufs g) lis (gw_cmds g)) (jw_out w), JNotReady)
  | (lis, Took (s, _)) =>
      match buffered_count (gw_bufs g) l s with
      | None => (mk_jworld (mk_gworld (gw_bufs g) lis (gw_cmds g)) (jw_out w), JBroken)
      | Some c =>
          if c <? 1 then
            (mk_jworld (mk_gworld (gw_bufs g) lis (gw_cmds g)) (jw_out w), JNotReady)
          else
            match fetch_for_join (gw_bufs g) l s with
            | (bufs, None) => (mk_jworld (mk_gworld bufs lis (gw_cmds g)) (jw_out w), JBroken)
            | (bufs, Some vs) =>
                let '(o, ok) := give_input (jw_out w) t s vs in
                (mk_jworld (mk_gworld bufs lis (gw_cmds g)) o, JDone ok)
            end
      end
  end.

(** What happens around a join: anything that can happen to buffers, and executions of
    the join. Which one comes when is decided by the roster; every order is allowed. *)
Inductive jop :=
| JBuf (o : gop V)
| JExec.

Definition jstep (j t : entity) (l : joined) (w : jworld) (o : jop) : jworld :=
  match o with
  | JBuf o => mk_jworld (gstep (jw w) o) (jw_out w)
  | JExec => fst (join_execute w j t l)
  end.

Definition jrun (j t : entity) (l : joined) (w : jworld) (ops : list jop) : jworld :=
  fold_left (jstep j t l) ops w.

(** src/buffer/buffering.rs:904-924 [add_listener_to_source], the part which concerns
    the buffer. *)
Definition add_listener (targets : list entity) (listener : entity) : list entity :=
  if existsb (Nat.eqb listener) targets then targets else targets ++ [listener].

End Join.

Arguments jworld : clear implicits.
Arguments jop : clear implicits.
