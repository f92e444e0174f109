(** What access to a buffer through keys without the message type should do, in terms of
    the list of messages (oldest first) of the session of the key. *)
From Verif Require Import Base RosterModel BufferModel BufferSpec InputModel GateModel GateSpec
  ErasedModel.

Section ErasedSpec.
Context {V J : Type}.
Context (ser : nat -> V -> option J) (de : nat -> J -> option V).

(** [f] is applied to the message at one end or at a position. *)
Definition at_oldest (f : V -> V) (l : list V) : list V :=
  match l with [] => [] | x :: r => f x :: r end.

Definition at_newest (f : V -> V) (l : list V) : list V :=
  match last_opt l with Some x => removelast l ++ [f x] | None => l end.

Definition at_index (i : nat) (f : V -> V) (l : list V) : list V :=
  match nth_error l i with Some x => firstn i l ++ [f x] ++ skipn (S i) l | None => l end.

(** Positions of a drained range count from the newest message, see C05. *)
Definition in_range (lo hi : nat) (l : list V) : bool := (lo <=? hi) && (hi <=? length l).

Definition range_kept (lo hi : nat) (l : list V) : list V :=
  firstn (length l - hi) l ++ skipn (length l - lo) l.

Definition range_taken (lo hi : nat) (l : list V) : list V :=
  firstn (hi - lo) (skipn (length l - hi) l).

(** Messages come in and go out together with their type. *)
Definition typed (T : nat) (o : option V) : option (@box V) :=
  match o with Some v => Some (mk_box T v) | None => None end.

Definition edit_as (t T : nat) (f : V -> V) (v : V) : V := if Nat.eqb t T then f v else v.

(** One call on an [AnyBufferMut] for a buffer with messages of type [T] and retention
    policy [p]. *)
Definition any_spec (p : retention) (T : nat) (l : list V) (c : acall V) : list V * aout V :=
  match c with
  | ACPush x | ACPushAny x =>
      if Nat.eqb (bx_ty x) T
      then (fst (spec_arrive p l (bx_val x)), AOPushed (typed T (snd (spec_arrive p l (bx_val x)))))
      else (l, AORefused x)
  | ACPushOldest x | ACPushAnyOldest x =>
      if Nat.eqb (bx_ty x) T
      then (fst (spec_arrive_oldest p l (bx_val x)),
            AOPushed (typed T (snd (spec_arrive_oldest p l (bx_val x)))))
      else (l, AORefused x)
  | ACPull => (tl l, AOBox (typed T (hd_error l)))
  | ACPullNewest => (removelast l, AOBox (typed T (last_opt l)))
  | ACOldestMut t f => (at_oldest (edit_as t T f) l, AOBox (typed T (hd_error l)))
  | ACNewestMut t f => (at_newest (edit_as t T f) l, AOBox (typed T (last_opt l)))
  | ACGetMut i t f => (at_index i (edit_as t T f) l, AOBox (typed T (nth_error l i)))
  | ACDrain lo hi =>
      if in_range lo hi l
      then (range_kept lo hi l, AOList (map (mk_box T) (range_taken lo hi l)))
      else (l, AOPanic)
  | ACDrainAll => ([], AOList (map (mk_box T) l))
  | ACPulse => (l, AOUnit)
  | ACOldest => (l, AOBox (typed T (hd_error l)))
  | ACNewest => (l, AOBox (typed T (last_opt l)))
  | ACGet i => (l, AOBox (typed T (nth_error l i)))
  | ACLen => (l, AOLen (length l))
  end.

(** The calls of one access, ended by the first panic. *)
Fixpoint any_spec_run (p : retention) (T : nat) (l : list V) (cs : list (acall V))
  : list V * list (aout V) :=
  match cs with
  | [] => (l, [])
  | c :: cs' =>
      match any_spec p T l c with
      | (l1, AOPanic) => (l1, [AOPanic])
      | (l1, o) => (fst (any_spec_run p T l1 cs'), o :: snd (any_spec_run p T l1 cs'))
      end
  end.

(** The calls after which the documentation promises that listeners are woken: all that
    change the buffer or lend a message mutably, and [pulse]. *)
Definition any_wakes (T : nat) (c : acall V) : bool :=
  match c with
  | ACPush x | ACPushAny x | ACPushOldest x | ACPushAnyOldest x => Nat.eqb (bx_ty x) T
  | ACOldest | ACNewest | ACGet _ | ACLen => false
  | _ => true
  end.

(** The two calls for boxed messages. *)
Definition boxed_push (c : acall V) : bool :=
  match c with ACPushAny _ | ACPushAnyOldest _ => true | _ => false end.

(** ** As JSON *)

(** The serialisation of a message, if there is one. *)
Definition as_json (T : nat) (o : option V) : jout J :=
  match o with
  | None => JOVal None
  | Some v => match ser T v with Some j => JOVal (Some j) | None => JOErr end
  end.

(** What an action on a borrowed message [v] makes of it and returns. An error leaves the
    message as it was. *)
Definition json_act (T : nat) (v : V) (a : jmut J) : V * jout J :=
  match a with
  | JMSerialize => (v, as_json T (Some v))
  | JMReplace j =>
      match de T j, ser T v with
      | Some v', Some old => (v', JOVal (Some old))
      | _, _ => (v, JOErr)
      end
  | JMInsert j => match de T j with Some v' => (v', JOUnit) | None => (v, JOErr) end
  | JMModify f =>
      match ser T v with
      | Some j => match de T (f j) with Some v' => (v', JOUnit) | None => (v, JOErr) end
      | None => (v, JOErr)
      end
  end.

Definition json_act_at (T : nat) (o : option V) (a : jmut J) : jout J :=
  match o with Some v => snd (json_act T v a) | None => JOVal None end.

Definition json_edit_by (T : nat) (a : jmut J) (v : V) : V := fst (json_act T v a).

Definition json_arrives (p : retention) (T : nat) (l : list V) (oldest : bool) (o : option J)
  : list V * jout J :=
  match o with
  | None => (l, JOErr)
  | Some j =>
      match de T j with
      | None => (l, JOErr)
      | Some v =>
          let '(l', r) := if oldest then spec_arrive_oldest p l v else spec_arrive p l v in
          (l', as_json T r)
      end
  end.

Definition converted (accepts : J -> bool) (o : jout J) : jout J :=
  match o with JOVal (Some j) => if accepts j then o else JOErr | _ => o end.

(** One call on a [JsonBufferMut]. *)
Definition json_spec (p : retention) (T : nat) (l : list V) (c : jcall J) : list V * jout J :=
  match c with
  | JCPush o => json_arrives p T l false o
  | JCPushJson j => json_arrives p T l false (Some j)
  | JCPushOldest o => json_arrives p T l true o
  | JCPushJsonOldest j => json_arrives p T l true (Some j)
  | JCPull => (tl l, as_json T (hd_error l))
  | JCPullNewest => (removelast l, as_json T (last_opt l))
  | JCPullAs a => (tl l, converted a (as_json T (hd_error l)))
  | JCPullNewestAs a => (removelast l, converted a (as_json T (last_opt l)))
  | JCOldestMut a => (at_oldest (json_edit_by T a) l, json_act_at T (hd_error l) a)
  | JCNewestMut a => (at_newest (json_edit_by T a) l, json_act_at T (last_opt l) a)
  | JCGetMut i a => (at_index i (json_edit_by T a) l, json_act_at T (nth_error l i) a)
  | JCDrain lo hi =>
      if in_range lo hi l
      then (range_kept lo hi l, JOList (map (ser T) (range_taken lo hi l)))
      else (l, JOPanic)
  | JCDrainAll => ([], JOList (map (ser T) l))
  | JCPulse => (l, JOUnit)
  | JCOldest => (l, as_json T (hd_error l))
  | JCNewest => (l, as_json T (last_opt l))
  | JCGet i => (l, as_json T (nth_error l i))
  | JCLen => (l, JOLen (length l))
  end.

Fixpoint json_spec_run (p : retention) (T : nat) (l : list V) (cs : list (jcall J))
  : list V * list (jout J) :=
  match cs with
  | [] => (l, [])
  | c :: cs' =>
      match json_spec p T l c with
      | (l1, JOPanic) => (l1, [JOPanic])
      | (l1, o) => (fst (json_spec_run p T l1 cs'), o :: snd (json_spec_run p T l1 cs'))
      end
  end.

Definition json_pushes_oldest (c : jcall J) : bool :=
  match c with JCPushOldest _ | JCPushJsonOldest _ => true | _ => false end.

(** Calls that put something in or change a message in place. *)
Definition json_puts (c : jcall J) : bool :=
  match c with
  | JCPush _ | JCPushJson _ | JCPushOldest _ | JCPushJsonOldest _
  | JCOldestMut _ | JCNewestMut _ | JCGetMut _ _ => true
  | _ => false
  end.

(** The key [k] opens a buffer node [n]: the buffer exists and its messages have the type
    the key was made for. Keys are only made that way, see C66_keys_keep_their_buffer. *)
Definition opens (types : emap nat) (w : gworld V) (k : ekey) (n : bufnode V) : Prop :=
  types (ek_buf k) = Some (ek_ty k) /\ gw_bufs w (ek_buf k) = Some n.

(** The session was prepared in the buffer and its contents respect the policy, which is
    so in every reachable state (C03). *)
Definition session_ok (n : bufnode V) (s : entity) : Prop :=
  (exists q, queues (bn_store n) s = Some q) /\
  within_limit (policy (bn_store n)) (length (iter (bn_store n) s)) /\
  policy (bn_store n) <> KeepFirst 0.

End ErasedSpec.
