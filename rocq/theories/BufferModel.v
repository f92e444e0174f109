(** Model of src/buffer/buffer_storage.rs and of the accessors in src/buffer.rs
    which forward to it. No proofs in this file. *)
From Verif Require Import Base.

(** src/buffer.rs:292-305 [RetentionPolicy]. *)
Inductive retention := KeepLast (n : nat) | KeepFirst (n : nat) | KeepAll.

(** src/buffer.rs:307-311: [Default for RetentionPolicy]. *)
Definition default_retention : retention := KeepLast 1.

Section Buffer.
Context {V : Type}.

(** src/buffer/buffer_storage.rs:31-44 [BufferStorage]. The HashMap of reverse
    queues is a total lookup function. In a reverse queue index 0 is the newest
    value and the last index is the oldest. *)
Record storage := mk_storage {
  policy : retention;
  queues : emap (list V);
}.

(** src/buffer/buffer_storage.rs:253-258 [new]. *)
Definition new_storage (p : retention) : storage := mk_storage p emap_empty.

(** src/buffer/buffer_storage.rs:47-52 [count]. *)
Definition count (b : storage) (s : entity) : nat :=
  match queues b s with Some q => length q | None => 0 end.

(** src/buffer/buffer_storage.rs:58-88 [impl_push]: new queue and the returned
    (rejected or displaced) value. *)
Definition impl_push (q : list V) (p : retention) (v : V) : list V * option V :=
  match p with
  | KeepFirst n =>
      if n <=? length q then (q, Some v) else (v :: q, None)
  | KeepLast n =>
      if (0 <? n) && (n <=? length q) then
        let '(q', o) := pop_last q in (v :: q', o)
      else if n =? 0 then (q, Some v)
      else (v :: q, None)
  | KeepAll => (v :: q, None)
  end.

(** src/buffer/buffer_storage.rs:90-96 [force_push]. *)
Definition force_push (b : storage) (s : entity) (v : V) : storage * option V :=
  let q := match queues b s with Some q => q | None => [] end in
  let '(q', r) := impl_push q (policy b) v in
  (mk_storage (policy b) (emap_set (queues b) s (Some q')), r).

(** src/buffer/buffer_storage.rs:98-104 [push]. *)
Definition push (b : storage) (s : entity) (v : V) : storage * option V :=
  match queues b s with
  | None => (b, Some v)
  | Some q =>
      let '(q', r) := impl_push q (policy b) v in
      (mk_storage (policy b) (emap_set (queues b) s (Some q')), r)
  end.

(** src/buffer/buffer_storage.rs:106-131 [push_as_oldest]. *)
Definition push_as_oldest (b : storage) (s : entity) (v : V) : storage * option V :=
  match queues b s with
  | None => (b, Some v)
  | Some q =>
      let put q' r :=
        (mk_storage (policy b) (emap_set (queues b) s (Some (q' ++ [v]))), r) in
      match policy b with
      | KeepFirst n =>
          if (0 <? n) && (n <=? length q) then
            match q with
            | [] => put [] None (* not reachable: n > 0 and length q >= n *)
            | newest :: q' => put q' (Some newest)
            end
          else put q None
      | KeepLast n =>
          if n <=? length q then (b, Some v) else put q None
      | KeepAll => put q None
      end
  end.

(** src/buffer/buffer_storage.rs:133-135 [pull]. *)
Definition pull (b : storage) (s : entity) : storage * option V :=
  match queues b s with
  | None => (b, None)
  | Some q =>
      let '(q', o) := pop_last q in
      (mk_storage (policy b) (emap_set (queues b) s (Some q')), o)
  end.

(** src/buffer/buffer_storage.rs:137-144 [pull_newest]. *)
Definition pull_newest (b : storage) (s : entity) : storage * option V :=
  match queues b s with
  | None => (b, None)
  | Some [] => (b, None)
  | Some (v :: q') =>
      (mk_storage (policy b) (emap_set (queues b) s (Some q')), Some v)
  end.

(** src/buffer/buffer_storage.rs:146-155 [consume]. *)
Definition consume (b : storage) (s : entity) : storage * list V :=
  match queues b s with
  | None => (b, [])
  | Some q => (mk_storage (policy b) (emap_set (queues b) s (Some [])), rev q)
  end.

(** src/buffer/buffer_storage.rs:157-159 [clear_session]. *)
Definition clear_session (b : storage) (s : entity) : storage :=
  mk_storage (policy b) (emap_set (queues b) s None).

(** src/buffer/buffer_storage.rs:161-163 [ensure_session]. *)
Definition ensure_session (b : storage) (s : entity) : storage :=
  match queues b s with
  | Some _ => b
  | None => mk_storage (policy b) (emap_set (queues b) s (Some []))
  end.

(** src/buffer/buffer_storage.rs:165-175 [iter_mut]: the borrow lets the caller
    replace values; modelled by the function the caller applies to each value,
    visited oldest first. Rust allows the function to be stateful; a function of
    the position and the value covers what can be written. *)
Fixpoint mapi_from (i : nat) (f : nat -> V -> V) (l : list V) : list V :=
  match l with
  | [] => []
  | x :: l' => f i x :: mapi_from (S i) f l'
  end.

Definition iter_mut (b : storage) (s : entity) (f : nat -> V -> V) : storage :=
  match queues b s with
  | None => b
  | Some q =>
      mk_storage (policy b)
        (emap_set (queues b) s (Some (rev (mapi_from 0 f (rev q)))))
  end.

(** src/buffer/buffer_storage.rs:177-181 [oldest_mut], followed by the caller
    replacing the borrowed value by [f] of it. *)
Definition oldest_mut (b : storage) (s : entity) (f : V -> V) : storage * option V :=
  match queues b s with
  | None => (b, None)
  | Some q =>
      match last_opt q with
      | None => (b, None)
      | Some v =>
          (mk_storage (policy b)
             (emap_set (queues b) s (Some (update_nth (length q - 1) f q))), Some v)
      end
  end.

(** src/buffer/buffer_storage.rs:183-187 [newest_mut]. *)
Definition newest_mut (b : storage) (s : entity) (f : V -> V) : storage * option V :=
  match queues b s with
  | None => (b, None)
  | Some [] => (b, None)
  | Some (v :: q') =>
      (mk_storage (policy b) (emap_set (queues b) s (Some (f v :: q'))), Some v)
  end.

(** src/buffer/buffer_storage.rs:189-201 [newest_mut_or_else]; [d] is the value
    the initialiser would produce. The value displaced by [impl_push] is
    dropped. Returns what the caller can see through the borrow. *)
Definition newest_mut_or_else (b : storage) (s : entity) (d : V) (f : V -> V)
  : storage * option V :=
  match queues b s with
  | None => (b, None)
  | Some q =>
      let q1 := match q with [] => fst (impl_push [] (policy b) d) | _ => q end in
      match q1 with
      | [] => (mk_storage (policy b) (emap_set (queues b) s (Some [])), None)
      | v :: q' =>
          (mk_storage (policy b) (emap_set (queues b) s (Some (f v :: q'))), Some v)
      end
  end.

(** src/buffer/buffer_storage.rs:203-211 [get_mut]. *)
Definition get_mut (b : storage) (s : entity) (i : nat) (f : V -> V) : storage * option V :=
  match queues b s with
  | None => (b, None)
  | Some q =>
      if length q <=? i then (b, None)
      else
        (mk_storage (policy b)
           (emap_set (queues b) s (Some (update_nth (length q - i - 1) f q))),
         nth_error q (length q - i - 1))
  end.

(** Result of draining: the values yielded, or the panic SmallVec::drain raises
    when the range is not inside the vector. *)
Inductive drain_result := Drained (l : list V) | DrainPanic.

(** src/buffer/buffer_storage.rs:213-224 [drain] with the range normalised to
    [lo..hi]. The range is applied to the reverse queue and the drained slice is
    yielded in reverse. (SmallVec::drain panics if lo > hi or hi > len.)
    A [drain] whose iterator is dropped early still removes the whole range. *)
Definition drain (b : storage) (s : entity) (lo hi : nat) : storage * drain_result :=
  match queues b s with
  | None => (b, Drained [])
  | Some q =>
      if (hi <? lo) || (length q <? hi) then (b, DrainPanic)
      else
        (mk_storage (policy b)
           (emap_set (queues b) s (Some (firstn lo q ++ skipn hi q))),
         Drained (rev (firstn (hi - lo) (skipn lo q))))
  end.

(** [drain(..)]: the unbounded range, which SmallVec resolves to [0..len]. *)
Definition drain_all (b : storage) (s : entity) : storage * drain_result :=
  drain b s 0 (count b s).

(** src/buffer/buffer_storage.rs:226-233 [iter]. *)
Definition iter (b : storage) (s : entity) : list V :=
  match queues b s with Some q => rev q | None => [] end.

(** src/buffer/buffer_storage.rs:235-237 [oldest]. *)
Definition oldest (b : storage) (s : entity) : option V :=
  match queues b s with Some q => last_opt q | None => None end.

(** src/buffer/buffer_storage.rs:239-241 [newest]. *)
Definition newest (b : storage) (s : entity) : option V :=
  match queues b s with Some q => hd_error q | None => None end.

(** src/buffer/buffer_storage.rs:243-251 [get]. *)
Definition get (b : storage) (s : entity) (i : nat) : option V :=
  match queues b s with
  | None => None
  | Some q => if length q <=? i then None else nth_error q (length q - i - 1)
  end.

(** The operations a history of a buffer is made of. *)
Inductive bop :=
| OForcePush (s : entity) (v : V)
| OPush (s : entity) (v : V)
| OPushOldest (s : entity) (v : V)
| OPull (s : entity)
| OPullNewest (s : entity)
| OConsume (s : entity)
| OClear (s : entity)
| OEnsure (s : entity)
| OIterMut (s : entity) (f : nat -> V -> V)
| OOldestMut (s : entity) (f : V -> V)
| ONewestMut (s : entity) (f : V -> V)
| ONewestMutOr (s : entity) (d : V) (f : V -> V)
| OGetMut (s : entity) (i : nat) (f : V -> V)
| ODrain (s : entity) (lo hi : nat)
| ODrainAll (s : entity).

(** What the caller of an operation observes. *)
Inductive bout :=
| RUnit
| RVal (o : option V)
| RList (l : list V)
| RPanic.

(** One operation on the storage. *)
Definition bstep (b : storage) (o : bop) : storage * bout :=
  match o with
  | OForcePush s v => let '(b', r) := force_push b s v in (b', RVal r)
  | OPush s v => let '(b', r) := push b s v in (b', RVal r)
  | OPushOldest s v => let '(b', r) := push_as_oldest b s v in (b', RVal r)
  | OPull s => let '(b', r) := pull b s in (b', RVal r)
  | OPullNewest s => let '(b', r) := pull_newest b s in (b', RVal r)
  | OConsume s => let '(b', r) := consume b s in (b', RList r)
  | OClear s => (clear_session b s, RUnit)
  | OEnsure s => (ensure_session b s, RUnit)
  | OIterMut s f => (iter_mut b s f, RUnit)
  | OOldestMut s f => let '(b', r) := oldest_mut b s f in (b', RVal r)
  | ONewestMut s f => let '(b', r) := newest_mut b s f in (b', RVal r)
  | ONewestMutOr s d f => let '(b', r) := newest_mut_or_else b s d f in (b', RVal r)
  | OGetMut s i f => let '(b', r) := get_mut b s i f in (b', RVal r)
  | ODrain s lo hi =>
      let '(b', r) := drain b s lo hi in
      (b', match r with Drained l => RList l | DrainPanic => RPanic end)
  | ODrainAll s =>
      let '(b', r) := drain_all b s in
      (b', match r with Drained l => RList l | DrainPanic => RPanic end)
  end.

(** A history: final storage and the observations, in order. *)
Fixpoint brun (b : storage) (ops : list bop) : storage * list bout :=
  match ops with
  | [] => (b, [])
  | o :: ops' =>
      let '(b1, r) := bstep b o in
      let '(b2, rs) := brun b1 ops' in (b2, r :: rs)
  end.

End Buffer.

Arguments storage : clear implicits.
Arguments bop : clear implicits.
Arguments bout : clear implicits.
Arguments drain_result : clear implicits.
