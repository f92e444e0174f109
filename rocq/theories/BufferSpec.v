(** Specification of a buffer, independent of the way the code stores it: per
    session there is either nothing (the buffer was never used in the session) or
    a list of values ordered from oldest to newest. *)
From Verif Require Import Base BufferModel.

Section BufferSpec.
Context {V : Type}.

(** The session an operation is addressed to. *)
Definition op_session (o : bop V) : entity :=
  match o with
  | OForcePush s _ | OPush s _ | OPushOldest s _ | OPull s | OPullNewest s
  | OConsume s | OClear s | OEnsure s | OIterMut s _ | OOldestMut s _
  | ONewestMut s _ | ONewestMutOr s _ _ | OGetMut s _ _ | ODrain s _ _
  | ODrainAll s => s
  end.

(** A new value arrives at the newest end. [KeepLast n]: the last [n] values
    survive. [KeepFirst n]: a value is accepted only while there is room. *)
Definition spec_arrive (p : retention) (l : list V) (v : V) : list V * option V :=
  match p with
  | KeepAll => (l ++ [v], None)
  | KeepFirst n => if length l <? n then (l ++ [v], None) else (l, Some v)
  | KeepLast n =>
      let l' := l ++ [v] in
      if length l' <=? n then (l', None)
      else (skipn (length l' - n) l', hd_error l')
  end.

(** A value is put in as if it were the oldest one. *)
Definition spec_arrive_oldest (p : retention) (l : list V) (v : V) : list V * option V :=
  match p with
  | KeepAll => (v :: l, None)
  | KeepLast n => if length l <? n then (v :: l, None) else (l, Some v)
  | KeepFirst n =>
      let l' := v :: l in
      if length l' <=? n then (l', None) else (firstn n l', last_opt l')
  end.

Fixpoint spec_mapi (i : nat) (f : nat -> V -> V) (l : list V) : list V :=
  match l with
  | [] => []
  | x :: l' => f i x :: spec_mapi (S i) f l'
  end.

(** The view of one session: [None] means the session has no entry. *)
Definition spec_step (p : retention) (st : option (list V)) (o : bop V)
  : option (list V) * bout V :=
  match o, st with
  | OForcePush _ v, _ =>
      let '(l, r) := spec_arrive p (match st with Some l => l | None => [] end) v in
      (Some l, RVal r)
  | OPush _ v, Some l => let '(l', r) := spec_arrive p l v in (Some l', RVal r)
  | OPush _ v, None => (None, RVal (Some v))
  | OPushOldest _ v, Some l => let '(l', r) := spec_arrive_oldest p l v in (Some l', RVal r)
  | OPushOldest _ v, None => (None, RVal (Some v))
  | OPull _, Some (x :: l) => (Some l, RVal (Some x))
  | OPull _, _ => (st, RVal None)
  | OPullNewest _, Some l =>
      match last_opt l with
      | Some x => (Some (removelast l), RVal (Some x))
      | None => (st, RVal None)
      end
  | OPullNewest _, None => (None, RVal None)
  | OConsume _, Some l => (Some [], RList l)
  | OConsume _, None => (None, RList [])
  | OClear _, _ => (None, RUnit)
  | OEnsure _, Some l => (Some l, RUnit)
  | OEnsure _, None => (Some [], RUnit)
  | OIterMut _ f, Some l => (Some (spec_mapi 0 f l), RUnit)
  | OIterMut _ _, None => (None, RUnit)
  | OOldestMut _ f, Some (x :: l) => (Some (f x :: l), RVal (Some x))
  | OOldestMut _ _, _ => (st, RVal None)
  | ONewestMut _ f, Some l =>
      match last_opt l with
      | Some x => (Some (removelast l ++ [f x]), RVal (Some x))
      | None => (st, RVal None)
      end
  | ONewestMut _ _, None => (None, RVal None)
  | ONewestMutOr _ d f, Some l =>
      let l1 := match l with [] => fst (spec_arrive p [] d) | _ => l end in
      match last_opt l1 with
      | Some x => (Some (removelast l1 ++ [f x]), RVal (Some x))
      | None => (Some l1, RVal None)
      end
  | ONewestMutOr _ _ _, None => (None, RVal None)
  | OGetMut _ i f, Some l =>
      match nth_error l i with
      | Some x => (Some (firstn i l ++ [f x] ++ skipn (S i) l), RVal (Some x))
      | None => (st, RVal None)
      end
  | OGetMut _ _ _, None => (None, RVal None)
  | ODrain _ lo hi, Some l =>
      (* positions count from the oldest value, like everywhere else *)
      if (lo <=? hi) && (hi <=? length l)
      then (Some (firstn lo l ++ skipn hi l), RList (firstn (hi - lo) (skipn lo l)))
      else (st, RPanic)
  | ODrain _ _ _, None => (None, RList [])
  | ODrainAll _, Some l => (Some [], RList l)
  | ODrainAll _, None => (None, RList [])
  end.

(** A whole history over all sessions: every session evolves on its own. *)
Fixpoint spec_run (p : retention) (st : entity -> option (list V)) (ops : list (bop V))
  : (entity -> option (list V)) * list (bout V) :=
  match ops with
  | [] => (st, [])
  | o :: ops' =>
      let s := op_session o in
      let '(l, r) := spec_step p (st s) o in
      let '(st2, rs) := spec_run p (fun s' => if Nat.eqb s' s then l else st s') ops' in
      (st2, r :: rs)
  end.

(** Limit on the number of values of a session, if the policy has one. *)
Definition limit (p : retention) : option nat :=
  match p with KeepLast n | KeepFirst n => Some n | KeepAll => None end.

Definition within_limit (p : retention) (n : nat) : Prop :=
  match limit p with Some m => n <= m | None => True end.

(** Operations which take partial ranges. *)
Definition partial_drain (o : bop V) : bool :=
  match o with ODrain _ _ _ => true | _ => false end.

(** [push_as_oldest]. *)
Definition pushes_oldest (o : bop V) : bool :=
  match o with OPushOldest _ _ => true | _ => false end.

(** Operations through which the caller overwrites values in place. *)
Definition edits (o : bop V) : bool :=
  match o with
  | OIterMut _ _ | OOldestMut _ _ | ONewestMut _ _ | ONewestMutOr _ _ _ | OGetMut _ _ _ => true
  | _ => false
  end.

(** Values a caller hands over to session [s] of the buffer in an operation. *)
Definition offered (s : entity) (o : bop V) : list V :=
  match o with
  | OForcePush s' v | OPush s' v | OPushOldest s' v => if Nat.eqb s' s then [v] else []
  | _ => []
  end.

(** Values handed back to the caller by an operation addressed to [s]. *)
Definition given_back (s : entity) (o : bop V) (r : bout V) : list V :=
  if Nat.eqb (op_session o) s then
    match r with
    | RVal (Some v) => [v]
    | RList l => l
    | _ => []
    end
  else [].

(** Values discarded because the whole session was cleared. *)
Fixpoint cleared (s : entity) (b : storage V) (ops : list (bop V)) : list V :=
  match ops with
  | [] => []
  | o :: ops' =>
      (match o with
       | OClear s' => if Nat.eqb s' s then iter b s else []
       | _ => []
       end) ++ cleared s (fst (bstep b o)) ops'
  end.

Fixpoint zip_back (s : entity) (ops : list (bop V)) (rs : list (bout V)) : list V :=
  match ops, rs with
  | o :: ops', r :: rs' => given_back s o r ++ zip_back s ops' rs'
  | _, _ => []
  end.

(** The observations made by the operations of one session. *)
Fixpoint outs_of (s : entity) (ops : list (bop V)) (rs : list (bout V)) : list (bout V) :=
  match ops, rs with
  | o :: ops', r :: rs' =>
      if Nat.eqb (op_session o) s then r :: outs_of s ops' rs' else outs_of s ops' rs'
  | _, _ => []
  end.

End BufferSpec.
