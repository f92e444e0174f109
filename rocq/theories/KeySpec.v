(** What can be said about keys from their events alone. *)
From Verif Require Import Base KeyModel.

Fixpoint made (k : entity) (l : list kevent) : nat :=
  match l with
  | [] => 0
  | KvKey _ k' _ :: l' | KvCopied _ k' :: l' => (if Nat.eqb k' k then 1 else 0) + made k l'
  | _ :: l' => made k l'
  end.

Fixpoint gone (k : entity) (l : list kevent) : nat :=
  match l with
  | [] => 0
  | KvDropped _ k' :: l' => (if Nat.eqb k' k then 1 else 0) + gone k l'
  | _ :: l' => gone k l'
  end.

(** Somebody still has a copy of a key of the session. *)
Definition in_use (s : entity) (l : list kevent) : Prop :=
  exists k b, In (KvKey s k b) l /\ gone k l < made k l.

Definition got_key (s : entity) (l : list kevent) : Prop := exists k b, In (KvKey s k b) l.

Definition kcleaned (s : entity) (l : list kevent) : Prop := In (KvClean s) l.

(** Since the last time a key of the session went out or was dropped there was a check which found
    that the keys are not in use. *)
Fixpoint found_unused (s : entity) (acc : bool) (l : list kevent) : bool :=
  match l with
  | [] => acc
  | KvKey s' _ _ :: l' | KvDropped s' _ :: l' => found_unused s (if Nat.eqb s' s then false else acc) l'
  | KvCheck s' use :: l' => found_unused s (if Nat.eqb s' s then acc || negb use else acc) l'
  | _ :: l' => found_unused s acc l'
  end.

(** All notices were handled. *)
Definition all_handled (w : kworld) : Prop := kw_chan w = [] /\ kw_disposed w = [].

(** Keys are dropped while nothing else happens. *)
Definition at_once (o : kop) : list kop :=
  match o with KDrop k => [KDrop k; KRelease k] | KRelease _ => [] | _ => [o] end.
