(** * Which nodes a trim should clean

    Stated with routes in a graph only, for any relation [E] between nodes. *)

From Coq Require Import List.
From Verif Require Import Base.
Import ListNotations.

(** [route E x l y]: the nodes of [l], in order, lead from [x] to [y]. *)
Inductive route (E : entity -> entity -> Prop) : entity -> list entity -> entity -> Prop :=
| route_here x : route E x [x] x
| route_step x y l z : E x y -> route E y l z -> route E x (x :: l) z.

(** A route from [p] to [q] that arrives at [q] only at its end and, after its
    start, never goes through a forbidden node. *)
Definition way (E : entity -> entity -> Prop) (forbidden : entity -> Prop)
    (p : entity) (l : list entity) (q : entity) : Prop :=
  route E p l q /\ (forall x, In x (tl l) -> ~ forbidden x) /\ ~ In q (removelast l).

(** [n] is on the way from [p] to [q]. *)
Definition on_way (E : entity -> entity -> Prop) (forbidden : entity -> Prop)
    (p q n : entity) : Prop :=
  exists l, way E forbidden p l q /\ In n l.

Definition nothing (_ : entity) : Prop := False.

(** [n] is between the entry of the scope and [p]. *)
Definition before (E : entity -> entity -> Prop) (entry p n : entity) : Prop :=
  n <> p /\ on_way E nothing entry p n.

(** [n] can be reached from [p] without going through nodes that are between the
    entry and [p]. *)
Definition after (E : entity -> entity -> Prop) (entry p n : entity) : Prop :=
  exists l, route E p l n /\ (forall x, In x l -> ~ before E entry p x).

(** The node [n] is not ruled out by a point [p] that is not to be included. *)
Definition admitted (p : entity) (inclusive : bool) (n : entity) : Prop :=
  inclusive = true \/ n <> p.
