(** What the requests of a callback are told. *)
From Verif Require Import Base CallbackModel.

Section Spec.
  Context {V U : Type}.

  (** The requests given to node [n], and those the callback ran for. *)
  Definition c_issued (n : entity) (l : list (cevent V)) : list (entity * V) :=
    flat_map (fun e => match e with
                       | CvIssued m s v => if Nat.eqb m n then [(s, v)] else []
                       | _ => [] end) l.
  Definition c_served (n : entity) (l : list (cevent V)) : list (entity * V) :=
    flat_map (fun e => match e with
                       | CvServed m s v => if Nat.eqb m n then [(s, v)] else []
                       | _ => [] end) l.

  (** The same for all nodes together. *)
  Definition c_made (l : list (cevent V)) : list (entity * entity * V) :=
    flat_map (fun e => match e with CvIssued n s v => [(n, s, v)] | _ => [] end) l.
  Definition c_ran (l : list (cevent V)) : list (entity * entity * V) :=
    flat_map (fun e => match e with CvServed n s v => [(n, s, v)] | _ => [] end) l.

  (** Requests made by the callback while it runs make no further requests of it. *)
  Definition nests_flat (crun : U -> entity -> entity -> V -> U * list (entity * entity * V)) : Prop :=
    forall u n s v m t x, In (m, t, x) (snd (crun u n s v)) -> forall u', snd (crun u' m t x) = [].
End Spec.
