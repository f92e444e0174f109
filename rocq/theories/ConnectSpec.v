(** What is expected of connections, in terms of ports: every operation has a number of
    ports, and each port leads to one entity. *)
From Verif Require Import Base ConnectModel.

Inductive port := PSingle | PFork (i : nat) | PAnon (k : nat) | PNamed (k : nat) | PStart.

Fixpoint lookup (k : nat) (l : list (nat * entity)) : option entity :=
  match l with [] => None | (k', t) :: l' => if Nat.eqb k k' then Some t else lookup k l' end.

(** Where port [p] of entity [m] leads to. *)
Definition leads_to (a : api) (m : entity) (p : port) : option entity :=
  match cw_node (a_w a) m with
  | None => None
  | Some c =>
      match p with
      | PSingle => c_single c
      | PFork i => match c_fork c with Some l => nth_error l i | None => None end
      | PAnon k => lookup k (c_anon c)
      | PNamed k => lookup k (c_named c)
      | PStart => c_start c
      end
  end.

Definition exists_ (a : api) (e : entity) : Prop := cw_node (a_w a) e <> None.

(** The operations listed as inputs of [t]. *)
Definition inputs (a : api) (t : entity) : list entity :=
  match cw_node (a_w a) t with
  | Some c => match c_inputs c with Some l => l | None => [] end
  | None => []
  end.

(** Streams of one node have different types, or different names. *)
Definition distinct_streams (x : act) : Prop :=
  match x with
  | ACreate sh | AChain _ sh => NoDup (sh_anon sh) /\ NoDup (sh_named sh)
  | _ => True
  end.
