(** What the parts of a built diagram are, and where they are. *)
From Verif Require Import Base DiagramModel DiagramSpec.

(** What an entity of the built workflow is *)
Inductive role :=
| IsInput (r : opref)                          (* an input of what [r] refers to *)
| IsOutput (ns : list nat) (id : nat) (k : nat) (* the k-th output of an operation *)
| IsBegin (ns : list nat) (id : nat)           (* the start of a scope, seen from inside *)
| IsEnd (ns : list nat) (id : nat)             (* the response of a scope, seen from outside *)
| IsStream (r : opref)                         (* a stream of a scope, seen from outside *)
| IsConvIn | IsConvOut | IsConvError.          (* the ends of a conversion *)

Definition numbered (ns : list nat) (id : nat) (outs : list (option next_op * output)) : list (nat * role) :=
  combine (map (fun x => o_id (snd x)) outs) (map (IsOutput ns id) (seq 0 (length outs))).

(** The roles which an entry of the log gives to entities *)
Definition roles (e : entry) : list (nat * role) :=
  match e with
  | LSlot r s => [(s_id s, IsInput r)]
  | LBuilt u ins bufs outs => numbered (u_ns u) (u_id u) outs
  | LScope u sc enter term ex =>
      [(sc, IsInput (RNamed (u_ns u) None (u_id u))); (term, IsInput (RTerminate (u_ns u ++ [u_id u])));
       (enter, IsBegin (u_ns u) (u_id u)); (ex, IsEnd (u_ns u) (u_id u))]
  | LStream r s o => [(o_id o, IsStream r)]
  | LConv k i out er =>
      (s_id i, IsConvIn) :: (o_id out, IsConvOut) ::
      match er with Some e => [(o_id e, IsConvError)] | None => [] end
  | _ => []
  end.

Definition role_of (log : list entry) (i : nat) (x : role) : Prop :=
  exists e, In e log /\ In (i, x) (roles e).

(** The scope in which the operations in the namespaces [ns] are built *)
Inductive placed (log : list entry) : list nat -> nat -> Prop :=
| placed_top : placed log [] 0
| placed_section u ins bufs outs p cn :
    In (LBuilt u ins bufs outs) log -> u_op u = OSection p cn -> placed log (u_ns u ++ [u_id u]) (u_scope u)
| placed_scope u sc enter term ex :
    In (LScope u sc enter term ex) log -> placed log (u_ns u ++ [u_id u]) sc.

(** What [r] refers to is in the scope [sc]. *)
Definition lies (log : list entry) (r : opref) (sc : nat) : Prop :=
  exists ns, namespaces r = Some ns /\ placed log ns sc.

(** [r] is the terminate or a stream of a scope, seen from inside. *)
Inductive way_out (d : diagram) : opref -> Prop :=
| way_terminate ns id start ops streams next :
    occurs d ns id (OScope start ops streams next) -> way_out d (RTerminate (ns ++ [id]))
| way_stream ns id start ops streams next n :
    occurs d ns id (OScope start ops streams next) -> way_out d (RStream (ns ++ [id]) n).

(** Outputs which may be directed to a place outside of their scope: the errors
    of conversions, and the errors of transforms inside of namespaces *)
Definition stray (log : list entry) (o : output) : Prop :=
  (exists k i ok, In (LConv k i ok (Some o)) log) \/
  (exists u ins bufs outs next er, In (LBuilt u ins bufs outs) log /\ u_op u = OTransform next er /\ u_ns u <> [] /\
     In (er, o) outs /\ o_ty o = TFailed).
