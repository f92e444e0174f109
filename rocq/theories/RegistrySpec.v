(** * What a registry has been asked for.

    A description of what each call of the user asks for, written from the
    documentation of the calls and without the functions of the model.  The
    claims compare this with what the registry answers. *)

From Coq Require Import List Arith Bool.
From Verif Require Import RegistryModel.
Import ListNotations.

(** What can be asked for, for a type of message.  [Known]: the type can be used for
    buffers, triggers and scopes. *)
Inductive ability :=
| Known | Deserialize | Serialize | Clone | Unzip | ForkResult | Split | Join
| BufferAccess | Listen | ToString.

Section Spec.
Context (R : rust).

(** The parts of a message that an operation hands out *)
Inductive part : mop -> nat -> nat -> Prop :=
| part_unzip b t p : In p (parts_of R t) -> part (WithUnzip b) t p
| part_ok b t : part (WithResult b) t (ok_of R t)
| part_err b t : part (WithResult b) t (err_of R t)
| part_item b t : part (WithSplit b) t (item_of R t)
| part_items b t : part (WithSplit b) t (vec_of R (item_of R t)).

Definition full (o : mop) : bool :=
  match o with WithUnzip b | WithResult b | WithSplit b => b | _ => false end.

(** [owants o t a u]: calling [o] for messages of type [t] asks for ability [a] of type [u] *)
Inductive owants : mop -> nat -> ability -> nat -> Prop :=
| ow_unzip b t : owants (WithUnzip b) t Unzip t
| ow_result b t : owants (WithResult b) t ForkResult t
| ow_split b t : owants (WithSplit b) t Split t
| ow_join t : owants WithJoin t Join t
| ow_access t : owants WithBufferAccess t BufferAccess t
| ow_listen t : owants WithListen t Listen t
| ow_string t : owants WithToString t ToString t
| ow_part_ser o t p : full o = true -> part o t p -> owants o t Serialize p
| ow_part_clone o t p : full o = true -> part o t p -> owants o t Clone p
| ow_part_known o t p : part o t p -> owants o t Known p
| ow_known o t : owants o t Known t.

(** [common d s c t a u]: the common operations for [t], as far as they were not opted out of *)
Inductive common (d s c : bool) (t : nat) : ability -> nat -> Prop :=
| co_known : common d s c t Known t
| co_de : d = true -> common d s c t Deserialize t
| co_ser : s = true -> common d s c t Serialize t
| co_clone : c = true -> common d s c t Clone t.

(** "Any message type can be joined into a Vec" (registration.rs 346) *)
Inductive vecs (t : nat) : ability -> nat -> Prop :=
| v_join : vecs t Join (vec_of R t)
| v_known : vecs t Known (vec_of R t).

(** The call of an operation on the message of a node goes to one of the operations above *)
Definition as_mop (o : nop) : option mop :=
  match o with
  | NUnzip b => Some (WithUnzip b)
  | NResult b => Some (WithResult b)
  | NSplit b => Some (WithSplit b)
  | _ => None
  end.

Inductive nwants : nop -> nat -> nat -> ability -> nat -> Prop :=
| nw_common_request q p a u : common true true true q a u -> nwants NCommonRequest q p a u
| nw_common_request_vec q p a u : vecs q a u -> nwants NCommonRequest q p a u
| nw_clone_request q p : nwants NCloneRequest q p Clone q
| nw_de_request q p : nwants NDeserializeRequest q p Deserialize q
| nw_common_response q p a u : common true true true p a u -> nwants NCommonResponse q p a u
| nw_common_response_vec q p a u : vecs p a u -> nwants NCommonResponse q p a u
| nw_clone_response q p : nwants NCloneResponse q p Clone p
| nw_ser_response q p : nwants NSerializeResponse q p Serialize p
| nw_response o o' q p a u : as_mop o = Some o' -> owants o' p a u -> nwants o q p a u
| nw_response_vec o o' q p a u : as_mop o = Some o' -> vecs p a u -> nwants o q p a u
| nw_join q p : nwants NJoin q p Join q
| nw_access q p : nwants NBufferAccess q p BufferAccess q
| nw_listen q p : nwants NListen q p Listen q
| nw_request_string q p : nwants NRequestToString q p ToString q
| nw_response_string q p : nwants NResponseToString q p ToString p.

(** [wants x a u]: the call [x] asks for ability [a] of type [u] *)
Inductive wants : call -> ability -> nat -> Prop :=
| w_message d s c t ops a u : common d s c t a u -> wants (CMessage d s c t ops) a u
| w_message_vec d s c t ops a u : vecs t a u -> wants (CMessage d s c t ops) a u
| w_message_op d s c t ops o a u :
    In o ops -> owants o t a u -> wants (CMessage d s c t ops) a u
| w_request d s c id n ops a u :
    common d s c (n_request n) a u -> wants (CNode d s c id n ops) a u
| w_response d s c id n ops a u :
    common d s c (n_response n) a u -> wants (CNode d s c id n ops) a u
| w_node_op d s c id n ops o a u :
    In o ops -> nwants o (n_request n) (n_response n) a u -> wants (CNode d s c id n ops) a u.

(** The call asks for forking results of type [t], with or without the abilities of the parts *)
Inductive asks_result (b : bool) (t : nat) : call -> Prop :=
| ar_message d s c ops : In (WithResult b) ops -> asks_result b t (CMessage d s c t ops)
| ar_node d s c id n ops :
    n_response n = t -> In (NResult b) ops -> asks_result b t (CNode d s c id n ops).

(** No type of result is asked for in both ways *)
Definition uniform_results (xs : list call) : Prop :=
  forall t x y, In x xs -> In y xs -> asks_result true t x -> asks_result false t y -> False.

(** The call registers messages of type [t] with both conversions at once *)
Inductive asks_json : nat -> call -> Prop :=
| aj_message c t ops : asks_json t (CMessage true true c t ops)
| aj_request c id n ops : asks_json (n_request n) (CNode true true c id n ops)
| aj_response c id n ops : asks_json (n_response n) (CNode true true c id n ops)
| aj_common_request d s c id n ops :
    In NCommonRequest ops -> asks_json (n_request n) (CNode d s c id n ops)
| aj_common_response d s c id n ops :
    In NCommonResponse ops -> asks_json (n_response n) (CNode d s c id n ops).

End Spec.

(** What the registry answers: the type for which the operation [a] that it gives for [t] was made, if any *)
Definition answer (st : state) (a : ability) (t : nat) : option nat :=
  let ok (x : nat + error) := match x with inl y => Some y | inr _ => None end in
  match a with
  | Known => ok (get_create_buffer st t)
  | Deserialize => ok (get_deserialize st t)
  | Serialize => ok (get_serialize st t)
  | Clone => ok (get_fork_clone st t)
  | Unzip => ok (get_unzip st t)
  | ForkResult => ok (get_fork_result st t)
  | Split => ok (get_split st t)
  | Join => ok (get_join st t)
  | BufferAccess => ok (get_buffer_access st t)
  | Listen => ok (get_listen st t)
  | ToString => match get_to_string st t with inl (Some y) => Some y | _ => None end
  end.

Definition has (st : state) (a : ability) (t : nat) : Prop := answer st a t <> None.

(** The last registration of a builder under an id *)
Fixpoint last_node (xs : list call) (id : nat) : option nreg :=
  match xs with
  | [] => None
  | x :: xs =>
      match last_node xs id with
      | Some n => Some n
      | None => match x with
                | CNode _ _ _ id' n _ => if Nat.eqb id' id then Some n else None
                | _ => None
                end
      end
  end.

Fixpoint last_section (xs : list call) (id : nat) : option (nat * nat) :=
  match xs with
  | [] => None
  | x :: xs =>
      match last_section xs id with
      | Some n => Some n
      | None => match x with
                | CSection id' config builder => if Nat.eqb id' id then Some (config, builder) else None
                | _ => None
                end
      end
  end.
