(** What a reader of the trace relies on. *)
From Verif Require Import Base RosterModel BufferModel InputModel InputSpec OpsModel TraceModel.

(** A path of parents, from the root down *)
Fixpoint descends (parent : emap entity) (l : list entity) : Prop :=
  match l with
  | a :: (b :: _) as l' => parent b = Some a /\ descends parent l'
  | _ => True
  end.

(** The stack of a session: it begins with a root, each is the parent of the next, and it ends
    with the session itself. *)
Definition is_stack (parent : emap entity) (s : entity) (l : list entity) : Prop :=
  exists root, hd_error l = Some root /\ parent root = None /\ descends parent l /\ exists l', l = l' ++ [s].

(** All messages that operations took, in order *)
Fixpoint all_taken (outs : list (iout val)) : list (entity * (entity * val)) :=
  match outs with
  | [] => []
  | Executed n (Took i) :: r => (n, i) :: all_taken r
  | _ :: r => all_taken r
  end.

(** The action does not touch the tracing of the operation. *)
Definition leaves (n : entity) (a : taction) : Prop :=
  match a with TAttach m _ _ _ _ | TToggle m _ => m <> n | _ => True end.

(** An event about this message, as the settings ask for it *)
Definition tells (t : trace) (n s : entity) (v : val) (e : event) : Prop :=
  e_op e = n /\ e_info e = t_info t /\ (exists l, e_stack e = l ++ [s]) /\
  e_message e = match t_toggle t, t_ser t with Messages, Some f => match f v with inl j => Some j | inr _ => None end | _, _ => None end.

(** The events about one operation *)
Definition about (n : entity) (l : list event) : list event := filter (fun e => Nat.eqb (e_op e) n) l.

(** The actions without tracing *)
Definition untraced (a : taction) : bool := match a with TIn _ => true | _ => false end.
Definition traffic (acts : list taction) : list (iop val) := flat_map (fun a => match a with TIn o => [o] | _ => [] end) acts.
Definition traffic_outs (acts : list taction) (outs : list (iout val)) : list (iout val) :=
  flat_map (fun p => if untraced (fst p) then [snd p] else []) (combine acts outs).

(** No serializer of a trace fails. *)
Definition serializes (a : taction) : Prop :=
  match a with TAttach _ _ _ _ (Some f) => forall v, exists j, f v = inl j | _ => True end.

(** No trace is set to include messages. *)
Definition modest (a : taction) : Prop :=
  match a with
  | TAttach _ d s _ _ => match s with Some t => t | None => d end <> Messages
  | TToggle _ t => t <> Messages
  | _ => True
  end.

(** The operation is traced. *)
Definition traced_on (x : tworld) (n : entity) : bool :=
  match t_trace x n with Some t => match t_toggle t with Off => false | _ => true end | None => false end.
