(** What becomes of a request, read off the diagram: no slots, no connections and no
    construction, only operations, the targets written in them and types. *)
From Verif Require Import Base OpsModel ExecModel DiagramModel DiagramRunModel.

(** Diagrams of nodes without streams, forks, unzips, results and transforms; implicit errors go
    to a builtin target. *)
Definition plain (d : diagram) : Prop :=
  (forall id o, In (id, o) (d_ops d) ->
     match o with
     | ONode _ _ streams => streams = []
     | OFork nexts => nexts <> []
     | OUnzip _ | OResult _ _ | OTransform _ _ => True
     | _ => False
     end) /\
  (d_implicit d = None \/ exists b, d_implicit d = Some (NBuiltin b)).

Section Says.
Variable d : diagram.
Variable g : registry.
Variable m : meaning.
Variables q p : nat.              (* types of the request and of the response *)
Variable T : nat -> nat.          (* the type of the input of each operation *)

(** The operation can take messages of this type. *)
Definition suits (o : op) (ty : nat) : Prop :=
  match o with
  | ONode b _ _ => exists rsp have, r_node g b = Some (ty, rsp, have)
  | OFork _ => r_clone g ty = true
  | OUnzip nexts => exists tys, r_unzip g ty = Some tys /\ length tys = length nexts
  | OResult _ _ => exists a b, r_result g ty = Some (a, b)
  | OTransform _ _ => ty = TJson
  | _ => False
  end.

Definition where_ (t : option next_op) : next_op :=
  match t with
  | Some t => t
  | None => match d_implicit d with Some t => t | None => NBuiltin BCancel end
  end.

(** A message of type [ty] for something that takes [ty']: the same, or serialized, or
    deserialized; otherwise the diagram is not accepted. *)
Definition convert (ty ty' : nat) (w : val) : option (val + val) :=
  if ty =? ty' then Some (inl w)
  else if ty' =? TJson then Some (m_ser m ty w)
  else if ty =? TJson then Some (m_de m ty' w)
  else None.

(** The error of making a message readable for a cancellation, if there is one. Texts and JSON
    are readable, then whatever can be turned into a text, then what can be serialized; other
    messages cancel without being read. *)
Definition unreadable (ty : nat) (w : val) : option val :=
  if (ty =? TString) || (ty =? TJson) || r_string g ty then None
  else if r_ser g ty then match m_ser m ty w with inl _ => None | inr e => Some e end
  else None.

(** What a cancellation has to tell of a message of type [ty]: texts, JSON and the unit value as
    they are, otherwise the text of the message if it has one, else its serialization, else
    nothing *)
Definition shown (ty : nat) (w w' : val) : Prop :=
  (In ty [TUnit; TJson; TString] /\ w' = w) \/
  (r_string g ty = true /\ w' = m_text m ty w) \/
  (r_string g ty = false /\ ty <> TString /\ ty <> TJson /\ m_ser m ty w = inl w') \/
  (r_string g ty = false /\ r_ser g ty = false /\ ty <> TString /\ ty <> TJson /\ w' = VUnit).

(** What operation [o], called [id], sends for the message [w]: targets, types and messages *)
Definition sends (id : nat) (o : op) (w : val) : list (option next_op * nat * val) :=
  match o with
  | ONode b next _ => match r_node g b with Some (_, rsp, _) => [(Some next, rsp, m_node m b w)] | None => [] end
  | OFork nexts => map (fun t => (Some t, T id, w)) nexts
  | OUnzip nexts =>
      match w, r_unzip g (T id) with
      | VTuple vs, Some tys => if length vs =? length nexts then combine (combine (map Some nexts) tys) vs else []
      | _, _ => []
      end
  | OResult ok er =>
      match w, r_result g (T id) with
      | VOk x, Some (a, _) => [(Some ok, a, x)]
      | VErr x, Some (_, b) => [(Some er, b, x)]
      | _, _ => []
      end
  | OTransform next er =>
      match m_cel m id w with
      | inl x => [(Some next, TJson, x)]
      | inr x => [(er, TFailed, x)]
      end
  | _ => []
  end.

Inductive spot := Sent (t : option next_op) (ty : nat) | AtOp (id : nat) | AtTerminate | AtCancel.

(** What comes where for the request [v] *)
Inductive comes (v : val) : spot -> val -> Prop :=
| C_request : comes v (Sent (Some (d_start d)) q) v
| C_arrives t ty id w w' : comes v (Sent t ty) w -> where_ t = NName id -> convert ty (T id) w = Some (inl w') ->
    comes v (AtOp id) w'
| C_refused t ty id w e : comes v (Sent t ty) w -> where_ t = NName id -> convert ty (T id) w = Some (inr e) ->
    comes v (Sent None TString) e
| C_response t ty w w' : comes v (Sent t ty) w -> where_ t = NBuiltin BTerminate -> convert ty p w = Some (inl w') ->
    comes v AtTerminate w'
| C_no_response t ty w e : comes v (Sent t ty) w -> where_ t = NBuiltin BTerminate -> convert ty p w = Some (inr e) ->
    comes v (Sent None TString) e
| C_cancel t ty w : comes v (Sent t ty) w -> where_ t = NBuiltin BCancel -> unreadable ty w = None -> comes v AtCancel w
| C_no_cancel t ty w e : comes v (Sent t ty) w -> where_ t = NBuiltin BCancel -> unreadable ty w = Some e ->
    comes v (Sent None TString) e
| C_sends id o w t ty w' : comes v (AtOp id) w -> In (id, o) (d_ops d) -> In (t, ty, w') (sends id o w) ->
    comes v (Sent t ty) w'.

(** A message that the operation it comes to cannot deal with, as unzipping something else
    than a tuple of the right length does *)
Definition foreign (o : op) (w : val) : Prop :=
  match o with
  | OUnzip nexts => forall vs, w = VTuple vs -> length vs <> length nexts
  | OResult _ _ => (forall x, w <> VOk x) /\ (forall x, w <> VErr x)
  | _ => False
  end.
End Says.

(** The types of the inputs of the operations, as they were built *)
Definition input_types (log : list entry) (T : nat -> nat) : Prop :=
  forall u s bufs outs, In (LBuilt u [(None, s)] bufs outs) log -> T (u_id u) = s_ty s.

(** What is sent has somewhere to go and is of a type which can be taken there. *)
Definition settled (d : diagram) (m : meaning) (p : nat) (T : nat -> nat) (t : option next_op) (ty : nat) (w : val) : Prop :=
  match where_ d t with
  | NName id => In id (map fst (d_ops d)) /\ convert m ty (T id) w <> None
  | NBuiltin BTerminate => convert m ty p w <> None
  | NBuiltin _ => True
  | NSpace _ _ => False
  end.

(** The unit value can always be serialized, as serde_json does it. *)
Definition unit_total (m : meaning) : Prop := forall w, exists j, m_ser m TUnit w = inl j.

(** ** Diagrams that come to an end *)

(** The same as [comes], in single steps *)
Inductive step (d : diagram) (g : registry) (m : meaning) (p : nat) (T : nat -> nat) : spot * val -> spot * val -> Prop :=
| S_arrives t ty id w w' : where_ d t = NName id -> convert m ty (T id) w = Some (inl w') ->
    step d g m p T (Sent t ty, w) (AtOp id, w')
| S_refused t ty id w e : where_ d t = NName id -> convert m ty (T id) w = Some (inr e) ->
    step d g m p T (Sent t ty, w) (Sent None TString, e)
| S_response t ty w w' : where_ d t = NBuiltin BTerminate -> convert m ty p w = Some (inl w') ->
    step d g m p T (Sent t ty, w) (AtTerminate, w')
| S_no_response t ty w e : where_ d t = NBuiltin BTerminate -> convert m ty p w = Some (inr e) ->
    step d g m p T (Sent t ty, w) (Sent None TString, e)
| S_cancel t ty w : where_ d t = NBuiltin BCancel -> unreadable g m ty w = None ->
    step d g m p T (Sent t ty, w) (AtCancel, w)
| S_no_cancel t ty w e : where_ d t = NBuiltin BCancel -> unreadable g m ty w = Some e ->
    step d g m p T (Sent t ty, w) (Sent None TString, e)
| S_sends id o w t ty w' : In (id, o) (d_ops d) -> In (t, ty, w') (sends g m T id o w) ->
    step d g m p T (AtOp id, w) (Sent t ty, w').

(** There is no endless chain of steps from here. *)
Definition ending (d : diagram) (g : registry) (m : meaning) (p : nat) (T : nat -> nat) (x : spot * val) : Prop :=
  Acc (fun b a => step d g m p T a b) x.

(** The targets written in an operation *)
Definition written (o : op) (t : option next_op) : Prop :=
  match o with
  | ONode _ next _ => t = Some next
  | OFork nexts | OUnzip nexts => exists n, In n nexts /\ t = Some n
  | OResult a b => t = Some a \/ t = Some b
  | OTransform next er => t = Some next \/ t = er
  | _ => False
  end.

(** The operations can be numbered such that all targets have smaller numbers. *)
Definition acyclic (d : diagram) : Prop :=
  exists rank : nat -> nat, forall id o t id', In (id, o) (d_ops d) -> written o t -> where_ d t = NName id' -> rank id' < rank id.

(** Texts can be serialized, as serde_json does it. *)
Definition text_total (m : meaning) : Prop := forall w, exists j, m_ser m TString w = inl j.

(** ** The responses to a request *)

(** All that comes to the end of the workflow, in a list, if the steps come to an end, nothing
    comes to the cancel target and no operation gets a message that it cannot deal with *)
Inductive gives (d : diagram) (g : registry) (m : meaning) (p : nat) (T : nat -> nat) : spot * val -> list val -> Prop :=
| G_response w : gives d g m p T (AtTerminate, w) [w]
| G_disposed t ty w : where_ d t = NBuiltin BDispose -> gives d g m p T (Sent t ty, w) []
| G_goes_on t ty w x l : step d g m p T (Sent t ty, w) x -> gives d g m p T x l -> gives d g m p T (Sent t ty, w) l
| G_sends id o w l : In (id, o) (d_ops d) -> ~ foreign o w -> give_all d g m p T (sends g m T id o w) l ->
    gives d g m p T (AtOp id, w) l
with give_all (d : diagram) (g : registry) (m : meaning) (p : nat) (T : nat -> nat) : list (option next_op * nat * val) -> list val -> Prop :=
| G_nil : give_all d g m p T [] []
| G_cons t ty w ms l l' : gives d g m p T (Sent t ty, w) l -> give_all d g m p T ms l' -> give_all d g m p T ((t, ty, w) :: ms) (l ++ l').
