(** What is expected of layouts of buffers, hints and joined JSON values. *)
From Coq Require Import String.
From Verif Require Import Base RosterModel BufferModel GateModel JoinModel LayoutModel.

(** A buffer can be used as this kind of buffer. *)
Definition fits (r : regs) (b : abuf) (k : bkind) : Prop :=
  match k with
  | KAny => True
  | KBuf t => ab_ty b = t
  | KFetch t => ab_ty b = t /\ (ab_join b = Clone -> r_clone r t = true)
  | KClone t => ab_ty b = t /\ r_clone r t = true
  | KJson => r_json r (ab_ty b) = true
  end.

(** The buffers a layout needs from the map, with the kind for each, in order. *)
Definition wanted (L : layout) (m : bmap) : list (ident * bkind) :=
  match L with
  | LStruct fields => map (fun p => (Name (fst p), snd p)) fields
  | LOne k => [(Index 0, k)]
  | LVec k => map (fun i => (Index i, k)) (seq 0 (length m))
  | LJsonNames =>
      flat_map (fun p => match fst p with Name n => [(Name n, KJson)] | Index _ => [] end) m
  | LJsonAll => map (fun p => (fst p, KJson)) m
  | LMap => map (fun p => (fst p, KAny)) m
  end.

(** Identifiers in a map are distinct. *)
Definition good_map {A} (m : list (ident * A)) : Prop := NoDup (map fst m).

(** A layout asks for an identifier as a kind of buffer, whatever the map is. *)
Definition asks (L : layout) (i : ident) (k : bkind) : Prop :=
  match L with
  | LStruct fields => exists n, i = Name n /\ In (n, k) fields
  | LOne k' => i = Index 0 /\ k = k'
  | LVec k' => (exists n, i = Index n) /\ k = k'
  | LJsonNames => (exists n, i = Name n) /\ k = KJson
  | LJsonAll => k = KJson
  | LMap => k = KAny
  end.

(** The fields of a struct are distinct. *)
Definition good_layout (L : layout) : Prop :=
  match L with LStruct fields => NoDup (map fst fields) | _ => True end.

(** A buffer has the type which a hint says. *)
Definition follows (b : abuf) (h : hint) : Prop :=
  match h with Exact t | Fallback t => ab_ty b = t end.

(** What the join does with a buffer: what was asked for, unless the layout only knows
    cloning. *)
Definition effective (k : bkind) (b : abuf) : fetch :=
  match k with KClone _ => Clone | _ => ab_join b end.

(** A reference with a static type has the right message type and join behaviour. *)
Definition good_ref (b : bref) : Prop :=
  match br_kind b with
  | KBuf t => br_ty b = t /\ br_join b = Pull
  | KFetch t => br_ty b = t
  | KClone t => br_ty b = t /\ br_join b = Clone
  | _ => True
  end.

(** The conversion says itself what a join will do. *)
Definition sets_join (c : conv) : bool :=
  match c with
  | CvCloning | CvPulling | CvForMessage _ | CvDowncast (KBuf _) | CvDowncast (KClone _) => true
  | _ => false
  end.

(** Messages stored in a buffer for a session, oldest first. *)
Definition held {V} (bufs : emap (bufnode V)) (b s : entity) : list V :=
  match bufs b with Some n => iter (bn_store n) s | None => [] end.

(** What is expected to be taken from a buffer: a message for a pull is the oldest; JSON
    is the serialised message. Which message is cloned: see C69. *)
Definition expected {V} (ser : nat -> V -> option json) (k : bkind) (b : abuf) (l : list V)
  : option (got V) :=
  match k with
  | KJson =>
      match (match ab_join b with Pull => hd_error l | Clone => last_opt l end) with
      | Some v => option_map GJson (ser (ab_ty b) v)
      | None => None
      end
  | _ => option_map GVal (hd_error l)
  end.

(** Looking into JSON values. *)
Fixpoint obj_find (o : list (string * json)) (n : string) : option json :=
  match o with
  | [] => None
  | (m, j) :: o' => if String.eqb n m then Some j else obj_find o' n
  end.

Definition at_index (j : json) (i : nat) : option json :=
  match j with JArr l => nth_error l i | _ => None end.

Definition at_name (j : json) (n : string) : option json :=
  match j with JObj o => obj_find o n | _ => None end.

Definition mixed {A} (l : list (ident * A)) : Prop :=
  (exists n x, In (Name n, x) l) /\ (exists i x, In (Index i, x) l).

(** The place of a value in a joined JSON value. *)
Definition placed {A} (l : list (ident * A)) (j : json) (i : ident) : option json -> Prop :=
  fun o =>
  (mixed l /\
   match i with
   | Index k => exists a, at_name j "array" = Some a /\ at_index a k = o
   | Name n => exists b, at_name j "object" = Some b /\ at_name b n = o
   end) \/
  (~ mixed l /\ match i with Index k => at_index j k = o | Name n => at_name j n = o end).
