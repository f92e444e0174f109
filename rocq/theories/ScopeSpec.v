(** What the outcome of a session of a scope should be, as a function of what
    reached the scope.  Nothing here refers to how the scope works. *)
From Verif Require Import Base ScopeModel.

(** How the fate of a session can be decided. *)
Inductive fate (V : Type) := ByValue (v : V) | ByCancel (c : nat) | ByParent.
Arguments ByValue {V}. Arguments ByCancel {V}. Arguments ByParent {V}.

Section ScopeSpec.
  Context {V : Type}.
  Implicit Types (e : event V) (l : list (event V)).

  (** The events which decide the fate of session [s], started for session [p] of
      the parent: a value reaches the terminal, a cancellation of [s] or of [p]
      arrives, the terminal becomes unreachable, or the parent cleans up [p]. *)
  Definition decides (p s : entity) e : option (fate V) :=
    match e with
    | EValue s' v => if Nat.eqb s' s then Some (ByValue v) else None
    | ECancel t c => if (Nat.eqb t s || Nat.eqb t p)%bool then Some (ByCancel c) else None
    | EUnreach s' c => if Nat.eqb s' s then Some (ByCancel c) else None
    | ERequest cl => if Nat.eqb (cl_session cl) p then Some ByParent else None
    | _ => None
    end.

  Definition starts (s : entity) e : bool :=
    match e with EBegin _ s' => Nat.eqb s' s | _ => false end.

  (** The first deciding event. *)
  Fixpoint decided (p s : entity) l : option (fate V) :=
    match l with
    | [] => None
    | e :: l' => match decides p s e with Some f => Some f | None => decided p s l' end
    end.

  (** The first deciding event after the session was started. *)
  Fixpoint verdict (p s : entity) l : option (fate V) :=
    match l with
    | [] => None
    | e :: l' => if starts s e then decided p s l' else verdict p s l'
    end.

  (** The events by which session [s] ends with something the parent can see. *)
  Definition is_outcome (s : entity) e : bool :=
    match e with
    | EOut _ s' _ => Nat.eqb s' s
    | ECancelOut _ s' _ _ => Nat.eqb s' s
    | _ => false
    end.

  Definition outcomes (s : entity) l : nat := length (filter (is_outcome s) l).

  (** The outcome event agrees with what decided the session. *)
  Definition outcome_right l e : Prop :=
    match e with
    | EOut p s v => In (EBegin p s) l /\ verdict p s l = Some (ByValue v)
    | ECancelOut p s c _ => In (EBegin p s) l /\ verdict p s l = Some (ByCancel c)
    | _ => True
    end.

  (** Every node of the scope has reported for [s], every cleanup workflow which
      was started for [s] has ended. *)
  Definition is_clean (nodes : list entity) (s : entity) l : Prop :=
    (forall n, In n nodes -> exists id, In (ENode n s id) l) /\
    (forall f, In (EFlow s f) l -> In (EFlowEnd f) l).

  (** Outcomes are only released for clean sessions. *)
  Definition released_clean (nodes : list entity) l : Prop :=
    forall l1 e l2 s, l = l1 ++ e :: l2 -> is_outcome s e = true -> is_clean nodes s l1.

  (** Cleanups by the parent happen to interruptible scopes only. *)
  Definition allowed (g : config) (a : action V) : Prop :=
    match a with AClean _ _ => g_unint g = false | _ => True end.

  (** The environment never involves the parent of the scope: no cleanup by the
      parent, cancellations name sessions of the scope (entities from [base] on)
      or nothing. *)
  Definition inside (base : entity) (a : action V) : Prop :=
    match a with
    | ABegin p _ _ => p < base
    | ACancel (Some t) _ => base <= t
    | AClean _ _ => False
    | _ => True
    end.

  (** Nothing is left to do: no node has to report, no cleanup workflow runs, the
      roster has no entry for the scope. *)
  Definition quiet (w : sstate V) : Prop :=
    s_asked w = [] /\ s_flows w = [] /\ s_finished w = [] /\ s_cancels w = [].
End ScopeSpec.

(** The tracking of cleanup notifications alone. *)
Inductive note := NAdd (id : entity) (nodes : list entity) | NDone (id node : entity).

(** Apply the notifications; the second component lists the ids whose completion
    is reported, in order. *)
Fixpoint note_run (m : contents) (l : list note) : contents * list entity :=
  match l with
  | [] => (m, [])
  | NAdd id nodes :: l' => note_run (add_cleanup m id nodes) l'
  | NDone id node :: l' =>
      let '(m', done) := notify_contents m id node in
      let '(m'', r) := note_run m' l' in
      (m'', if done then id :: r else r)
  end.

(** How often [id] is reported. *)
Definition reported (id : entity) (r : list entity) : nat :=
  length (filter (Nat.eqb id) r).

(** [id] is not started again. *)
Definition not_added (id : entity) (l : list note) : Prop :=
  forall nodes, ~ In (NAdd id nodes) l.

(** Every node of the list has notified. *)
Definition all_done (id : entity) (nodes : list entity) (l : list note) : Prop :=
  forall n, In n nodes -> In (NDone id n) l.

Section ParentSpec.
  Context {V : Type}.
  Implicit Types (l : list (event V)).

  (** The parent asks at most once to clean up a session. *)
  Definition asks_once l : Prop :=
    forall l1 cl l2, l = l1 ++ ERequest cl :: l2 ->
    forall cl', In (ERequest cl') l1 -> cl_session cl' <> cl_session cl.

  (** Whenever the parent is told that the scope is clean for one of its sessions,
      the nodes of the scope have been cleaned for every session which the scope
      had started for it. *)
  Definition notified_clean l : Prop :=
    forall l1 cl l2, l = l1 ++ ENotify cl :: l2 ->
    forall s, In (EBegin (cl_session cl) s) l1 -> In (ECleaned s) l1.

  (** Something other than the parent's cleanup ends session [s]. *)
  Definition ended (s : entity) l : Prop :=
    (exists v, In (EValue s v) l) \/ (exists c, In (EUnreach s c) l) \/
    (exists t c, In (ECancel t c) l /\ (t = s \/ In (EBegin t s) l)).

  (** The nodes of the scope are cleaned only for sessions which ended. *)
  Definition cleaned_ended l : Prop :=
    forall l1 s id l2, l = l1 ++ EClean s id :: l2 -> ended s l1.

  (** The parent is told to be clean only about sessions which ended. *)
  Definition notified_ended l : Prop :=
    forall l1 cl l2, l = l1 ++ ENotify cl :: l2 ->
    forall s, In (EBegin (cl_session cl) s) l1 -> ended s l1.
End ParentSpec.
