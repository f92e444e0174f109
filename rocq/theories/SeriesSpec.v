(** What is claimed of a series. Session [j] (from 0) is the provider given to [request] or to the [j]-th [then]; its request
    is at entity [j] and its response goes to entity [j + 1]. *)
From Verif Require Import Base SeriesModel.

(** The number of sessions. *)
Fixpoint thens (calls : list call) : nat :=
  match calls with [] => 0 | Then :: c => S (thens c) | Detach :: c => thens c end.
Definition sessions (calls : list call) : nat := S (thens calls).

(** [detach] was called after [j] sessions. *)
Fixpoint detached_after (here : nat) (calls : list call) (j : nat) : bool :=
  match calls with
  | [] => false
  | Then :: c => detached_after (S here) c j
  | Detach :: c => Nat.eqb here j || detached_after here c j
  end.
Definition detached (calls : list call) (j : nat) : bool := detached_after 1 calls j.

(** The number of sessions before the last [detach]. *)
Fixpoint last_true (f : nat -> bool) (n : nat) : nat :=
  match n with 0 => 0 | S m => if f n then n else last_true f m end.
Definition locked (calls : list call) : nat := last_true (detached calls) (sessions calls).

Section Spec.
  Context {V : Type}.
  (** The requests and responses of the sessions. *)
  Definition work (l : list (event V)) : list (event V) :=
    filter (fun e => match e with ERan _ _ | EResponded _ _ => true | _ => false end) l.
  (** What comes out of the series. *)
  Definition outcomes (l : list (event V)) : list (event V) :=
    filter (fun e => match e with ERan _ _ | EResponded _ _ | EUnused _ => false | _ => true end) l.
  (** The sessions which ran. *)
  Definition ran (l : list (event V)) : list nat :=
    flat_map (fun e => match e with ERan j _ => [j] | _ => [] end) l.

  (** Sessions from [j] on which responded [rs], when the first got [v]. *)
  Fixpoint said (j : nat) (v : V) (rs : list V) : list (event V) :=
    match rs with [] => [] | r :: rs' => ERan j v :: EResponded j (Some r) :: said (S j) r rs' end.
  (** What the next session gets. *)
  Definition latest (v : V) (rs : list V) : V := last rs v.

  (** Nothing is left to do. *)
  Definition quiet (s : sstate V) : Prop :=
    s_later s = [] /\ s_queue s = [] /\ s_cancel s = [] /\ s_despawn s = [] /\ s_running s = [].
  (** Nothing of the series is left. *)
  Definition gone (s : sstate V) : Prop := forall e, s_cells s e = None.
  (** No session failed. *)
  Definition no_failure (l : list (event V)) : Prop := forall j, ~ In (EResponded j None) l.
End Spec.
