(** When an operation can still be triggered: the least relation closed under the rules
    below. Independent of any order of visiting. *)
From Verif Require Import Base ReachModel.

(** One of the own tests holds. *)
Definition works (tests : list (option bool)) : Prop := In (Some true) tests.

Definition listed (m : entity) (inputs : option (list entity)) : Prop :=
  exists l, inputs = Some l /\ In m l.

Inductive triggerable (g : emap rkind) : entity -> Prop :=
| T_work n tests inputs : g n = Some (KWork tests inputs) -> works tests -> triggerable g n
| T_work_in n tests inputs m : g n = Some (KWork tests inputs) -> listed m inputs ->
    triggerable g m -> triggerable g n
| T_service n tests wf inputs : g n = Some (KService tests wf inputs) -> works tests -> triggerable g n
| T_service_wf n tests sc inputs : g n = Some (KService tests (Some sc) inputs) ->
    triggerable g sc -> triggerable g n
| T_service_in n tests wf inputs m : g n = Some (KService tests wf inputs) -> listed m inputs ->
    triggerable g m -> triggerable g n
| T_scope n inner inputs : g n = Some (KScope (Some true) inner inputs) -> triggerable g n
| T_scope_inner n has inputs : g n = Some (KScope has (Some RYes) inputs) -> triggerable g n
| T_scope_in n has inner inputs m : g n = Some (KScope has inner inputs) -> listed m inputs ->
    triggerable g m -> triggerable g n
| T_join n inputs : g n = Some (KJoin inputs) ->
    (forall m c, In (m, c) inputs -> triggerable g m \/ exists k, c = Some (S k)) -> triggerable g n
| T_buffer_access n closed gates accessors has inputs m u :
    g n = Some (KBuffer closed gates accessors has inputs) -> In (m, u) accessors ->
    u = Some true \/ triggerable g m -> triggerable g n
| T_buffer_open n gates accessors has inputs :
    g n = Some (KBuffer false gates accessors has inputs) ->
    (has = Some true \/ exists m, listed m inputs /\ triggerable g m) -> triggerable g n
| T_buffer_gate n gates accessors has inputs gate :
    g n = Some (KBuffer true gates accessors has inputs) -> In (gate, true) gates ->
    triggerable g gate ->
    (has = Some true \/ exists m, listed m inputs /\ triggerable g m) -> triggerable g n
| T_collect n min held told inputs :
    g n = Some (KCollect (Some true) min held told inputs) -> triggerable g n
| T_collect_held n has min h inputs :
    g n = Some (KCollect has min (Some h) true inputs) -> min <= h -> triggerable g n
| T_collect_in n has min held told inputs m :
    g n = Some (KCollect has min held told inputs) -> listed m inputs ->
    triggerable g m -> triggerable g n.

(** The operations consulted directly by an operation. *)
Definition consults (g : emap rkind) (n m : entity) : Prop :=
  match g n with
  | Some (KWork _ inputs) => listed m inputs
  | Some (KService _ wf inputs) => wf = Some m \/ listed m inputs
  | Some (KScope _ _ inputs) => listed m inputs
  | Some (KJoin inputs) => In m (map fst inputs)
  | Some (KBuffer _ gates accessors _ inputs) =>
      In m (map fst gates) \/ In m (map fst accessors) \/ listed m inputs
  | Some (KCollect _ _ _ _ inputs) => listed m inputs
  | None => False
  end.

(** No own test of the operation fails with an error. *)
Definition sound_tests (k : rkind) : Prop :=
  match k with
  | KWork tests _ => ~ In None tests
  | KService tests _ _ => ~ In None tests
  | KScope has inner _ => has <> None /\ inner <> Some RBroken /\ inner <> Some RFuel
  | KJoin inputs => ~ In None (map snd inputs)
  | KBuffer _ _ accessors has _ => has <> None /\ ~ In None (map snd accessors)
  | KCollect has _ _ _ _ => has <> None
  end.

(** A graph without loose ends over a finite list of operations. *)
Definition well_formed (g : emap rkind) (nodes : list entity) : Prop :=
  (forall n, g n <> None <-> In n nodes) /\
  (forall n k, g n = Some k -> sound_tests k) /\
  (forall n m, consults g n m -> In m nodes).

(** Operations which need one of several things, never several: no join of several
    buffers, no buffer with a closed gate. *)
Definition one_suffices (k : rkind) : Prop :=
  match k with
  | KJoin inputs => exists m c, inputs = [(m, c)]
  | KBuffer closed _ _ _ _ => closed = false
  | _ => True
  end.

(** No cycle: what is consulted has a smaller rank. *)
Definition ranked (g : emap rkind) (rank : entity -> nat) : Prop :=
  forall n m, consults g n m -> rank m < rank n.

(** The connections between operations. [plain]: those which are not named streams. *)
Inductive plain (w : entity -> outputs) (n m : entity) : Prop :=
| P_single : out_single (w n) = Some m -> plain w n m
| P_fork l : out_fork (w n) = Some l -> In m l -> plain w n m
| P_stream : In m (out_anonymous (w n)) -> plain w n m.

Definition connected (w : entity -> outputs) (n m : entity) : Prop :=
  plain w n m \/ In m (out_named (w n)).

(** A chain of any number of connections. *)
Inductive chain (step : entity -> entity -> Prop) : entity -> entity -> Prop :=
| C_here n : chain step n n
| C_step n m t : step n m -> chain step m t -> chain step n t.

(** An operation has one target or a list of targets, not both. *)
Definition one_storage (w : entity -> outputs) : Prop :=
  forall n, out_single (w n) = None \/ out_fork (w n) = None.

(** The connections stay within a finite list of operations. *)
Definition confined (w : entity -> outputs) (nodes : list entity) : Prop :=
  forall n m, In n nodes -> plain w n m -> In m nodes.

(** The number of connections of the listed operations. *)
Definition connections (w : entity -> outputs) (nodes : list entity) : nat :=
  list_sum (map (fun n => (match out_single (w n) with Some _ => 1 | None => 0 end)
                        + length (match out_fork (w n) with Some l => l | None => [] end)
                        + length (out_anonymous (w n))) nodes).
