(** More about what is built from a diagram: every part has one role, belongs to
    one operation and is in one scope (C59, C63, C65). *)
From Verif Require Import Base DiagramModel DiagramSpec DiagramSpec2 DiagramProofs DiagramProofs2 DiagramProofs3 DiagramProofs4
  DiagramProofs5 DiagramProofs6 DiagramProofs7 DiagramProofs8 DiagramProofs9 DiagramProofs10 DiagramProofs11 DiagramProofs12
  DiagramProofs13 DiagramProps.

(** Every entity of the workflow has one role: it is an input of one operation,
    or one of the outputs of one operation, or one end of one scope or stream, or
    one end of a conversion.  The request of the workflow is none of these. *)
Theorem C59_parts_have_one_role g d q p ss log :
  builds g d q p ss log ->
  (forall i x y, role_of log i x -> role_of log i y -> x = y) /\
  exists o, In (LPut (named [] (d_start d)) o) log /\ o_ty o = q /\ o_scope o = 0 /\ forall x, ~ role_of log (o_id o) x.
Proof.
  intros H. pose proof (builds_final _ _ _ _ _ _ H) as F. pose proof (builds_final2 _ _ _ _ _ _ H) as F2. split.
  - intros i x y. apply (final_role _ _ _ _ _ _ F2 F).
  - apply (final_request _ _ _ _ _ _ F2 F).
Qed.
Print Assumptions C59_parts_have_one_role.

(** Every reference has one input (the cancel operation has three), and every
    input belongs to one reference. *)
Theorem C59_targets_have_one_input g d q p ss log r r' s s' :
  builds g d q p ss log -> In (LSlot r s) log -> In (LSlot r' s') log ->
  (r = r' -> s = s' \/ r = RCancel []) /\ (s_id s = s_id s' -> r = r') /\ slot_of log p ss r s.
Proof.
  intros H A B. pose proof (builds_final _ _ _ _ _ _ H) as F. pose proof (builds_final2 _ _ _ _ _ _ H) as F2.
  split; [|split; [|exact (final_entries _ _ _ _ _ _ F _ A)]].
  - intros ->. eapply (final_slot _ _ _ _ _ _ F2 F); eauto.
  - eapply (final_owner _ _ _ _ _ _ F2 F); eauto.
Qed.
Print Assumptions C59_targets_have_one_input.

(** Every connection leads to the input of a reference, which is the one input
    this reference has, and it comes from what has this reference as its target
    (or is the second half of a conversion). *)
Theorem C59_connections_have_their_target g d q p ss log o s :
  builds g d q p ss log -> In (LConnect o s) log ->
  exists r s0, In (LSlot r s0) log /\ slot_of log p ss r s0 /\ (forall s1, In (LSlot r s1) log -> s1 = s0 \/ r = RCancel []) /\
    ((s = s0 /\ exists k i er, In (LConv k i o er) log) \/
     ((exists r0, (accounted_for d log q r0 o \/ born d log r0 o) /\ leadsto d r0 r) /\
      (s = s0 \/ exists k out er, In (LConv k s out er) log /\ In (LConnect out s0) log))).
Proof.
  intros H X. pose proof (builds_final _ _ _ _ _ _ H) as F. pose proof (builds_final2 _ _ _ _ _ _ H) as F2.
  destruct (final_link2 _ _ _ _ _ _ F2 F o s X) as (r & s0 & A & B & C). exists r, s0. split; [exact A|]. split; [exact B|].
  split; [intros s1 Y; eapply (final_slot _ _ _ _ _ _ F2 F); eauto|].
  destruct C as [(-> & k & i & er & C & _)|(C1 & _ & C2)]; [left; eauto|right]. split; [exact C1|].
  destruct C2 as [C2|(k & out & er & C2 & C3 & _)]; [auto|right; eauto].
Qed.
Print Assumptions C59_connections_have_their_target.

(** ** C63: sections and scopes are closed *)

(** As [C63_sections_are_closed], where the connection leads to the one input
    which was made for its target. *)
Theorem C63_connections_keep_sections_closed g d q p ss log o s :
  builds g d q p ss log -> In (LConnect o s) log -> (forall k i er, ~ In (LConv k i o er) log) ->
  exists r0 r s0,
    (accounted_for d log q r0 o \/ born d log r0 o) /\
    In (LSlot r s0) log /\ (forall r1, In (LSlot r1 s0) log -> r1 = r) /\ (forall s1, In (LSlot r s1) log -> s1 = s0 \/ r = RCancel []) /\
    (s = s0 \/ exists k out er, In (LConv k s out er) log /\ In (LConnect out s0) log) /\ leadsto d r0 r /\
    (forall N, within N r -> within N r0 \/ enters d N r0 r) /\
    (forall N, within N r0 -> within N r \/ leaves d N r0 r).
Proof.
  intros H X Nc. destruct (C59_connections_have_their_target _ _ _ _ _ _ _ _ H X) as (r & s0 & A & Sl & B & [(_ & k & i & er & C)|((r0 & C & L) & D)]);
    [destruct (Nc _ _ _ C)|].
  exists r0, r, s0. split; [exact C|]. split; [exact A|]. split; [intros r1 Y; exact (proj1 (proj2 (C59_targets_have_one_input _ _ _ _ _ _ _ _ _ _ H Y A)) eq_refl)|].
  split; [exact B|]. split; [exact D|]. split; [exact L|]. split.
  - intros N W. destruct (within_dec N r0) as [Y|Y]; [auto|]. right. apply leadsto_enters; auto.
  - intros N W. destruct (within_dec N r) as [Y|Y]; [auto|]. right. apply leadsto_leaves; auto.
    intros ->. inversion Sl.
Qed.
Print Assumptions C63_connections_keep_sections_closed.

(** ** C65: connections stay inside of one scope *)

(** Everything which has the same namespaces is built in the same scope, an
    operation is built in the scope of its namespaces, and so are its inputs. *)
Theorem C65_scopes_are_well_defined g d q p ss log :
  builds g d q p ss log ->
  (forall ns sc sc', placed log ns sc -> placed log ns sc' -> sc = sc') /\
  (forall u ins bufs outs, In (LBuilt u ins bufs outs) log ->
     placed log (u_ns u) (u_scope u) /\
     (forall x s, In (x, s) ins -> s_scope s = u_scope u) /\ (forall t o, In (t, o) outs -> o_scope o = u_scope u)) /\
  (forall r s, In (LSlot r s) log -> lies log r (s_scope s)) /\
  (forall r r' sc, leadsto d r r' -> r' <> RDispose -> lies log r sc -> lies log r' sc).
Proof.
  intros H. pose proof (builds_final _ _ _ _ _ _ H) as F. pose proof (builds_final2 _ _ _ _ _ _ H) as F2.
  split; [|split; [|split]].
  - intros ns sc sc'. apply (final_placed _ _ _ _ _ _ F2 F).
  - intros u ins bufs outs X. split; [eapply (final_built_placed _ _ _ _ _ _ F2 F); eauto|].
    exact (ad_scope _ _ _ _ _ _ _ (final_entries _ _ _ _ _ _ F _ X)).
  - destruct F2 as (c & <- & _ & I & _). apply (i_slots _ _ _ _ _ I).
  - intros r r' sc. apply (leadsto_lies _ _ _ _ _ _ F2 F).
Qed.
Print Assumptions C65_scopes_are_well_defined.

(** A connection stays inside of one scope, unless it starts from the error of a
    conversion or of a transform inside of namespaces, or belongs to a conversion
    in front of the terminate or of a stream of a scope. *)
Theorem C65_connections_stay_in_a_scope_partial g d q p ss log o s :
  builds g d q p ss log -> In (LConnect o s) log ->
  o_scope o = s_scope s \/ stray log o \/
  (exists r s0 k i out er, way_out d r /\ In (LSlot r s0) log /\ In (LConv k i out er) log /\ In (LConnect out s0) log /\
     (s = i \/ (o = out /\ s = s0))).
Proof.
  intros H X. pose proof (builds_final _ _ _ _ _ _ H) as F. pose proof (builds_final2 _ _ _ _ _ _ H) as F2.
  destruct (final_link2 _ _ _ _ _ _ F2 F o s X) as (r & s0 & A & _ & [(-> & k & i & er & C & [D|D])|(_ & C1 & C2)]); [auto| |].
  - right; right. exists r, s0, k, i, o, er. auto 8.
  - destruct C1 as [C1|C1]; [auto|]. destruct C2 as [->|(k & out & er & C2 & C3 & [C4|C4])]; [auto|left; congruence|].
    right; right. exists r, s0, k, s, out, er. auto 8.
Qed.
Print Assumptions C65_connections_stay_in_a_scope_partial.

(** Without conversions, and without transforms inside of namespaces, all
    connections stay inside of one scope. *)
Theorem C65_connections_stay_in_a_scope_unconverted g d q p ss log o s :
  builds g d q p ss log -> In (LConnect o s) log ->
  (forall k i out er, ~ In (LConv k i out er) log) ->
  (forall ns id next er, occurs d ns id (OTransform next er) -> ns = []) ->
  o_scope o = s_scope s.
Proof.
  intros H X Nc Nt. destruct (C65_connections_stay_in_a_scope_partial _ _ _ _ _ _ _ _ H X) as [Y|[[(k & i & ok & Y)|(u & ins & bufs & outs & next & er & Y & E & N & _)]|(r & s0 & k & i & out & er & _ & _ & Y & _)]].
  - exact Y.
  - destruct (Nc _ _ _ _ Y).
  - destruct N. apply (Nt _ (u_id u) next er). rewrite <- E. apply (ad_occurs _ _ _ _ _ _ _ (proj2 (C58_operations_are_built _ _ _ _ _ _ H) _ _ _ _ Y)).
  - destruct (Nc _ _ _ _ Y).
Qed.
Print Assumptions C65_connections_stay_in_a_scope_unconverted.

(** A scope inside of a section inside of a scope, without conversions *)
Definition ex_deep : diagram := ex_diagram
  [(11, OScope (NSpace 12 20) [(12, OSection (PTemplate 30) [(22, ex_terminate)])] [] ex_terminate)]
  [(30, ex_template [(20, NName 20)] [22] [] [(20, OScope (NName 40) [(40, ONode 0 ex_terminate [])] [] (NName 22))])]
  (NName 11) None.

Definition is_conv (e : entry) : bool := match e with LConv _ _ _ _ => true | _ => false end.

Example C65_case : builds ex_registry ex_deep 4 4 [] (ex_log ex_deep 4 4 []) /\
  existsb is_conv (ex_log ex_deep 4 4 []) = false /\
  placed (ex_log ex_deep 4 4 []) [11; 12] 6 /\ placed (ex_log ex_deep 4 4 []) [11] 6 /\ placed (ex_log ex_deep 4 4 []) [11; 12; 20] 10 /\
  lies (ex_log ex_deep 4 4 []) (RNamed [11; 12] None 22) 6 /\
  In (LConnect (an_output 8 4 6) (a_slot 10 4 6)) (ex_log ex_deep 4 4 []).
Proof.
  split; [apply ex_builds; vm_compute; reflexivity|]. split; [vm_compute; reflexivity|].
  assert (A : placed (ex_log ex_deep 4 4 []) [11; 12] 6).
  { apply (placed_section _ (an_op 12 [11] (OSection (PTemplate 30) [(22, ex_terminate)]) 6) [] [] [] (PTemplate 30) [(22, ex_terminate)]);
      [in_log 11|reflexivity]. }
  split; [exact A|]. split; [|split; [|split; [exists [11; 12]; split; [reflexivity|exact A]|in_log 19]]].
  - eapply (placed_scope _ (an_op 11 [] _ 0) 6); in_log 5.
  - eapply (placed_scope _ (an_op 20 [11; 12] _ 6) 10); in_log 14.
Qed.

(** Some roles of the parts of this workflow *)
Example C59_roles_case : role_of (ex_log ex_deep 4 4 []) 10 (IsInput (RNamed [11; 12] None 20)) /\
  role_of (ex_log ex_deep 4 4 []) 12 (IsBegin [11; 12] 20) /\ role_of (ex_log ex_deep 4 4 []) 11 (IsEnd [11; 12] 20) /\
  role_of (ex_log ex_deep 4 4 []) 15 (IsOutput [11; 12; 20] 40 0) /\
  In (LSlot (RNamed [11; 12] None 20) (a_slot 10 4 6)) (ex_log ex_deep 4 4 []) /\
  In (LSlot (RTerminate [11; 12; 20]) (a_slot 13 4 10)) (ex_log ex_deep 4 4 []).
Proof.
  split; [|split; [|split; [|split; [|split]]]]; [| | | |in_log 18|in_log 27].
  - exists (LSlot (RNamed [11; 12] None 20) (a_slot 10 4 6)). split; [in_log 18|left; reflexivity].
  - eexists (LScope (an_op 20 [11; 12] _ 6) 10 12 13 11). split; [in_log 14|right; right; left; reflexivity].
  - eexists (LScope (an_op 20 [11; 12] _ 6) 10 12 13 11). split; [in_log 14|right; right; right; left; reflexivity].
  - exists (LBuilt (an_op 40 [11; 12; 20] (ONode 0 ex_terminate []) 10) [(None, a_slot 14 4 10)] [] [(Some ex_terminate, an_output 15 4 10)]).
    split; [in_log 22|left; reflexivity].
Qed.
