(** Properties of building workflows from diagrams (C58-C65). *)
From Verif Require Import Base DiagramModel DiagramSpec DiagramProofs DiagramProofs2 DiagramProofs3 DiagramProofs4
  DiagramProofs5 DiagramProofs6 DiagramProofs7 DiagramProofs8.

(** ** Examples *)

(** Message types: 0 JSON, 1 string, 2 unit, 3 transform error, 4 a number
    (serializable both ways), 5 something opaque, 7 the access to a buffer, 8 a
    number, 9 a triple of numbers. *)
Definition ex_registry : registry := {|
  r_known := fun t => t <? 10; r_ser := fun t => (t =? 4) || (t =? 1) || (t =? 0);
  r_de := fun t => (t =? 4) || (t =? 1);
  r_clone := fun t => true; r_string := fun t => (t =? 4) || (t =? 3);
  r_node := fun b => match b with
                     | 0 => Some (4, 4, []) | 1 => Some (0, 0, []) | 2 => Some (5, 5, []) | 3 => Some (7, 4, [])
                     | 5 => Some (4, 9, []) | 6 => Some (3, 4, []) | 7 => Some (4, 4, [(50, 4)]) | _ => None end;
  r_section := fun b => match b with 0 => Some ([(60, 4)], [(61, 4)], [(62, 4)]) | _ => None end;
  r_unzip := fun t => if t =? 9 then Some [4; 4; 4] else None; r_result := fun t => None;
  r_split := fun _ _ _ _ => None;
  r_join := fun t m => (t =? 0) || (t =? 4);
  r_access := fun t m => if t =? 7 then Some 4 else None;
  r_access_hints := fun t ks => if t =? 7 then Some (map (fun _ => Some 4) ks) else None;
  r_listen := fun _ _ => false; r_listen_hints := fun _ _ => None |}.

Definition ex_terminate := NBuiltin BTerminate.
Definition ex_template i o b ops := {| t_inputs := i; t_outputs := o; t_buffers := b; t_ops := ops |}.
Definition ex_diagram ops tm start imp := {| d_templates := tm; d_start := start; d_implicit := imp; d_ops := ops |}.

Definition ex_log d q p ss : list entry :=
  match create_workflow ex_registry (fun _ l => l) 200 d q p ss with inl c => c_log c | inr _ => [] end.

Lemma ex_builds d q p ss :
  (match create_workflow ex_registry (fun _ l => l) 200 d q p ss with inl _ => true | inr _ => false end) = true ->
  builds ex_registry d q p ss (ex_log d q p ss).
Proof.
  intros H. unfold ex_log. destruct (create_workflow _ _ _ _ _ _ _) as [c|e] eqn:E; [|discriminate].
  exists (fun _ l => l), 200, c. split; [intros n l; apply Permutation_refl|]. auto.
Qed.

(** A section from a template with an exposed buffer, a scope with a stream, a
    section from a builder, a fork, buffers and a join *)
Definition ex_all : diagram := ex_diagram
  [(10, OSection (PTemplate 30) [(22, NName 11)]);
   (11, OScope (NName 20) [(20, ONode 7 (NName 21) [(50, NName 23)]); (21, ONode 0 ex_terminate []); (23, OStreamOut 51)]
               [(51, NName 12)] (NName 13));
   (12, OBuffer false); (13, OFork [NName 14; NSpace 16 60]); (14, OBuffer false);
   (15, OJoin ex_terminate [(0, NName 12); (1, NName 14); (2, NSpace 10 24)] true);
   (16, OSection (PBuilder 0) [(61, NBuiltin BDispose)])]
  [(30, ex_template [(20, NName 20)] [22] [(24, NName 24)] [(20, OFork [NName 22; NName 24]); (24, OBuffer false)])]
  (NSpace 10 20) None.

Example ex_all_builds : builds ex_registry ex_all 4 0 [] (ex_log ex_all 4 0 []).
Proof. apply ex_builds. vm_compute. reflexivity. Qed.

(** ** C58: everything in the diagram is built, and every output reaches the target the diagram names *)

(** Every operation of the diagram is built, with the inputs, the buffers and
    the outputs it has to have, including the operations in templates (for every
    section that uses the template) and in scopes; and nothing else is built. *)
Theorem C58_operations_are_built g d q p ss log :
  builds g d q p ss log ->
  (forall ns id o, occurs d ns id o ->
     exists u ins bufs outs, In (LBuilt u ins bufs outs) log /\ u_ns u = ns /\ u_id u = id /\ u_op u = o) /\
  (forall u ins bufs outs, In (LBuilt u ins bufs outs) log -> as_declared d g log u ins bufs outs).
Proof.
  intros H. apply builds_final in H. split.
  - intros ns id o X. destruct (final_built _ _ _ _ _ _ H ns id o X) as (u & ins & bufs & outs & A & B & C & D & _). eauto 10.
  - intros u ins bufs outs X. exact (final_entries _ _ _ _ _ _ H _ X).
Qed.
Print Assumptions C58_operations_are_built.

(** Every output of every operation is connected to the operation that the
    declared target stands for (following the connections of sections and of
    [stream_out]), unless it was passed on by such a connection and lost there. *)
Theorem C58_outputs_arrive_partial g d q p ss log u ins bufs outs t o :
  builds g d q p ss log -> In (LBuilt u ins bufs outs) log -> In (t, o) outs ->
  exists r, put_to d u t o r /\
    (delivered d log r o \/
     exists r1 r2, goes d r r1 /\ leadsto d r1 r2 /\ In (LLost r2 o) log /\ ~ outermost ss r2).
Proof.
  intros H B X. apply builds_final in H. pose proof (final_entries _ _ _ _ _ _ H _ B) as D. cbn in D.
  destruct (ad_put _ _ _ _ _ _ _ D t o X) as (r & A1 & A2). exists r. split; [exact A2|].
  destruct (final_put _ _ _ _ _ _ H r o A1) as [Y|(to & G & Y)]; [left; exists r; split; [constructor|exact Y]|].
  destruct (final_source _ _ _ _ _ _ H to o (or_intror Y)) as (r' & L & [Z|[Z1 Z2]]).
  - left. exists r'. split; [eapply leadsto_step; eauto|exact Z].
  - right. exists to, r'. auto.
Qed.
Print Assumptions C58_outputs_arrive_partial.

(** The request of the workflow reaches the start, in the same sense. *)
Theorem C58_request_arrives_partial g d q p ss log :
  builds g d q p ss log ->
  exists o, o_ty o = q /\ o_scope o = 0 /\
    (delivered d log (named [] (d_start d)) o \/
     exists r1 r2, goes d (named [] (d_start d)) r1 /\ leadsto d r1 r2 /\ In (LLost r2 o) log /\ ~ outermost ss r2).
Proof.
  intros H. apply builds_final in H.
  assert (St : started d q p log) by (destruct H as (c & <- & G & _); exact (gi_request _ _ _ _ _ _ _ G)).
  destruct St as (o & t & A1 & A2 & A3 & _). exists o. do 2 (split; [assumption|]).
  destruct (final_put _ _ _ _ _ _ H _ o A1) as [Y|(to & G & Y)]; [left; eexists; split; [constructor|exact Y]|].
  destruct (final_source _ _ _ _ _ _ H to o (or_intror Y)) as (r' & L & [Z|[Z1 Z2]]).
  - left. exists r'. split; [eapply leadsto_step; eauto|exact Z].
  - right. exists to, r'. auto.
Qed.
Print Assumptions C58_request_arrives_partial.

(** What enters a scope goes to the start of the scope, and what is given to its
    terminate leaves it towards the target of the scope. *)
Theorem C58_scopes_partial g d q p ss log ns id start ops streams next :
  builds g d q p ss log -> occurs d ns id (OScope start ops streams next) ->
  exists u en te ex s1 s2 o1 o2,
    In (LScope u (s_id s1) en te ex) log /\ u_ns u = ns /\ u_id u = id /\
    slot_of log p ss (RNamed ns None id) s1 /\ slot_of log p ss (RTerminate (ns ++ [id])) s2 /\ s_id s2 = te /\
    o_ty o1 = s_ty s1 /\ o_scope o1 = s_id s1 /\ o_id o1 = en /\ o_ty o2 = s_ty s2 /\ o_id o2 = ex /\ o_scope o2 = u_scope u /\
    (exists r, leadsto d (named (ns ++ [id]) start) r /\ (arrives log r o1 \/ (In (LLost r o1) log /\ ~ outermost ss r))) /\
    (exists r, leadsto d (named ns next) r /\ (arrives log r o2 \/ (In (LLost r o2) log /\ ~ outermost ss r))).
Proof.
  intros H X. apply builds_final in H. destruct (final_built _ _ _ _ _ _ H _ _ _ X) as (u & ins & bufs & outs & A & <- & <- & E & _).
  destruct (final_scope _ _ _ _ _ _ H _ _ _ _ _ _ _ _ A E) as
    (sc & en & te & ex & s1 & s2 & o1 & o2 & B1 & B2 & B3 & B4 & B5 & B6 & B7 & B8 & B9 & B10 & B11 & B12 & B13).
  exists u, en, te, ex, s1, s2, o1, o2. pose proof (final_entries _ _ _ _ _ _ H _ B3) as S1. pose proof (final_entries _ _ _ _ _ _ H _ B9) as S2.
  cbn in S1, S2. rewrite B2. do 12 (split; [auto|]).
  split; apply (final_source _ _ _ _ _ _ H); auto.
Qed.
Print Assumptions C58_scopes_partial.

(** In a diagram with one level only nothing is lost: the request, every output
    of every operation and every error of a conversion is connected to where it
    has to go. *)
Theorem C58_flat_outputs_arrive g d q p ss log :
  builds g d q p ss log -> flat d ss ->
  (exists o, o_ty o = q /\ o_scope o = 0 /\ delivered d log (named [] (d_start d)) o) /\
  (forall u ins bufs outs t o, In (LBuilt u ins bufs outs) log -> In (t, o) outs -> delivered d log (directed d [] t) o) /\
  (forall k i out er, In (LConv k i out (Some er)) log -> delivered d log (directed d [] None) er).
Proof.
  intros H Fl.
  assert (NL : forall r r1 r2 o, namespaces r = Some [] \/ r = RDispose -> goes d r r1 -> leadsto d r1 r2 -> In (LLost r2 o) log -> outermost ss r2).
  { intros r r1 r2 o Nr G L _. destruct (flat_goes _ _ Fl _ _ G) as [(id & ->)|(id & n & ty & -> & -> & Y)].
    - destruct Nr as [X|X]; discriminate.
    - apply leadsto_stuck in L; [|apply goes_stream]. subst. econstructor; eauto. }
  assert (Dn : forall t, namespaces (directed d [] t) = Some [] \/ directed d [] t = RDispose).
  { assert (N : forall t, namespaces (named [] t) = Some [] \/ named [] t = RDispose) by (intros t; destruct (named_spaces [] t); auto).
    intros [t|]; cbn [directed]; [apply N|]. destruct (d_implicit d); [apply N|left; reflexivity]. }
  split; [|split].
  - destruct (C58_request_arrives_partial _ _ _ _ _ _ H) as (o & A & B & [C|(r1 & r2 & C1 & C2 & C3 & C4)]); [eauto|exfalso].
    apply C4. refine (NL _ r1 r2 o _ C1 C2 C3). exact (Dn (Some (d_start d))).
  - intros u ins bufs outs t o A B. destruct (C58_outputs_arrive_partial _ _ _ _ _ _ _ _ _ _ _ _ H A B) as (r & P & C).
    pose proof (proj2 (C58_operations_are_built _ _ _ _ _ _ H) _ _ _ _ A) as D.
    destruct (flat_occurs _ _ Fl _ _ _ (ad_occurs _ _ _ _ _ _ _ D)) as [E _].
    assert (r = directed d [] t).
    { unfold put_to in P. rewrite E in P. destruct (u_op u); try exact P. destruct (o_ty o =? TFailed); [|exact P].
      rewrite P. destruct (directed d [] t); reflexivity. }
    subst r. destruct C as [C|(r1 & r2 & C1 & C2 & C3 & C4)]; [exact C|exfalso].
    apply C4. exact (NL _ r1 r2 o (Dn t) C1 C2 C3).
  - intros k i out er A. apply builds_final in H. pose proof (final_entries _ _ _ _ _ _ H _ A) as X. cbn [entry_ok] in X.
    destruct (flat_implicit _ _ Fl) as [Y1 Y2].
    destruct (final_source _ _ _ _ _ _ H _ _ (or_intror X)) as (r' & L & Z).
    pose proof (leadsto_stuck _ _ _ Y2 L) as ->. exists (directed d [] None). split; [constructor|].
    destruct Z as [Z|[_ Z]]; [exact Z|destruct (Z Y1)].
Qed.
Print Assumptions C58_flat_outputs_arrive.

(** A flat diagram with conversions in both directions, a stream of the workflow,
    a buffer and a join *)
Definition ex_flat : diagram := ex_diagram
  [(10, ONode 1 (NName 11) []); (11, ONode 7 (NName 12) [(50, NName 15)]); (12, OFork [NName 13; NName 14]); (13, OBuffer false);
   (14, OBuffer true); (15, OStreamOut 5); (16, OJoin ex_terminate [(0, NName 13); (1, NName 14)] true)] [] (NName 10) None.

Example C58_flat_case :
  builds ex_registry ex_flat 4 0 [(5, 4)] (ex_log ex_flat 4 0 [(5, 4)]) /\ flat ex_flat [(5, 4)] /\
  exists i out er, In (LConv CDeserialize i out (Some er)) (ex_log ex_flat 4 0 [(5, 4)]).
Proof.
  split; [apply ex_builds; vm_compute; reflexivity|]. split.
  - split; [|left; reflexivity]. intros id o H. cbn in H.
    repeat (destruct H as [H|H]; [injection H as <- <-; cbn; eauto|]). destruct H.
  - do 3 eexists. vm_compute. repeat (first [left; reflexivity|right]).
Qed.

(** What a name stands for is unambiguous. *)
Theorem C58_targets_are_unambiguous g d q p ss log r r1 r2 :
  builds g d q p ss log -> leadsto d r r1 -> leadsto d r r2 -> leadsto d r1 r2 \/ leadsto d r2 r1.
Proof. intros H. apply builds_final in H. eapply final_unambiguous; eauto. Qed.
Print Assumptions C58_targets_are_unambiguous.

(** The input slots which an output was connected to *)
Definition connected_to (log : list entry) (i : nat) : list nat :=
  flat_map (fun e => match e with LConnect o s => if o_id o =? i then [s_id s] else [] | _ => [] end) log.

Lemma connected_to_In log o s : In (LConnect o s) log -> In (s_id s) (connected_to log (o_id o)).
Proof. intros H. apply in_flat_map. exists (LConnect o s). split; [exact H|]. rewrite Nat.eqb_refl. left. reflexivity. Qed.

Definition an_output i ty sc := {| o_id := i; o_ty := ty; o_scope := sc |}.
Definition a_slot i ty sc := {| s_id := i; s_ty := ty; s_scope := sc |}.
Definition an_op i ns o sc := {| u_id := i; u_ns := ns; u_op := o; u_scope := sc |}.

Ltac in_log n := apply (nth_error_In _ n); vm_compute; reflexivity.

(** Not in general: here an output of a section, connected to a buffer outside,
    is never connected to anything, because another output waits for the same
    buffer. *)
Definition ex_lost : diagram := ex_diagram
  [(10, OBuffer false); (11, OUnzip [NName 10; NSpace 13 20; ex_terminate]); (12, ONode 5 (NName 11) []);
   (13, OSection (PTemplate 30) [(22, NName 10)])]
  [(30, ex_template [(20, NName 20)] [22] [] [(20, ONode 0 (NName 22) [])])] (NName 12) None.

Theorem C58_outputs_arrive_refuted :
  exists g d q p ss log u ins bufs outs t o r s,
    builds g d q p ss log /\ In (LBuilt u ins bufs outs) log /\ In (t, o) outs /\
    leadsto d (directed d (u_ns u) t) r /\ slot_of log p ss r s /\ o_ty o = s_ty s /\
    forall s', ~ In (LConnect o s') log.
Proof.
  exists ex_registry, ex_lost, 4, 4, [], (ex_log ex_lost 4 4 []).
  exists (an_op 20 [13] (ONode 0 (NName 22) []) 0), [(None, a_slot 12 4 0)], [], [(Some (NName 22), an_output 13 4 0)].
  exists (Some (NName 22)), (an_output 13 4 0), (RNamed [] None 10), (a_slot 14 4 0).
  split; [apply ex_builds; vm_compute; reflexivity|]. split; [in_log 18|]. split; [left; reflexivity|]. split.
  - eapply leadsto_step; [|constructor]. exists [], 13, (OSection (PTemplate 30) [(22, NName 10)]).
    split; [apply occurs_top; cbn; auto|].
    eapply (alias_output ex_lost [] 13 30 _ _ 22 (NName 10)); [reflexivity|cbn; auto|reflexivity].
  - split; [|split; [reflexivity|]].
    + apply (slot_own _ _ _ (an_op 10 [] (OBuffer false) 0) [(None, a_slot 14 4 0)] [] []); [in_log 31|left; reflexivity].
    + intros s' H. apply connected_to_In in H. vm_compute in H. exact H.
Qed.
Print Assumptions C58_outputs_arrive_refuted.

(** Nor does the error of a transform inside of a section go where the diagram says. *)
Definition ex_twice : diagram := ex_diagram
  [(40, OSection (PTemplate 31) [])]
  [(31, ex_template [(20, NName 20)] [] []
          [(20, OTransform ex_terminate (Some (NName 21))); (21, ONode 6 (NBuiltin BDispose) []); (40, OSection (PTemplate 32) [])]);
   (32, ex_template [] [] [] [(21, ONode 6 (NBuiltin BDispose) [])])] (NSpace 40 20) None.

Theorem C58_transform_error_refuted :
  exists g d q p ss log u ins bufs outs t o u' ins' bufs' outs' s',
    builds g d q p ss log /\ In (LBuilt u ins bufs outs) log /\ In (Some (NName t), o) outs /\
    In (LBuilt u' ins' bufs' outs') log /\ u_ns u' = u_ns u /\ u_id u' = t /\ In (None, s') ins' /\
    o_ty o = s_ty s' /\ (exists s, In (LConnect o s) log) /\ forall s, In (LConnect o s) log -> s_id s <> s_id s'.
Proof.
  exists ex_registry, ex_twice, 0, 0, [], (ex_log ex_twice 0 0 []).
  exists (an_op 20 [40] (OTransform ex_terminate (Some (NName 21))) 0), [(None, a_slot 7 0 0)], [],
         [(Some ex_terminate, an_output 8 0 0); (Some (NName 21), an_output 6 3 0)], 21, (an_output 6 3 0).
  exists (an_op 21 [40] (ONode 6 (NBuiltin BDispose) []) 0), [(None, a_slot 9 3 0)], [], [(Some (NBuiltin BDispose), an_output 10 4 0)], (a_slot 9 3 0).
  split; [apply ex_builds; vm_compute; reflexivity|]. split; [in_log 11|]. split; [right; left; reflexivity|].
  split; [in_log 14|]. do 2 (split; [reflexivity|]). split; [left; reflexivity|]. split; [reflexivity|].
  split; [exists (a_slot 11 3 0); in_log 27|].
  intros s H. apply connected_to_In in H.
  replace (connected_to (ex_log ex_twice 0 0 []) (o_id (an_output 6 3 0))) with [11] in H by (vm_compute; reflexivity).
  destruct H as [<-|[]]. discriminate.
Qed.
Print Assumptions C58_transform_error_refuted.

(** ** C59: connections fit *)

(** Every connection joins an output with an input of the same message type, and
    every conversion is one which the registry allows for these types. *)
Theorem C59_connections_are_typed g d q p ss log :
  builds g d q p ss log ->
  (forall o s, In (LConnect o s) log -> o_ty o = s_ty s) /\
  (forall k i out er, In (LConv k i out er) log -> allowed g k i out er).
Proof.
  intros H. apply builds_final in H. split.
  - intros o s X. eapply (final_link _ _ _ _ _ _ H); eauto.
  - intros k i out er X. eapply (final_conv _ _ _ _ _ _ H); eauto.
Qed.
Print Assumptions C59_connections_are_typed.

(** Nothing is connected which the diagram does not ask for: what is connected is
    the request, an output of an operation, the inner or outer end of a scope or
    the error of a conversion, and the input belongs to what its target stands
    for (directly or behind one conversion); or it is the result of a conversion. *)
Theorem C59_every_connection_is_asked_for g d q p ss log o s :
  builds g d q p ss log -> In (LConnect o s) log ->
  exists r s0, slot_of log p ss r s0 /\
    ((s = s0 /\ exists k i er, In (LConv k i o er) log) \/
     ((exists r0, (accounted_for d log q r0 o \/ born d log r0 o) /\ leadsto d r0 r) /\
      (s = s0 \/ exists k out er, In (LConv k s out er) log /\ In (LConnect out s0) log))).
Proof. intros H X. apply builds_final in H. eapply (final_link _ _ _ _ _ _ H); eauto. Qed.
Print Assumptions C59_every_connection_is_asked_for.

(** Every operation gets the message types which the registry has for it, and
    the buffers which it selects. *)
Theorem C59_operations_have_their_types g d q p ss log u ins bufs outs :
  builds g d q p ss log -> In (LBuilt u ins bufs outs) log ->
  shaped d g (u_op u) ins bufs outs /\ map fst outs = declares g (u_op u) /\
  Forall2 (fun x y => fst x = fst y /\ exists r, leadsto d (named (u_ns u) (snd x)) r /\ buffer_of g log r (snd y))
          (selects (u_op u)) bufs.
Proof.
  intros H X. pose proof (proj2 (C58_operations_are_built _ _ _ _ _ _ H) _ _ _ _ X) as D.
  split; [exact (ad_shape _ _ _ _ _ _ _ D)|]. split; [exact (ad_targets _ _ _ _ _ _ _ D)|exact (ad_buffers _ _ _ _ _ _ _ D)].
Qed.
Print Assumptions C59_operations_have_their_types.

Example C59_case : builds ex_registry ex_flat 4 0 [(5, 4)] (ex_log ex_flat 4 0 [(5, 4)]) /\
  In (LConv CSerialize (a_slot 24 4 0) (an_output 25 0 0) (Some (an_output 26 1 0))) (ex_log ex_flat 4 0 [(5, 4)]) /\
  In (LConv CDeserialize (a_slot 21 0 0) (an_output 22 4 0) (Some (an_output 23 1 0))) (ex_log ex_flat 4 0 [(5, 4)]).
Proof. split; [apply ex_builds; vm_compute; reflexivity|]. split; [in_log 41|in_log 30]. Qed.

(** ** C60: a construction which cannot go on says why *)

(** If building stops because nothing can be done any more, then there are
    unfinished operations and the error names all of them; everything which is
    not built is among them or inside of one of them; and everything the error
    names is an operation of the diagram. *)
Theorem C60_halted_names_the_unfinished g d q p ss ord max rs :
  orders ord -> create_workflow g ord max d q p ss = inr (EBuildHalted rs) ->
  (forall r, In r rs -> exists ns id o, occurs d ns id o /\ r = RNamed ns None id) /\
  exists todo log, halted d g q p ss rs todo log /\ todo <> [] /\
    (forall u, In u todo -> In (RNamed (u_ns u) None (u_id u)) rs /\ occurs d (u_ns u) (u_id u) (u_op u)) /\
    (forall ns id o, occurs d ns id o ->
       (exists u ins bufs outs, In (LBuilt u ins bufs outs) log /\ u_ns u = ns /\ u_id u = id /\ u_op u = o) \/
       (exists v rest, In v todo /\ ns ++ [id] = (u_ns v ++ [u_id v]) ++ rest)).
Proof.
  intros Ho H. destruct (create_halted _ _ _ _ _ _ _ _ Ho H) as (todo & log & X).
  pose proof X as X0.
  destruct X as (ord' & max' & c0 & l1 & t1 & s1 & c1 & c2 & l2 & Ho' & I & R & N & Rd & E).
  pose proof (init_ok d g q p ss c0 I) as G0.
  pose proof (rounds_ok d g q p ss ord' Ho' _ _ _ _ _ _ _ _ R G0) as G1.
  destruct (round_ok d g q p ss ord' Ho' _ _ _ _ _ _ _ _ _ G1 Rd) as (G2 & _ & Sn).
  split.
  - eapply round_seen; [exact G1| |exact Rd]. eapply rounds_seen; [exact Ho'|exact R|exact G0|]. intros r [].
  - exists todo, log. split; [exact X0|]. split; [exact (round_nonempty d g q p ss ord' Ho' _ _ _ _ _ _ _ _ G1 N Rd)|]. split.
    + intros u U. split; [exact (Sn eq_refl u U)|exact (gi_todo _ _ _ _ _ _ _ G2 u U)].
    + intros ns id o O. rewrite <- E. eapply ginv_accounts; eauto.
Qed.
Print Assumptions C60_halted_names_the_unfinished.

(** But the error also names operations which were finished later. *)
Definition ex_halts : diagram := ex_diagram
  [(11, OUnzip [ex_terminate; NBuiltin BDispose; NBuiltin BDispose]); (12, ONode 5 (NName 11) []); (13, OBuffer false)] []
  (NName 12) None.

Theorem C60_halted_names_only_unfinished_refuted :
  exists g d q p ss rs todo log u ins bufs outs,
    create_workflow g (fun _ l => l) 200 d q p ss = inr (EBuildHalted rs) /\ halted d g q p ss rs todo log /\
    In (LBuilt u ins bufs outs) log /\ In (RNamed (u_ns u) None (u_id u)) rs /\ ~ In u todo.
Proof.
  exists ex_registry, ex_halts, 4, 4, [], [RNamed [] None 11; RNamed [] None 13; RNamed [] None 13; RNamed [] None 13].
  exists [an_op 13 [] (OBuffer false) 0]. eexists.
  exists (an_op 11 [] (OUnzip [ex_terminate; NBuiltin BDispose; NBuiltin BDispose]) 0), [(None, a_slot 8 9 0)], [].
  exists [(Some ex_terminate, an_output 9 4 0); (Some (NBuiltin BDispose), an_output 10 4 0); (Some (NBuiltin BDispose), an_output 11 4 0)].
  split; [vm_compute; reflexivity|]. split.
  - exists (fun _ l => l), 200. do 7 eexists. split; [intros n l; apply Permutation_refl|].
    split; [vm_compute; reflexivity|]. split.
    + eapply rounds_step; [vm_compute; reflexivity|]. eapply rounds_step; [vm_compute; reflexivity|]. constructor.
    + split; [vm_compute; reflexivity|]. split; [vm_compute; reflexivity|]. vm_compute. reflexivity.
  - split; [|split].
    + cbv beta. repeat (first [left; reflexivity|right]).
    + left. reflexivity.
    + intros [X|[]]. discriminate.
Qed.
Print Assumptions C60_halted_names_only_unfinished_refuted.

(** ** C61: the order in which a diagram lists its operations *)

(** Two diagrams which list the same operations in different orders, and which
    both can be built, have the same operations with the same targets, and the
    names in them stand for the same. *)
Theorem C61_order_keeps_the_operations_partial g d d' q p ss log log' :
  same_contents d d' -> builds g d q p ss log -> builds g d' q p ss log' ->
  (forall u ins bufs outs, In (LBuilt u ins bufs outs) log ->
     exists u' ins' bufs' outs', In (LBuilt u' ins' bufs' outs') log' /\
       u_ns u' = u_ns u /\ u_id u' = u_id u /\ u_op u' = u_op u /\ map fst outs' = map fst outs /\ map fst bufs' = map fst bufs) /\
  (forall r r', leadsto d r r' <-> leadsto d' r r') /\ (forall ns t, directed d ns t = directed d' ns t).
Proof.
  intros S H H'. split; [|split].
  - intros u ins bufs outs X. pose proof (proj2 (C58_operations_are_built _ _ _ _ _ _ H) _ _ _ _ X) as D.
    pose proof (same_occurs _ _ _ _ _ S (ad_occurs _ _ _ _ _ _ _ D)) as O.
    destruct (proj1 (C58_operations_are_built _ _ _ _ _ _ H') _ _ _ O) as (u' & ins' & bufs' & outs' & X' & E1 & E2 & E3).
    pose proof (proj2 (C58_operations_are_built _ _ _ _ _ _ H') _ _ _ _ X') as D'.
    exists u', ins', bufs', outs'. do 4 (split; [assumption|]). split.
    + rewrite (ad_targets _ _ _ _ _ _ _ D), (ad_targets _ _ _ _ _ _ _ D'), E3. reflexivity.
    + pose proof (ad_buffers _ _ _ _ _ _ _ D) as B. pose proof (ad_buffers _ _ _ _ _ _ _ D') as B'. rewrite E3 in B'.
      assert (K : forall (P : nat * next_op -> nat * slot -> Prop) l m, Forall2 (fun x y => fst x = fst y /\ P x y) l m -> map fst m = map fst l).
      { intros P l m F. induction F as [|x y l m [E _] _ IH]; cbn; congruence. }
      rewrite (K _ _ _ B), (K _ _ _ B'). reflexivity.
  - intros r r'. split; apply same_leadsto; [exact S|apply same_sym; exact S].
  - intros ns t. destruct S as (_ & _ & _ & E). destruct t; [reflexivity|]. cbn. rewrite E. reflexivity.
Qed.
Print Assumptions C61_order_keeps_the_operations_partial.

(** The message types may differ: a buffer which gets a number and a JSON value
    gets the type of the one which is listed first. *)
Definition ex_types (a b : nat * op) : diagram :=
  ex_diagram [a; b; (13, OBuffer false); (10, OFork [NName 11; NName 12; ex_terminate])] [] (NName 10) None.
Definition ex_json := (11, ONode 1 (NName 13) []).
Definition ex_number := (12, ONode 0 (NName 13) []).

Theorem C61_order_keeps_the_types_refuted :
  exists g d d' q p ss log log' u s u' s',
    same_contents d d' /\ builds g d q p ss log /\ builds g d' q p ss log' /\
    In (LBuilt u [(None, s)] [] []) log /\ In (LBuilt u' [(None, s')] [] []) log' /\
    u_ns u = u_ns u' /\ u_id u = u_id u' /\ u_op u = u_op u' /\ s_ty s <> s_ty s'.
Proof.
  exists ex_registry, (ex_types ex_json ex_number), (ex_types ex_number ex_json), 4, 4, [].
  exists (ex_log (ex_types ex_json ex_number) 4 4 []), (ex_log (ex_types ex_number ex_json) 4 4 []).
  exists (an_op 13 [] (OBuffer false) 0), (a_slot 10 0 0), (an_op 13 [] (OBuffer false) 0), (a_slot 10 4 0).
  split; [repeat split; apply perm_swap|].
  do 2 (split; [apply ex_builds; vm_compute; reflexivity|]).
  split; [apply (nth_error_In _ 12); vm_compute; reflexivity|].
  split; [apply (nth_error_In _ 12); vm_compute; reflexivity|].
  cbn. repeat split; discriminate.
Qed.
Print Assumptions C61_order_keeps_the_types_refuted.

(** One order can be built and another one cannot. *)
Definition ex_access (a b c : nat * op) : diagram := ex_diagram [a; b; c] [] (NName 11) None.
Definition ex_buffer := (10, OBuffer false).
Definition ex_accesses := (11, OAccess (NName 12) [(0, NName 10)]).
Definition ex_accessed := (12, ONode 3 ex_terminate []).

Theorem C61_order_keeps_buildable_refuted :
  exists g d d' q p ss log rs,
    same_contents d d' /\ builds g d q p ss log /\ create_workflow g (fun _ l => l) 200 d' q p ss = inr (EBuildHalted rs).
Proof.
  exists ex_registry, (ex_access ex_accessed ex_accesses ex_buffer), (ex_access ex_buffer ex_accesses ex_accessed), 4, 4, [].
  exists (ex_log (ex_access ex_accessed ex_accesses ex_buffer) 4 4 []). eexists.
  split; [|split; [apply ex_builds; vm_compute; reflexivity|vm_compute; reflexivity]].
  repeat split. cbn. apply (Permutation_rev [ex_accessed; ex_accesses; ex_buffer]).
Qed.
Print Assumptions C61_order_keeps_buildable_refuted.

Example C61_case : same_contents (ex_types ex_json ex_number) (ex_types ex_number ex_json) /\
  builds ex_registry (ex_types ex_json ex_number) 4 4 [] (ex_log (ex_types ex_json ex_number) 4 4 []) /\
  builds ex_registry (ex_types ex_number ex_json) 4 4 [] (ex_log (ex_types ex_number ex_json) 4 4 []).
Proof. split; [repeat split; apply perm_swap|]. split; apply ex_builds; vm_compute; reflexivity. Qed.

(** ** C62: templates which contain themselves *)

(** The check accepts exactly the diagrams in which every template used by a
    section exists and none is reached from itself through sections that stand
    directly in templates. *)
Theorem C62_template_check_is_exact d :
  validate_templates d = inl tt <-> forall t, used d t -> find t (d_templates d) <> None /\ ~ uses_some d t t.
Proof.
  split; [intros H t; apply validate_ok; exact H|]. intros H.
  destruct (validate_templates d) as [[]|e] eqn:E; [reflexivity|].
  destruct (validate_err d e E) as (t & U & [X|X]); destruct (H t U) as [A B]; [destruct (A X)|destruct (B X)].
Qed.
Print Assumptions C62_template_check_is_exact.

(** However a template contains itself, a diagram which uses it is never built. *)
Theorem C62_circular_never_builds g d q p ss log ns s t cn rest s' cn' :
  unique d -> occurs d ns s (OSection (PTemplate t) cn) ->
  occurs d ((ns ++ [s]) ++ rest) s' (OSection (PTemplate t) cn') -> ~ builds g d q p ss log.
Proof.
  intros Un A B H. apply builds_final in H. destruct (final_finite _ _ _ _ _ _ H) as (n & L).
  destruct (occurs_forever _ _ _ _ _ _ _ _ Un A B (S n)) as (ns1 & s1 & cn1 & L1 & C). specialize (L _ _ _ C). lia.
Qed.
Print Assumptions C62_circular_never_builds.

(** But the check does not look into scopes: it accepts this template, which
    contains itself. *)
Definition ex_inner := (21, OSection (PTemplate 30) []).
Definition ex_scope := OScope (NSpace 21 20) [ex_inner] [] ex_terminate.
Definition ex_circular : diagram := ex_diagram
  [(10, OSection (PTemplate 30) [])] [(30, ex_template [(20, NName 20)] [] [] [(20, ex_scope)])] (NSpace 10 20) None.

Lemma ex_circular_ops ns id o : occurs ex_circular ns id o -> o = OSection (PTemplate 30) [] \/ (id = 20 /\ o = ex_scope).
Proof.
  induction 1 as [id o X|ns s t T cn id o _ IH F X|ns s st ops strs nx id o _ IH X].
  - destruct X as [[= <- <-]|[]]. auto.
  - destruct IH as [[= -> ->]|[_ IH]]; [|discriminate]. cbn in F. injection F as <-. destruct X as [[= <- <-]|[]]. auto.
  - destruct IH as [IH|[_ IH]]; [discriminate|]. unfold ex_scope in IH. injection IH as _ -> _ _. destruct X as [[= <- <-]|[]]. auto.
Qed.

Lemma ex_circular_unique : unique ex_circular.
Proof.
  apply unique_names.
  - repeat constructor. intros [].
  - intros t T F. cbn in F. destruct (t =? 30); [|discriminate]. injection F as <-. cbn. repeat constructor. intros [].
  - intros ns s st ops strs nx H. destruct (ex_circular_ops _ _ _ H) as [E|[_ E]]; [discriminate|].
    unfold ex_scope in E. injection E as _ -> _ _. cbn. repeat constructor. intros [].
Qed.

Lemma ex_circular_inside : occurs ex_circular [] 10 (OSection (PTemplate 30) []) /\
  occurs ex_circular (([] ++ [10]) ++ [20]) 21 (OSection (PTemplate 30) []).
Proof.
  assert (A : occurs ex_circular [] 10 (OSection (PTemplate 30) [])) by (apply occurs_top; left; reflexivity).
  split; [exact A|]. refine (occurs_scope _ _ 20 (NSpace 21 20) [ex_inner] [] ex_terminate _ _ _ _); [|left; reflexivity].
  eapply occurs_template; [exact A|reflexivity|left; reflexivity].
Qed.

Theorem C62_check_finds_every_circle_refuted :
  exists d ns s t cn rest s' cn',
    validate_templates d = inl tt /\ unique d /\ occurs d ns s (OSection (PTemplate t) cn) /\
    occurs d ((ns ++ [s]) ++ rest) s' (OSection (PTemplate t) cn') /\
    forall g q p ss log, ~ builds g d q p ss log.
Proof.
  exists ex_circular, [], 10, 30, [], [20], 21, []. destruct ex_circular_inside as [A B].
  split; [vm_compute; reflexivity|]. split; [exact ex_circular_unique|]. split; [exact A|]. split; [exact B|].
  intros g q p ss log. eapply C62_circular_never_builds; [exact ex_circular_unique|exact A|exact B].
Qed.
Print Assumptions C62_check_finds_every_circle_refuted.

(** A used template with a used template in it, and a circle *)
Example C62_case :
  validate_templates ex_all = inl tt /\ used ex_all 30 /\
  exists e, validate_templates (ex_diagram [(10, OSection (PTemplate 30) [])]
              [(30, ex_template [] [] [] [(20, OSection (PTemplate 31) [])]); (31, ex_template [] [] [] [(20, OSection (PTemplate 30) [])])]
              ex_terminate None) = inr e.
Proof.
  split; [vm_compute; reflexivity|]. split; [left; exists 10, [(22, NName 11)]; left; reflexivity|].
  eexists. vm_compute. reflexivity.
Qed.

(** ** C63: sections and scopes are closed *)

(** What belongs to a section (or scope) [N] is reached from outside of it only
    through the inputs and buffers which its template exposes, and from inside of
    it nothing outside is reached except through its outputs and its terminate. *)
Theorem C63_sections_are_closed g d q p ss log o s :
  builds g d q p ss log -> In (LConnect o s) log -> (forall k i er, ~ In (LConv k i o er) log) ->
  exists r0 r s0,
    (accounted_for d log q r0 o \/ born d log r0 o) /\ slot_of log p ss r s0 /\
    (s = s0 \/ exists k out er, In (LConv k s out er) log /\ In (LConnect out s0) log) /\ leadsto d r0 r /\
    (forall N, within N r -> within N r0 \/ enters d N r0 r) /\
    (forall N, within N r0 -> within N r \/ leaves d N r0 r).
Proof.
  intros H X Nc. apply builds_final in H. destruct (final_link _ _ _ _ _ _ H _ _ X) as (_ & r & s0 & A & [(_ & k & i & er & B)|((r0 & B & L) & C)]);
    [destruct (Nc _ _ _ B)|].
  exists r0, r, s0. do 4 (split; [assumption|]). split.
  - intros N W. destruct (within_dec N r0) as [Y|Y]; [auto|]. right. apply leadsto_enters; auto.
  - intros N W. destruct (within_dec N r) as [Y|Y]; [auto|]. right. apply leadsto_leaves; auto.
    intros ->. inversion A.
Qed.
Print Assumptions C63_sections_are_closed.

(** A scope is not entered and not left through names at all. *)
Theorem C63_scopes_are_closed d ns s start ops streams next r0 r :
  unique d -> occurs d ns s (OScope start ops streams next) -> leadsto d r0 r -> r <> RDispose ->
  (within (ns ++ [s]) r0 <-> within (ns ++ [s]) r).
Proof.
  intros Un Os L Nd. split; intros W.
  - destruct (within_dec (ns ++ [s]) r) as [Y|Y]; [exact Y|exfalso].
    destruct (leadsto_leaves _ _ _ _ L W Y Nd) as (ns' & s' & pr & cn & E & O & _). apply app_inj_tail in E as [<- <-].
    discriminate (Un _ _ _ _ Os O).
  - destruct (within_dec (ns ++ [s]) r0) as [Y|Y]; [exact Y|exfalso].
    destruct (leadsto_enters _ _ _ _ L Y W) as (ns' & s' & t & T & cn & x & y & E & O & _). apply app_inj_tail in E as [<- <-].
    discriminate (Un _ _ _ _ Os O).
Qed.
Print Assumptions C63_scopes_are_closed.

(** The section of [ex_all] is entered through its input and left through its output. *)
Example C63_case : enters ex_all [10] (RNamed [] (Some 10) 20) (RNamed [10] None 20) /\
  leaves ex_all [10] (RNamed [10] None 22) (RNamed [] None 11) /\
  occurs ex_all [] 11 (OScope (NName 20) [(20, ONode 7 (NName 21) [(50, NName 23)]); (21, ONode 0 ex_terminate []); (23, OStreamOut 51)]
               [(51, NName 12)] (NName 13)).
Proof.
  assert (A : occurs ex_all [] 10 (OSection (PTemplate 30) [(22, NName 11)])) by (apply occurs_top; left; reflexivity).
  split; [|split].
  - exists [], 10, 30, (ex_template [(20, NName 20)] [22] [(24, NName 24)] [(20, OFork [NName 22; NName 24]); (24, OBuffer false)]),
      [(22, NName 11)], 20, (NName 20).
    split; [reflexivity|]. split; [exact A|]. split; [reflexivity|]. split; [left; reflexivity|]. split; constructor.
  - exists [], 10, (PTemplate 30), [(22, NName 11)]. split; [reflexivity|]. split; [exact A|]. left.
    exists 30, (ex_template [(20, NName 20)] [22] [(24, NName 24)] [(20, OFork [NName 22; NName 24]); (24, OBuffer false)]), 22, (NName 11).
    split; [reflexivity|]. split; [reflexivity|]. split; [left; reflexivity|]. split; [reflexivity|]. split; constructor.
  - apply occurs_top. right. left. reflexivity.
Qed.

(** ** C64: the built-in targets inside of sections and scopes *)

(** Terminate inside of a section stands for terminate outside of it: an output
    directed to it goes where terminate outside of the section leads to; for a
    section at the top it is the response of the workflow. *)
Theorem C64_terminate_in_a_section_partial g d q p ss log ns s t cn u ins bufs outs o :
  unique d -> builds g d q p ss log -> occurs d ns s (OSection (PTemplate t) cn) ->
  In (LBuilt u ins bufs outs) log -> u_ns u = ns ++ [s] -> In (Some (NBuiltin BTerminate), o) outs -> o_ty o <> TFailed ->
  (ns = [] -> arrives log (RTerminate []) o) /\
  exists r, leadsto d (RTerminate ns) r /\ (arrives log r o \/ (In (LLost r o) log /\ ~ outermost ss r)).
Proof.
  intros Un H O B En X Nf. pose proof (proj2 (C58_operations_are_built _ _ _ _ _ _ H) _ _ _ _ B) as D.
  destruct (ad_put _ _ _ _ _ _ _ D _ _ X) as (r & A1 & A2).
  assert (r = RTerminate (ns ++ [s])).
  { unfold put_to in A2. rewrite En in A2. destruct (u_op u); try exact A2.
    destruct (Nat.eqb_spec (o_ty o) TFailed); [congruence|exact A2]. }
  subst r. apply builds_final in H.
  assert (P : In (LPass (RTerminate ns) o) log).
  { destruct (final_put _ _ _ _ _ _ H _ _ A1) as [Y|(to & G & Y)].
    - exfalso. destruct (final_arrives_slot _ _ _ _ _ _ H _ _ Y) as [Z|(sl & Z)]; [discriminate|].
      inversion Z as [| | |u' sc en te ex s' C1 C2 C3 C4| |s' C1 C2 C3| |]; subst.
      + apply app_inj_tail in C4 as [C4 C5].
        pose proof (final_entries _ _ _ _ _ _ H _ C1) as (O' & _ & st & ops & strs & nx & E). rewrite C4, C5, E in O'.
        discriminate (Un _ _ _ _ O O').
      + destruct ns; discriminate.
    - assert (G' : goes d (RTerminate (ns ++ [s])) (RTerminate ns)) by (exists ns, s, (OSection (PTemplate t) cn); split; [exact O|constructor]).
      rewrite (final_goes _ _ _ _ _ _ H _ _ _ G' G). exact Y. }
  pose proof (final_source _ _ _ _ _ _ H _ _ (or_intror P)) as K. split; [|exact K].
  intros ->. destruct K as (r & L & K). apply leadsto_stuck in L.
  - subst r. destruct K as [K|[_ K]]; [exact K|destruct K; constructor].
  - intros x (ns' & id & o' & _ & A). inversion A as [| | | |p' cn' E1 E2|]. destruct ns'; discriminate.
Qed.
Print Assumptions C64_terminate_in_a_section_partial.

(** Cancel cannot be used inside of a section or scope: a diagram with an
    operation there which has cancel as a target is never built. *)
Theorem C64_cancel_is_only_outside g d q p ss log ns id o :
  builds g d q p ss log -> occurs d ns id o -> In (Some (NBuiltin BCancel)) (declares g o) -> ns = [].
Proof. intros H. apply builds_final in H. eapply no_inner_cancel; eauto. Qed.
Print Assumptions C64_cancel_is_only_outside.

(** Nor can a transform without a target for its errors, if the diagram has no
    target for implicit errors. *)
Theorem C64_transform_needs_an_error_target_inside g d q p ss log ns id next :
  builds g d q p ss log -> d_implicit d = None -> occurs d ns id (OTransform next None) -> ns = [].
Proof. intros H. apply builds_final in H. eapply no_inner_transform; eauto. Qed.
Print Assumptions C64_transform_needs_an_error_target_inside.

(** Nor can a stream_out inside of a section, if anything is directed to it. *)
Theorem C64_stream_out_is_not_in_a_section g d q p ss log ns s t cn sid n id o :
  unique d -> builds g d q p ss log -> occurs d ns s (OSection (PTemplate t) cn) ->
  occurs d (ns ++ [s]) sid (OStreamOut n) -> occurs d (ns ++ [s]) id o ->
  (forall next er, o <> OTransform next er) -> ~ In (Some (NName sid)) (declares g o).
Proof.
  intros Un H Os On Oo Nt T. apply builds_final in H.
  destruct (declared_output _ _ _ _ _ _ H _ _ _ _ Oo T) as (u & ins & bufs & outs & out & A & B1 & B2 & B3 & X & r & Y & P).
  apply (no_section_stream _ _ _ _ _ _ H _ _ _ _ _ _ Un Os On out).
  assert (r = RNamed (ns ++ [s]) None sid).
  { unfold put_to in P. rewrite B3, B1 in P. destruct o; try exact P. destruct (Nt next on_error eq_refl). }
  subst r. exact Y.
Qed.
Print Assumptions C64_stream_out_is_not_in_a_section.

(** So the built-in targets do not mean the same everywhere: the same operation
    with the same target cancel can be built outside of a section but never
    inside of one, where any other target is fine. *)
Definition ex_space (t : next_op) : diagram := ex_diagram
  [(10, OSection (PTemplate 30) [])]
  [(30, ex_template [(20, NName 20)] [] [] [(20, OFork [NName 21; ex_terminate]); (21, ONode 0 t [])])] (NSpace 10 20) None.

Theorem C64_builtins_work_everywhere_refuted :
  (forall g q p ss log, r_node g 0 <> None -> ~ builds g (ex_space (NBuiltin BCancel)) q p ss log) /\
  (exists log, builds ex_registry (ex_space (NBuiltin BDispose)) 4 4 [] log) /\
  (exists log, builds ex_registry (ex_diagram [(20, OFork [NName 21; ex_terminate]); (21, ONode 0 (NBuiltin BCancel) [])] [] (NName 20) None) 4 4 [] log).
Proof.
  split; [|split].
  - intros g q p ss log _ H.
    assert (A : occurs (ex_space (NBuiltin BCancel)) ([] ++ [10]) 21 (ONode 0 (NBuiltin BCancel) [])).
    { eapply occurs_template; [apply occurs_top; left; reflexivity|reflexivity|right; left; reflexivity]. }
    discriminate (C64_cancel_is_only_outside _ _ _ _ _ _ _ _ _ H A (or_introl eq_refl)).
  - eexists. apply ex_builds. vm_compute. reflexivity.
  - eexists. apply ex_builds. vm_compute. reflexivity.
Qed.
Print Assumptions C64_builtins_work_everywhere_refuted.

Lemma ex_space_unique t : unique (ex_space t).
Proof.
  assert (K : forall ns id o, occurs (ex_space t) ns id o ->
    o = OSection (PTemplate 30) [] \/ o = OFork [NName 21; ex_terminate] \/ o = ONode 0 t []).
  { induction 1 as [id o X|ns s k T cn id o _ IH F X|ns s st ops strs nx id o _ IH X].
    - destruct X as [[= <- <-]|[]]. auto.
    - destruct IH as [[= -> ->]|[IH|IH]]; try discriminate. cbn in F. injection F as <-.
      destruct X as [[= <- <-]|[[= <- <-]|[]]]; auto.
    - destruct IH as [IH|[IH|IH]]; discriminate. }
  apply unique_names.
  - repeat constructor. intros [].
  - intros k T F. cbn in F. destruct (k =? 30); [|discriminate]. injection F as <-. cbn.
    repeat constructor; cbn; intuition discriminate.
  - intros ns s st ops strs nx H. destruct (K _ _ _ H) as [E|[E|E]]; discriminate.
Qed.

Example C64_case : exists log u ins bufs outs o,
  unique (ex_space (NBuiltin BDispose)) /\ builds ex_registry (ex_space (NBuiltin BDispose)) 4 4 [] log /\
  occurs (ex_space (NBuiltin BDispose)) [] 10 (OSection (PTemplate 30) []) /\
  In (LBuilt u ins bufs outs) log /\ u_ns u = [] ++ [10] /\ In (Some (NBuiltin BTerminate), o) outs /\ o_ty o <> TFailed.
Proof.
  exists (ex_log (ex_space (NBuiltin BDispose)) 4 4 []), (an_op 20 [10] (OFork [NName 21; ex_terminate]) 0), [(None, a_slot 6 4 0)], [].
  exists [(Some (NName 21), an_output 7 4 0); (Some ex_terminate, an_output 8 4 0)], (an_output 8 4 0).
  split; [apply ex_space_unique|]. split; [apply ex_builds; vm_compute; reflexivity|].
  split; [apply occurs_top; left; reflexivity|]. split; [in_log 11|].
  split; [reflexivity|]. split; [right; left; reflexivity|discriminate].
Qed.

(** ** C65: connections stay inside of one scope *)

(** They do not: an error of a conversion inside of a scope is connected to the
    cancel operation of the workflow, and what is given to the terminate of a
    scope passes a conversion which belongs to the outer scope. *)
Definition ex_cross : diagram := ex_diagram
  [(11, OScope (NName 20) [(20, OFork [NName 21; NName 22]); (21, ONode 1 ex_terminate []); (22, ONode 0 ex_terminate [])] [] ex_terminate)]
  [] (NName 11) None.

Theorem C65_connections_stay_in_a_scope_refuted :
  exists g d q p ss log, builds g d q p ss log /\
    (exists k i out er s, In (LConv k i out (Some er)) log /\ In (LConnect er s) log /\ o_scope er <> s_scope s) /\
    (exists u ins bufs outs t o s, In (LBuilt u ins bufs outs) log /\ In (t, o) outs /\ In (LConnect o s) log /\ o_scope o <> s_scope s).
Proof.
  exists ex_registry, ex_cross, 4, 0, [], (ex_log ex_cross 4 0 []).
  split; [apply ex_builds; vm_compute; reflexivity|]. split.
  - exists CSerialize, (a_slot 17 4 6), (an_output 18 0 6), (an_output 19 1 6), (a_slot 5 1 0).
    split; [in_log 24|]. split; [in_log 40|]. discriminate.
  - exists (an_op 22 [11] (ONode 0 ex_terminate []) 6), [(None, a_slot 15 4 6)], [], [(Some ex_terminate, an_output 16 4 6)].
    exists (Some ex_terminate), (an_output 16 4 6), (a_slot 20 4 0). split; [in_log 20|]. split; [left; reflexivity|].
    split; [in_log 38|]. discriminate.
Qed.
Print Assumptions C65_connections_stay_in_a_scope_refuted.
