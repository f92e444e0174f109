(** What is built from a diagram is built once, and connected once (C58). *)
From Verif Require Import Base DiagramModel DiagramSpec DiagramSpec2 DiagramSpec3 DiagramProofs DiagramProofs8 DiagramProofs14 DiagramProofs15
  DiagramProofs16 DiagramProps Diagram2Props.

(** Every operation which the diagram has, or which a template or scope of it
    brings along, is built exactly once. *)
Theorem C58_operations_are_built_once g d q p ss log ns id o :
  distinct d -> builds g d q p ss log -> occurs d ns id o ->
  exists i u ins bufs outs, nth_error log i = Some (LBuilt u ins bufs outs) /\ u_ns u = ns /\ u_id u = id /\ u_op u = o /\
    forall j u' ins' bufs' outs', nth_error log j = Some (LBuilt u' ins' bufs' outs') -> u_ns u' = ns -> u_id u' = id -> j = i.
Proof.
  intros D H O. destruct (proj1 (C58_operations_are_built _ _ _ _ _ _ H) _ _ _ O) as (u & ins & bufs & outs & A & <- & <- & E).
  apply In_nth_error in A as [i A]. exists i, u, ins, bufs, outs. do 3 (split; [assumption || reflexivity|]). split; [exact E|].
  intros j u' ins' bufs' outs' B Ens Eid. eapply bkeys_nth; [eapply builds_built_once; eauto|exact B|exact A|]. unfold key. congruence.
Qed.
Print Assumptions C58_operations_are_built_once.

(** No output is connected to two inputs, or connected twice; and an output which
    was lost is not connected. *)
Theorem C58_outputs_are_connected_once g d q p ss log o o' :
  builds g d q p ss log -> o_id o = o_id o' ->
  (forall i j s s', nth_error log i = Some (LConnect o s) -> nth_error log j = Some (LConnect o' s') -> i = j) /\
  (forall r s, In (LConnect o s) log -> ~ In (LLost r o') log).
Proof.
  intros H E. pose proof (builds_once _ _ _ _ _ _ H) as N. split.
  - intros i j s s' A B. eapply (gone_once log i j _ _ (o_id o) N A B); cbn; auto.
  - intros r s A B. apply In_nth_error in A as [i A], B as [j B].
    pose proof (gone_once log i j _ _ (o_id o) N A B (or_introl eq_refl) (or_introl (eq_sym E))) as X. subst j. congruence.
Qed.
Print Assumptions C58_outputs_are_connected_once.

(** Together with [C58_flat_outputs_arrive]: in a diagram with one level every
    output of every operation is connected to exactly one input, or its target
    leads to dispose. *)
Theorem C58_flat_outputs_have_one_target g d q p ss log u ins bufs outs t o :
  builds g d q p ss log -> flat d ss -> In (LBuilt u ins bufs outs) log -> In (t, o) outs ->
  leadsto d (directed d [] t) RDispose \/
  exists i s, nth_error log i = Some (LConnect o s) /\ forall j o' s', nth_error log j = Some (LConnect o' s') -> o_id o' = o_id o -> j = i.
Proof.
  intros H Fl A B. destruct (proj1 (proj2 (C58_flat_outputs_arrive _ _ _ _ _ _ H Fl)) _ _ _ _ _ _ A B) as (r & L & [->|(s & _ & C)]); [auto|].
  assert (X : exists s', In (LConnect o s') log).
  { destruct C as [[_ C]|[C _]]; [exists s; exact C|]. destruct C as (k & i & out & er & C). exists i. tauto. }
  destruct X as [s' X]. apply In_nth_error in X as [i X]. right. exists i, s'. split; [exact X|].
  intros j o' s2 Y E. eapply (C58_outputs_are_connected_once _ _ _ _ _ _ o' o H E); eauto.
Qed.
Print Assumptions C58_flat_outputs_have_one_target.

(** A diagram with a section inside of a scope has different names; its
    operations are built at these places of the log. *)
Example C58_once_case : distinct ex_deep /\ builds ex_registry ex_deep 4 4 [] (ex_log ex_deep 4 4 []) /\
  occurs ex_deep [11; 12; 20] 40 (ONode 0 ex_terminate []) /\
  (exists ins bufs outs, nth_error (ex_log ex_deep 4 4 []) 22 = Some (LBuilt (an_op 40 [11; 12; 20] (ONode 0 ex_terminate []) 10) ins bufs outs)).
Proof.
  assert (O1 : occurs ex_deep [] 11 (OScope (NSpace 12 20) [(12, OSection (PTemplate 30) [(22, ex_terminate)])] [] ex_terminate)) by (apply occurs_top; left; reflexivity).
  assert (O2 : occurs ex_deep [11] 12 (OSection (PTemplate 30) [(22, ex_terminate)])) by (eapply (occurs_scope _ []); [exact O1|left; reflexivity]).
  assert (O3 : occurs ex_deep [11; 12] 20 (OScope (NName 40) [(40, ONode 0 ex_terminate [])] [] (NName 22)))
    by (eapply (occurs_template _ [11]); [exact O2|reflexivity|left; reflexivity]).
  split; [|split; [apply ex_builds; vm_compute; reflexivity|split]].
  - split; [repeat constructor; cbn; intuition|]. split.
    + intros t T F. cbn in F. destruct (t =? 30); [|discriminate]. injection F as <-. repeat constructor; cbn; intuition.
    + assert (X : forall ns id o, occurs ex_deep ns id o -> match o with OScope _ ops _ _ => NoDup (map fst ops) /\ (forall id o', In (id, o') ops -> match o' with OScope _ _ _ _ => False | _ => True end) | _ => True end).
      { induction 1 as [id o I|ns s t T cn id o H IH F I|ns s start ops streams next id o H IH I].
        - destruct I as [E|[]]. injection E as <- <-. split; [repeat constructor; cbn; intuition|]. intros id o' [E|[]]. injection E as <- <-. constructor.
        - cbn in F. destruct (t =? 30); [|discriminate]. injection F as <-. destruct I as [E|[]]. injection E as <- <-.
          split; [repeat constructor; cbn; intuition|]. intros id o' [E|[]]. injection E as <- <-. constructor.
        - destruct IH as [_ IH]. specialize (IH _ _ I). destruct o; auto. destruct IH. }
      intros ns id start ops streams next O. apply (X _ _ _ O).
  - eapply (occurs_scope _ [11; 12]); [exact O3|left; reflexivity].
  - eexists _, _, _. vm_compute. reflexivity.
Qed.
