(** Properties of tracing (C85). *)
From Verif Require Import Base RosterModel BufferModel InputModel InputSpec OpsModel TraceModel TraceSpec TraceProofs.

(** ** C85: the trace tells what happened, and changes nothing *)

(** Every step adds one event if it took a message of an operation whose tracing is on, and else
    none. The event names the operation and its information, and contains the serialized
    message exactly if messages are asked for and can be serialized. Its stack leads from a
    session without parent down to the session of the message, from parent to child: there is no
    cycle of parents to get caught in, however sessions are spawned, put into series and
    despawned. *)
Theorem C85_one_event_per_message w acts a :
  let x := fst (trun (tinit w) acts) in
  let '(x', r) := tstep x a in
  exists new, t_events x' = t_events x ++ new /\
    match r with
    | Executed n (Took (s, v)) =>
        if traced_on x n
        then exists t e, t_trace x n = Some t /\ new = [e] /\ tells t n s v e /\ is_stack (t_parent x) s (e_stack e)
        else new = []
    | _ => new = []
    end.
Proof.
  intros x. pose proof (family_run _ acts (family_init w)) as F. fold x in F. destruct (step_event x a) as (new & E & H).
  destruct (tstep x a) as [x' r]. cbn [fst snd] in *. exists new. split; [exact E|].
  destruct r as [m s v| |m [[s v]| |]| ]; try exact H. cbn [new_event] in H. unfold traced_on.
  destruct (t_trace x m) as [t|]; [|exact H]. destruct (t_toggle t); cbn [is_on] in H; [exact H| |].
  - destruct H as (e & H1 & H2 & H3). exists t, e. rewrite H3. auto using session_stack_is.
  - destruct H as (e & H1 & H2 & H3). exists t, e. rewrite H3. auto using session_stack_is.
Qed.
Print Assumptions C85_one_event_per_message.

(** So, as long as its settings stay the same, the events about an operation are the messages
    that it took, one by one and in order, whatever else happens. *)
Theorem C85_operation_is_followed x acts n t :
  Forall (leaves n) acts -> t_trace x n = Some t ->
  exists new, t_events (fst (trun x acts)) = t_events x ++ new /\
    match t_toggle t with
    | Off => about n new = []
    | _ => Forall2 (fun i e => tells t n (fst i) (snd i) e) (taken n (snd (trun x acts))) (about n new)
    end.
Proof.
  intros L E. destruct (run_about n t acts L x E) as (new & H1 & H2). exists new. split; [exact H1|]. destruct (t_toggle t); exact H2.
Qed.
Print Assumptions C85_operation_is_followed.

(** The events about all operations together are in the order in which the messages were taken. *)
Theorem C85_order_across_operations x acts :
  Forall (fun a => forall n, leaves n a) acts ->
  exists new, t_events (fst (trun x acts)) = t_events x ++ new /\
    Forall2 (fun i e => exists t, t_trace x (fst i) = Some t /\ tells t (fst i) (fst (snd i)) (snd (snd i)) e)
      (filter (fun i => traced_on x (fst i)) (all_taken (snd (trun x acts)))) new.
Proof. intros L. exact (run_all acts L x). Qed.
Print Assumptions C85_order_across_operations.

(** What is traced runs as if it was not, if messages are not asked for or if serializers do not
    fail. *)
Theorem C85_transparent_partial w acts :
  Forall serializes acts \/ Forall modest acts ->
  t_w (fst (trun (tinit w) acts)) = fst (irun w (traffic acts)) /\
  traffic_outs acts (snd (trun (tinit w) acts)) = snd (irun w (traffic acts)).
Proof.
  intros [H|H].
  - apply (harmless_run (fun t => forall f, t_ser t = Some f -> forall v, exists j, f v = inl j) serializes); [| |exact H|].
    + intros t v P. unfold message_of. destruct (with_messages (t_toggle t)); [|eauto]. destruct (t_ser t) as [f|]; [|eauto].
      destruct (P f eq_refl v) as [j ->]. eauto.
    + intros x a Q. apply sound_step.
      * intros n d s i f -> g E. cbn in E. subst f. exact Q.
      * intros n t tr _ P g E. exact (P g E).
    + intros n t E. discriminate.
  - apply (harmless_run (fun t => t_toggle t <> Messages) modest); [| |exact H|].
    + intros t v P. unfold message_of. destruct (t_toggle t); [exists None; reflexivity|exists None; reflexivity|contradiction].
    + intros x a Q. apply sound_step.
      * intros n d s i f ->. exact Q.
      * intros n t tr -> _. exact Q.
    + intros n t E. discriminate.
Qed.
Print Assumptions C85_transparent_partial.

(** *** Cases *)

Definition ex_node : node val := mk_node (Some []) false false None.
Definition ex_world : world val :=
  mk_world (emap_set (emap_set (fun _ => None) 1 (Some ex_node)) 2 (Some ex_node)) (emap_set (emap_set (fun _ => None) 20 (Some Active)) 21 (Some Active)) roster_new.

(** Atoms below 10 can be serialized. *)
Definition ex_ser (v : val) : val + val := match v with VAtom n => if n <? 10 then inl (VAtom (100 + n)) else inr VUnit | _ => inr VUnit end.

(** A request (19 is its target) runs in session 20, a workflow in it in session 21; operation 1
    is traced with messages, operation 2 as the diagram says. *)
Definition ex_acts : list taction :=
  [TSpawn 19 None; TSpawn 20 (Some 19); TSpawn 21 (Some 20);
   TAttach 1 Off (Some Messages) 51 (Some ex_ser); TAttach 2 On None 52 None;
   TIn (IGive 1 20 (VAtom 3)); TIn (IGive 2 21 (VAtom 4)); TIn (IGive 1 21 (VAtom 5));
   TIn IExec; TIn IExec; TThen 19 30; TToggle 2 Off; TIn (IGive 2 20 (VAtom 6)); TIn IExec; TIn IExec].

Example C85_case :
  t_events (fst (trun (tinit ex_world) ex_acts)) =
    [mk_event 1 [19; 20] 51 (Some (VAtom 103)); mk_event 2 [19; 20; 21] 52 None; mk_event 1 [30; 19; 20; 21] 51 (Some (VAtom 105))] /\
  all_taken (snd (trun (tinit ex_world) ex_acts)) = [(1, (20, VAtom 3)); (2, (21, VAtom 4)); (1, (21, VAtom 5)); (2, (20, VAtom 6))] /\
  Forall (leaves 1) (skipn 5 ex_acts) /\ Forall modest [TAttach 1 On None 51 (Some ex_ser); TIn IExec].
Proof.
  split; [vm_compute; reflexivity|]. split; [vm_compute; reflexivity|]. split; [repeat constructor; discriminate|].
  repeat constructor. discriminate.
Qed.

(** Asking for messages in the trace can break the workflow: if a message cannot be serialized,
    it is lost, and the operation fails; without the trace it takes the message. *)
Theorem C85_transparent_refuted : exists w acts,
  let traced := trun (tinit w) acts in
  let plain := irun w (traffic acts) in
  snd plain = [Accepted 1 20 (VAtom 12); Executed 1 (Took (20, VAtom 12))] /\
  traffic_outs acts (snd traced) = [Accepted 1 20 (VAtom 12); Executed 1 TakeBroken] /\
  pending (t_w (fst traced)) 1 = [] /\ t_events (fst traced) = [] /\ t_errors (fst traced) = [VUnit].
Proof.
  exists ex_world, [TAttach 1 Messages None 51 (Some ex_ser); TIn (IGive 1 20 (VAtom 12)); TIn IExec].
  vm_compute. auto 10.
Qed.
Print Assumptions C85_transparent_refuted.
