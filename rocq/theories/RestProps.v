(** C80: workflows come to rest. *)
From Verif Require Import Base RosterModel BufferModel InputModel InputSpec InputProofs GateModel
  OpsModel OpsSpec OpsProofs ReachModel ReachSpec ReachProofs ExecModel ExecSpec ExecProofs ExecProofs2 ExecProofs3
  ExecProofs4 ExecProofs5 ExecProps RestProofs RestProofs2.

(** Whatever happened before, whatever sessions run together and however they are
    interleaved: if each request comes to finitely many results (which depends on the nodes
    and connections alone), then the flush loop comes to an end by itself. Cycles are
    allowed. Missing: collects, joins, buffers, nested workflows, asynchronous nodes; the
    fuel stands for the number of rounds. *)
Theorem C80_comes_to_rest_partial f acts :
  built f -> collect_free f ->
  (forall s v, In (XStart s v) acts -> exists l, yields f (f_entry f) v l) ->
  exists n, forall m, n <= m -> quiet (flush m f (xrun f acts (fresh f))).
Proof. exact (flush_rests f acts). Qed.
Print Assumptions C80_comes_to_rest_partial.

(** With C40: everyone who asks gets an answer, exactly one. *)
Theorem C80_everyone_is_answered_partial f acts :
  built f -> collect_free f ->
  (forall s v, In (XStart s v) acts -> exists l, yields f (f_entry f) v l) ->
  exists n, forall m, n <= m -> let x := flush m f (xrun f acts (fresh f)) in
    quiet x /\ forall s v, In (XStart s v) acts -> (exists u, started x s u) /\ exists e, endings x s = [e].
Proof.
  intros Hb Hf Ha. destruct (flush_rests f acts Hb Hf Ha) as [n Hn]. exists n. intros m Hm x. pose proof (Hn m Hm) as Q. fold x in Q.
  split; [exact Q|]. intros s v Hin.
  destruct (flush_inner f m (xrun f acts (fresh f))) as [a [Fa Ea]]. rewrite <- xrun_app in Ea. fold x in Ea.
  assert (Hs : exists u, started x s u).
  { rewrite Ea. apply (run_started f (acts ++ a) s v Hb Hf). apply in_or_app. auto. }
  split; [exact Hs|]. destruct Hs as [u Hu]. rewrite Ea in *. exact (quiet_ended f (acts ++ a) s u Hb Q Hu).
Qed.
Print Assumptions C80_everyone_is_answered_partial.

(** The workflow with a cycle of C41, two sessions and a cancellation from outside. *)
Example C80_case : built ex_round /\ collect_free ex_round /\
  let acts := [XStart 20 (VAtom 1); XExec; XStart 21 (VAtom 0); XCancel 20; XExec] in
  (forall s v, In (XStart s v) acts -> exists l, yields ex_round (f_entry ex_round) v l) /\
  ~ quiet (flush 5 ex_round (xrun ex_round acts (fresh ex_round))) /\
  let x := flush 100 ex_round (xrun ex_round acts (fresh ex_round)) in
  quiet x /\ endings x 20 = [ECancelled 20 cause_external] /\ endings x 21 = [EOut 21 (VAtom 3)].
Proof.
  split; [apply ex_built; vm_compute; reflexivity|].
  split; [intros n; unfold is_collect; cbn; unfold emap_set; repeat (destruct (Nat.eqb _ _); [reflexivity|]); reflexivity|].
  split.
  { intros s v H. cbn in H. destruct H as [H|[H|[H|[H|[H|[]]]]]]; try discriminate; injection H as <- <-; eexists;
      apply ex_round_yields; lia. }
  split; [intros [H _]; vm_compute in H; discriminate|]. vm_compute. repeat split; reflexivity.
Qed.
