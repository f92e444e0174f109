(** More about nodes that break (C56). *)
From Verif Require Import Base OpsModel ExecModel ExecSpec ExecProofs8 ExecProofs9 ExecProofs10 ExecProps RestProofs RestProofs2.

(** In workflows without collects a node is only reported as broken, whatever the reason, if
    some request which was made leads a message to it. In particular a cancelling node cannot
    break the workflow unless a message is directed to it. *)
Theorem C56_broken_was_reached_partial f acts n : built f -> collect_free f ->
  let x := xrun f acts (fresh f) in
  In (EBroken n) (x_log x) -> exists s v w, started x s v /\ occurs f (f_entry f) v n w.
Proof. intros Hb Hc x H. apply (run_reached f acts Hb Hc). right. exact H. Qed.
Print Assumptions C56_broken_was_reached_partial.

(** A cancelling node which breaks misses a message: before it broke, some request led one to
    it, and the session of this request had ended. *)
Theorem C56_missing_message_partial f acts n before after : built f -> collect_free f -> f_kind f n = Some OCancel ->
  x_log (xrun f acts (fresh f)) = before ++ EBroken n :: after ->
  exists s v w e, In (EStart s v) before /\ occurs f (f_entry f) v n w /\ In e before /\ ends s e = true.
Proof. intros Hb Hc Hk H. exact (proj2 (run_stale f acts n Hb Hc Hk) _ _ H). Qed.
Print Assumptions C56_missing_message_partial.

(** Two requests: the first leads a message to the cancelling node 8 and is over when the
    node is executed. *)
Example C56_broken_was_reached_case :
  built ex_cancel /\ collect_free ex_cancel /\ f_kind ex_cancel 8 = Some OCancel /\
  (let a := [XStart 20 (VOk VUnit); XStart 21 (VErr VUnit)] in
   let x := flush 100 ex_cancel (xrun ex_cancel a (fresh ex_cancel)) in
   In (EBroken 8) (x_log x) /\ In (EOut 20 VUnit) (endings x 20)).
Proof.
  split; [exact (proj1 C41_cancel_refuted)|]. split; [|split; [reflexivity|vm_compute; intuition]].
  intros n. do 12 (destruct n as [|n]; [reflexivity|]). reflexivity.
Qed.

Example C56_missing_message_case :
  x_log (xrun ex_cancel ([XStart 20 (VOk VUnit)] ++ repeat XExec 4) (fresh ex_cancel)) =
  [EStart 20 (VOk VUnit); EOut 20 VUnit] ++ EBroken 8 :: [].
Proof. vm_compute. reflexivity. Qed.
