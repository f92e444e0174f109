(** Property theorems C06 and C07: the inputs of a node. *)
From Verif Require Import Base RosterModel BufferModel InputModel InputSpec InputProofs.

(** Witness: node 5 takes messages, node 6 is an unused target, sessions 7 and 8
    are active, session 9 is being cleaned. *)
Definition wit : world nat :=
  mk_world
    (fun k => if Nat.eqb k 5 then Some (mk_node (Some []) false false None)
              else if Nat.eqb k 6 then Some (mk_node None true false None) else None)
    (fun s => if Nat.eqb s 9 then Some Cleaning else Some Active) roster_new.

Definition wit_ops : list (iop nat) :=
  [IGive 5 7 1; IDefer 5 8 2; IGive 5 9 3; IGive 6 7 4; IGive 5 7 5; IExec; IExec;
   ICleanup 5 8; IGive 5 8 6; IProcessDeferrals; IExec; IExec].

(** C06. Messages of a session are taken in exactly the order in which they were
    accepted, whatever happens in between to this node and to others, as long as
    the session itself is not cleaned at this node. *)
Theorem C06_inputs_fifo_per_session :
  forall (V : Type) (n s : entity) (ops : list (iop V)) (w : world V),
  Forall (fun o => ~ cleans n s o) ops ->
  of_session s (pending w n ++ accepted n (snd (irun w ops)))
  = of_session s (taken n (snd (irun w ops)) ++ pending (fst (irun w ops)) n).
Proof. exact @input_fifo. Qed.
Print Assumptions C06_inputs_fifo_per_session.

Example C06_inputs_fifo_per_session_case :
  Forall (fun o => ~ cleans 5 7 o) wit_ops /\
  of_session 7 (accepted 5 (snd (irun wit wit_ops))) = [(7, 1); (7, 5)].
Proof. split; [repeat constructor; unfold cleans; congruence|reflexivity]. Qed.

(** C06. Across sessions, too: without cleanups at the node the messages are taken
    in the order in which they were accepted. *)
Theorem C06_inputs_fifo :
  forall (V : Type) (n : entity) (ops : list (iop V)) (w : world V),
  Forall (fun o => forall s, ~ cleans n s o) ops ->
  pending w n ++ accepted n (snd (irun w ops))
  = taken n (snd (irun w ops)) ++ pending (fst (irun w ops)) n.
Proof. exact @input_fifo_all. Qed.
Print Assumptions C06_inputs_fifo.

Example C06_inputs_fifo_case :
  Forall (fun o => forall s, ~ cleans 5 s o) (firstn 7 wit_ops) /\
  accepted 5 (snd (irun wit (firstn 7 wit_ops))) = [(7, 1); (8, 2); (7, 5)] /\
  taken 5 (snd (irun wit (firstn 7 wit_ops))) = [(7, 1)].
Proof. repeat split; repeat constructor; unfold cleans; congruence. Qed.

(** C06. Each accepted message schedules exactly one execution of the node. *)
Theorem C06_one_execution_per_input :
  forall (V : Type) (n : entity) (ops : list (iop V)) (w : world V),
  receives w n ->
  receives (fst (irun w ops)) n /\
  scheduled (fst (irun w ops)) n + executions n (snd (irun w ops))
  = scheduled w n + length (accepted n (snd (irun w ops))) /\
  (length (pending w n) <= scheduled w n ->
   length (pending (fst (irun w ops)) n) <= scheduled (fst (irun w ops)) n).
Proof. exact @input_scheduled. Qed.
Print Assumptions C06_one_execution_per_input.

Example C06_one_execution_per_input_case :
  receives wit 5 /\ length (accepted 5 (snd (irun wit wit_ops))) = 4 /\
  executions 5 (snd (irun wit wit_ops)) = 3.
Proof. split; [eexists _, _; split; reflexivity|split; reflexivity]. Qed.

(** C06. No message is left behind: when no execution of the node is scheduled any
    more, no message waits at it. *)
Theorem C06_no_input_stranded :
  forall (V : Type) (n : entity) (ops : list (iop V)) (w : world V),
  receives w n -> length (pending w n) <= scheduled w n ->
  scheduled (fst (irun w ops)) n = 0 ->
  pending (fst (irun w ops)) n = [].
Proof. exact @input_nothing_stranded. Qed.
Print Assumptions C06_no_input_stranded.

Example C06_no_input_stranded_case :
  receives wit 5 /\ length (pending wit 5) <= scheduled wit 5 /\
  scheduled (fst (irun wit (wit_ops ++ [IExec]))) 5 = 0 /\
  length (accepted 5 (snd (irun wit (wit_ops ++ [IExec])))) = 4.
Proof. split; [eexists _, _; split; reflexivity|split; [apply Nat.le_refl|split; reflexivity]]. Qed.

(** C06. Messages for a session that is not active are not accepted. *)
Theorem C06_inactive_session_refused :
  forall (V : Type) (w : world V) (n s : entity) (v : V),
  w_status w s <> Some Active ->
  istep w (IGive n s v) = (w, Refused) /\ istep w (IDefer n s v) = (w, Refused).
Proof. exact @inactive_refused. Qed.
Print Assumptions C06_inactive_session_refused.

Example C06_inactive_session_refused_case : w_status wit 9 <> Some Active.
Proof. discriminate. Qed.

(** C07. Cleaning removes the messages of that session at that node, and only these. *)
Theorem C07_cleanup_removes_session_inputs :
  forall (V : Type) (w : world V) (n s m s' : entity),
  of_session s' (pending (cleanup_inputs w n s) m)
  = if Nat.eqb m n && Nat.eqb s' s then [] else of_session s' (pending w m).
Proof. exact @cleanup_clears. Qed.
Print Assumptions C07_cleanup_removes_session_inputs.

Example C07_cleanup_removes_session_inputs_case :
  let w := fst (irun wit (firstn 5 wit_ops)) in
  pending w 5 = [(7, 1); (8, 2); (7, 5)] /\ pending (cleanup_inputs w 5 7) 5 = [(8, 2)].
Proof. split; reflexivity. Qed.

(** C07. The messages of the other sessions keep their relative order. *)
Theorem C07_cleanup_keeps_other_order :
  forall (V : Type) (w : world V) (n s m : entity),
  filter (fun i => negb (Nat.eqb (fst i) s)) (pending (cleanup_inputs w n s) m)
  = filter (fun i => negb (Nat.eqb (fst i) s)) (pending w m).
Proof. exact @cleanup_others_order. Qed.
Print Assumptions C07_cleanup_keeps_other_order.

Example C07_cleanup_keeps_other_order_case :
  let w := fst (irun wit (firstn 5 wit_ops)) in
  filter (fun i => negb (Nat.eqb (fst i) 8)) (pending w 5) = [(7, 1); (7, 5)].
Proof. reflexivity. Qed.

(** C07. The contents of a buffer for other sessions are not touched. *)
Theorem C07_cleanup_keeps_other_contents :
  forall (V : Type) (w : world V) (n s m s' : entity),
  s' <> s -> contents (cleanup_inputs w n s) m s' = contents w m s'.
Proof. exact @cleanup_other_contents. Qed.
Print Assumptions C07_cleanup_keeps_other_contents.

Definition bufwit (p : retention) : world nat :=
  mk_world (fun k => Some (mk_node (Some []) false false (Some (new_storage p))))
    (fun _ => Some Active) roster_new.

Example C07_cleanup_keeps_other_contents_case :
  let w := fst (irun (bufwit KeepAll) [IGive 5 7 1; IGive 5 8 2; ICleanup 5 8]) in
  8 <> 7 /\ contents w 5 8 = [2] /\ contents (cleanup_inputs w 5 7) 5 8 = [2].
Proof. repeat split; discriminate. Qed.

(** C07 (partial). For a buffer that keeps everything the pending messages all end
    up in the buffer, but in the reverse of their arrival order. Missing from the
    full statement: arrival order, which the code does not keep. *)
Theorem C07_cleanup_stores_pending_partial :
  forall (V : Type) (w : world V) (n s : entity) (nd : node V) (b : storage V),
  w_nodes w n = Some nd -> n_buffer nd = Some b -> policy b = KeepAll ->
  n_inputs nd <> None ->
  contents (cleanup_inputs w n s) n s
  = contents w n s ++ rev (map snd (of_session s (pending w n))).
Proof. exact @cleanup_keeps_all. Qed.
Print Assumptions C07_cleanup_stores_pending_partial.

Example C07_cleanup_stores_pending_case :
  let w := fst (irun (bufwit KeepAll) [IGive 5 7 1; IGive 5 7 2]) in
  exists nd b, w_nodes w 5 = Some nd /\ n_buffer nd = Some b /\ policy b = KeepAll /\
  n_inputs nd <> None /\ contents (cleanup_inputs w 5 7) 5 7 = [2; 1].
Proof. eexists _, _. repeat split. discriminate. Qed.

(** C07. The order of two pending messages is reversed. *)
Theorem C07_cleanup_arrival_order_refuted :
  exists (w : world nat) (n s : entity),
  map snd (of_session s (pending w n)) = [1; 2] /\
  contents (cleanup_inputs w n s) n s = [2; 1] /\
  exists ops, w = fst (irun (mk_world
     (fun k => Some (mk_node (Some []) false false (Some (new_storage KeepAll))))
     (fun _ => Some Active) roster_new) ops).
Proof. exact cleanup_reverses. Qed.
Print Assumptions C07_cleanup_arrival_order_refuted.

(** C07. So a buffer that should keep the last message keeps the first one. *)
Theorem C07_cleanup_keep_last_refuted :
  exists (w : world nat) (n s : entity),
  map snd (of_session s (pending w n)) = [1; 2] /\
  contents (cleanup_inputs w n s) n s = [1] /\
  exists ops, w = fst (irun (mk_world
     (fun k => Some (mk_node (Some []) false false (Some (new_storage (KeepLast 1)))))
     (fun _ => Some Active) roster_new) ops).
Proof. exact cleanup_keeps_older. Qed.
Print Assumptions C07_cleanup_keep_last_refuted.
