(** Properties C24, C25, C26, C27 and C45: the outcome of a scope and its cleanup. *)
From Verif Require Import Base ScopeModel ScopeSpec ScopeProofs ScopeProofs2 ScopeProofs3.

(** Nodes which report at once, and nodes which report later. *)
Definition at_once (n s : entity) : bool := true.
Definition later (n s : entity) : bool := false.

(** A scope with nodes 5 and 6, without and with a cleanup workflow, and an
    uninterruptible one; sessions of the scope are 100, 101, ... *)
Definition plain_scope : config := {| g_self := 1; g_unint := false; g_nodes := [5; 6]; g_begins := [] |}.
Definition tidy_scope : config := {| g_self := 1; g_unint := false; g_nodes := [5]; g_begins := [(true, true)] |}.
Definition stubborn_scope : config := {| g_self := 1; g_unint := true; g_nodes := [5]; g_begins := [] |}.

(** The parent (scope 2) cleans up its session [p]. *)
Definition by_parent (p : entity) : cleanup := {| cl_cleaner := 2; cl_node := 1; cl_session := p; cl_id := p |}.

(** Two sessions: 100 for session 20 of the parent, 101 for session 21. A value and a
    cancellation reach session 100, session 101 is found to be unreachable. The nodes
    report in between. *)
Definition busy : list (action nat) :=
  [ABegin 20 SOk later; ABegin 21 SOk later; AArrive 100 7; AArrive 100 8;
   ATerminal later; ACancel (Some 100) 3; ATriggerCancel later; ATerminal later;
   AUnreach 101 4 (fun n s => Nat.eqb n 5);
   ANode 6 101 101; ANode 5 100 100; ATrigger; ANode 6 100 100; ATrigger].

(** ** C24: one outcome *)

(** Partial: parents clean up interruptible scopes only. Missing: see
    [C24_uninterruptible_refuted]. *)
Theorem C24_at_most_once_partial (V : Type) (g : config) (base : entity) (acts : list (action V)) (s : entity) :
  Forall (allowed g) acts -> outcomes s (s_log (run g base acts)) <= 1.
Proof. exact (outcome_once g base acts s). Qed.
Print Assumptions C24_at_most_once_partial.
Example C24_at_most_once_partial_case :
  Forall (allowed plain_scope) busy /\
  outcomes 100 (s_log (run plain_scope 100 busy)) = 1 /\ outcomes 101 (s_log (run plain_scope 100 busy)) = 1.
Proof. split; [apply allowed_interruptible; reflexivity|]. vm_compute. auto. Qed.

(** The outcome is the first thing which decided the session. *)
Theorem C24_first_decides_partial (V : Type) (g : config) (base : entity) (acts : list (action V)) (e : event V) :
  Forall (allowed g) acts -> In e (s_log (run g base acts)) -> outcome_right (s_log (run g base acts)) e.
Proof. exact (outcome_first g base acts e). Qed.
Print Assumptions C24_first_decides_partial.
(** The first of two values wins over the later cancellation. *)
Example C24_first_decides_partial_case :
  let l := s_log (run plain_scope 100 busy) in
  In (EOut 20 100 7) l /\ In (ECancelOut 21 101 4 []) l /\
  verdict 20 100 l = Some (ByValue 7) /\ verdict 21 101 l = Some (ByCancel 4).
Proof. vm_compute. intuition. Qed.

(** Partial: the parent neither cleans up nor is cancelled as a whole. A session which was
    decided has its outcome as soon as nothing is left to do. Missing: cleanups and
    cancellations of parent sessions, see [C26_shared_cleanup_refuted]. *)
Theorem C24_exactly_once_partial (V : Type) (g : config) (base : entity) (acts : list (action V)) (p s : entity) :
  Forall (inside base) acts -> let w := run g base acts in
  quiet w -> In (EBegin p s) (s_log w) -> verdict p s (s_log w) <> None -> outcomes s (s_log w) = 1.
Proof. exact (released_all base g acts p s). Qed.
Print Assumptions C24_exactly_once_partial.
Example C24_exactly_once_partial_case :
  let w := run plain_scope 100 busy in
  Forall (inside 100) busy /\ quiet w /\ In (EBegin 20 100) (s_log w) /\ verdict 20 100 (s_log w) <> None.
Proof.
  cbv zeta. split; [repeat constructor; cbn; lia|]. split; [vm_compute; auto|]. vm_compute. split; [auto|discriminate].
Qed.

(** An uninterruptible scope: the session has terminated when its parent is cleaned up;
    the cleanup turns its status back, so that a disposal can still cancel it. The session
    ends both with its value and with a cancellation. *)
Theorem C24_uninterruptible_refuted :
  exists (acts : list (action nat)) (s : entity),
    let l := s_log (run stubborn_scope 100 acts) in
    outcomes s l = 2 /\ In (EOut 20 s 7) l /\ In (ECancelOut 20 s 4 []) l.
Proof.
  exists [ABegin 20 SOk later; AArrive 100 7; ATerminal later; AClean (by_parent 20) later;
          ANode 5 100 100; AUnreach 100 4 at_once; ATrigger; ATrigger], 100.
  vm_compute. intuition.
Qed.
Print Assumptions C24_uninterruptible_refuted.

(** Nothing ever cancels a session. *)
Definition harmless (a : action nat) : Prop :=
  match a with
  | ACancel _ _ | AUnreach _ _ _ | AClean _ _ | ABegin _ (SError _) _ | ABegin _ (SUnreach _) _ => False
  | _ => True
  end.

(** Two values reach the terminal for session 100. The first one ends it; the second one
    finds no session and is taken for a broken operation, which cancels every other
    session of the scope: session 101 is cancelled although nothing happened to it. *)
Theorem C24_late_value_refuted :
  exists acts : list (action nat), let l := s_log (run plain_scope 100 acts) in
    Forall harmless acts /\ (forall v, ~ In (AArrive 101 v) acts) /\ In (EOut 20 100 7) l /\ In (ECancelOut 21 101 0 []) l.
Proof.
  exists [ABegin 20 SOk later; ABegin 21 SOk later; AArrive 100 7; AArrive 100 8;
          ATerminal at_once; ATrigger; ATerminal later; ATriggerCancel at_once; ATrigger].
  cbv zeta. split; [repeat constructor|]. split; [intros v H; repeat (destruct H as [H|H]; [discriminate|]); exact H|].
  vm_compute. intuition.
Qed.
Print Assumptions C24_late_value_refuted.

(** ** C25: the outcome is released when the scope is clean *)

(** Partial: the parent neither cleans up nor is cancelled as a whole. *)
Theorem C25_released_clean_partial (V : Type) (g : config) (base : entity) (acts : list (action V)) :
  Forall (inside base) acts -> released_clean (g_nodes g) (s_log (run g base acts)).
Proof. exact (release_clean base g acts). Qed.
Print Assumptions C25_released_clean_partial.
(** With a cleanup workflow: the outcome comes last. *)
Definition tidy : list (action nat) :=
  [ABegin 20 SOk later; AArrive 100 7; ATerminal later; ANode 5 100 100; ATrigger; AFlowEnd 101 None].
Example C25_released_clean_partial_case :
  Forall (inside 100) tidy /\
  s_log (run tidy_scope 100 tidy) =
    [EBegin 20 100; EValue 100 7; EClean 100 100; ENode 5 100 100; ECleaned 100; EFlow 100 101;
     EFlowEnd 101; EOut 20 100 7; EEnd 100].
Proof. split; [repeat constructor; cbn; lia|vm_compute; reflexivity]. Qed.

(** Session 20 of the parent runs the scope twice and is cancelled: both runs share one
    cleanup id, so node 5 of one run and node 6 of the other make up a clean scope. *)
Theorem C25_shared_cleanup_refuted :
  exists acts : list (action nat), ~ released_clean (g_nodes plain_scope) (s_log (run plain_scope 100 acts)).
Proof.
  exists [ABegin 20 SOk later; ABegin 20 SOk later; ACancel (Some 20) 3; ATriggerCancel later;
          ANode 5 100 20; ANode 6 101 20; ATrigger].
  intros H.
  specialize (H [EBegin 20 100; EBegin 20 101; ECancel 20 3; EClean 100 20; EClean 101 20; ENode 5 100 20; ENode 6 101 20; ECleaned 101]
    (ECancelOut 20 101 3 []) [EEnd 101] 101 eq_refl eq_refl).
  destruct H as [H _]. destruct (H 5 (or_introl eq_refl)) as [id Hi].
  repeat (destruct Hi as [Hi|Hi]; [discriminate|]). exact Hi.
Qed.
Print Assumptions C25_shared_cleanup_refuted.

(** The parent is cleaned up after the session terminated: the cleanup workflow is started
    twice and the outcome is released while the first one still runs. *)
Theorem C25_restarted_workflow_refuted :
  exists acts : list (action nat), ~ released_clean (g_nodes tidy_scope) (s_log (run tidy_scope 100 acts)).
Proof.
  exists [ABegin 20 SOk later; AArrive 100 7; ATerminal later; AClean (by_parent 20) later;
          ANode 5 100 100; ATrigger; ANode 5 100 20; ATrigger; AFlowEnd 102 None].
  intros H.
  specialize (H [EBegin 20 100; EValue 100 7; EClean 100 100; ERequest (by_parent 20); EClean 100 20;
                 ENode 5 100 100; ECleaned 100; EFlow 100 101; ENode 5 100 20; ECleaned 100; EFlow 100 102; EFlowEnd 102]
    (EOut 20 100 7) [EEnd 100] 100 eq_refl eq_refl).
  destruct H as [_ H]. assert (Hi : In (EFlowEnd 101) [EBegin 20 100; EValue 100 7; EClean 100 100; ERequest (by_parent 20); EClean 100 20;
                 ENode 5 100 100; ECleaned 100; EFlow 100 101; ENode 5 100 20; ECleaned 100; EFlow 100 102; EFlowEnd 102]).
  { apply H. cbn. auto 10. }
  repeat (destruct Hi as [Hi|Hi]; [discriminate|]). exact Hi.
Qed.
Print Assumptions C25_restarted_workflow_refuted.

(** ** C26: completion of a cleanup *)

(** Partial: the cleanup id is not used for another cleanup in between. *)
Theorem C26_reported_once_partial (m : contents) (id : entity) (ns : list entity) (l : list note) :
  c_get m id = Some ns -> ns <> [] -> not_added id l ->
  (all_done id ns l -> reported id (snd (note_run m l)) = 1) /\
  (~ all_done id ns l -> reported id (snd (note_run m l)) = 0).
Proof. exact (reported_once m id ns l). Qed.
Print Assumptions C26_reported_once_partial.
(** Two cleanups at once, repeated notices, one of an unknown id. *)
Example C26_reported_once_partial_case :
  let m := add_cleanup (add_cleanup [] 100 [5; 6]) 101 [6; 7] in
  let l := [NDone 101 6; NDone 100 6; NDone 100 6; NAdd 102 [5]; NDone 99 5; NDone 100 5; NDone 101 7; NDone 100 5] in
  c_get m 100 = Some [5; 6] /\ not_added 100 l /\ all_done 100 [5; 6] l /\
  snd (note_run m l) = [100; 101].
Proof.
  cbv zeta. split; [reflexivity|]. split.
  - intros nodes H. repeat (destruct H as [H|H]; [discriminate|]). exact H.
  - split; [|vm_compute; reflexivity]. intros n [<-|[<-|[]]]; cbn; auto 10.
Qed.

(** Session 20 of the parent runs the scope twice and is cleaned up. Every node reports
    for both runs, nothing is left to do, and the parent is never told. *)
Theorem C26_shared_cleanup_refuted :
  exists acts : list (action nat), let w := run plain_scope 100 acts in
    (forall n s, In n [5; 6] -> In s [100; 101] -> In (ENode n s 20) (s_log w)) /\
    In (ERequest (by_parent 20)) (s_log w) /\ quiet w /\ forall cl, ~ In (ENotify cl) (s_log w).
Proof.
  exists [ABegin 20 SOk later; ABegin 20 SOk later; AClean (by_parent 20) later;
          ANode 5 100 20; ANode 6 100 20; ANode 5 101 20; ANode 6 101 20; ATrigger].
  cbv zeta. split; [|split; [|split]].
  - intros n s [<-|[<-|[]]] [<-|[<-|[]]]; vm_compute; auto 20.
  - vm_compute. auto 10.
  - vm_compute. auto.
  - intros cl. vm_compute. intuition discriminate.
Qed.
Print Assumptions C26_shared_cleanup_refuted.

(** ** C27: uninterruptible scopes *)

(** Partial: an uninterruptible scope is never interrupted by its parent; its nodes are
    cleaned only for sessions which ended on their own. Missing: the parent waits, see
    [C27_parent_not_waiting_refuted]. *)
Theorem C27_not_interrupted_partial (V : Type) (g : config) (base : entity) (acts : list (action V)) :
  g_unint g = true -> cleaned_ended (s_log (run g base acts)).
Proof. exact (uninterrupted g base acts). Qed.
Print Assumptions C27_not_interrupted_partial.
Example C27_not_interrupted_partial_case :
  s_log (run stubborn_scope 100
    [ABegin 20 SOk later; AClean (by_parent 20) later; AArrive 100 7; ATerminal later; ANode 5 100 100; ATrigger]) =
  [EBegin 20 100; ERequest (by_parent 20); ENotify (by_parent 20); EValue 100 7; EClean 100 100; ENode 5 100 100;
   ECleaned 100; EOut 20 100 7; EEnd 100].
Proof. vm_compute. reflexivity. Qed.

(** The parent is told at once that the scope is clean, while its session goes on. *)
Theorem C27_parent_not_waiting_refuted :
  exists acts : list (action nat), ~ notified_ended (s_log (run stubborn_scope 100 acts)).
Proof.
  exists [ABegin 20 SOk later; AClean (by_parent 20) later]. intros H.
  destruct (H [EBegin 20 100; ERequest (by_parent 20)] (by_parent 20) [] eq_refl 100 (or_introl eq_refl))
    as [(v & Hi)|[(c & Hi)|(t & c & Hi & _)]]; cbn in Hi; intuition discriminate.
Qed.
Print Assumptions C27_parent_not_waiting_refuted.

(** ** C45: what the parent is told *)

(** Partial: the scope is interruptible and the parent asks once per session. Missing: other
    histories ([C27_parent_not_waiting_refuted], [C45_second_request_refuted]) and cleanup
    workflows ([C45_workflow_running_refuted]). *)
Theorem C45_told_when_clean_partial (V : Type) (g : config) (base : entity) (acts : list (action V)) :
  g_unint g = false -> asks_once (s_log (run g base acts)) -> notified_clean (s_log (run g base acts)).
Proof. exact (notify_covers g base acts). Qed.
Print Assumptions C45_told_when_clean_partial.
(** Two runs for session 20, one of which has terminated, and one for session 21. *)
Example C45_told_when_clean_partial_case :
  let l := s_log (run plain_scope 100
    [ABegin 20 SOk later; ABegin 20 SOk later; ABegin 21 SOk later; AArrive 100 7; ATerminal at_once; ATrigger;
     AClean (by_parent 20) later; ANode 5 101 20; AClean (by_parent 21) at_once; ATrigger; ANode 6 101 20; ATrigger]) in
  asks_once l /\ In (ENotify (by_parent 20)) l /\ In (ENotify (by_parent 21)) l.
Proof.
  cbv zeta. split; [apply requests_asks_once; vm_compute; repeat constructor; cbn; lia|]. vm_compute. auto 40.
Qed.

(** A session whose nodes are clean and whose cleanup workflow still runs is left out. *)
Theorem C45_workflow_running_refuted :
  exists acts : list (action nat), let l := s_log (run tidy_scope 100 acts) in
    asks_once l /\ In (ENotify (by_parent 20)) l /\ In (EFlow 100 101) l /\ ~ In (EFlowEnd 101) l.
Proof.
  exists [ABegin 20 SOk later; AArrive 100 7; ATerminal later; ANode 5 100 100; ATrigger; AClean (by_parent 20) later].
  cbv zeta. split; [apply requests_asks_once; vm_compute; repeat constructor; cbn; lia|]. vm_compute. intuition discriminate.
Qed.
Print Assumptions C45_workflow_running_refuted.

(** The parent asks twice: the second request is answered at once, while the nodes are
    still busy with the first one. *)
Theorem C45_second_request_refuted :
  exists acts : list (action nat), ~ notified_clean (s_log (run plain_scope 100 acts)).
Proof.
  exists [ABegin 20 SOk later; AClean (by_parent 20) later; AClean (by_parent 20) later]. intros H.
  assert (Hi := H [EBegin 20 100; ERequest (by_parent 20); EClean 100 20; ERequest (by_parent 20)] (by_parent 20) [] eq_refl 100 (or_introl eq_refl)).
  cbn in Hi. intuition discriminate.
Qed.
Print Assumptions C45_second_request_refuted.
