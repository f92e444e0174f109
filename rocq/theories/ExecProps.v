(** Properties of whole workflows: every session ends (C40), sessions do not influence each
    other (C41), what comes out is what the connections say (C56). *)
From Verif Require Import Base RosterModel BufferModel InputModel InputSpec InputProofs GateModel
  OpsModel OpsSpec OpsProofs ReachModel ReachSpec ReachProofs ExecModel ExecSpec ExecProofs ExecProofs2 ExecProofs3
  ExecProofs4 ExecProofs5 ExecProofs6 ExecProofs7 ExecProofs8.

(** ** What the flush loop does is one of the possible orders *)
Lemma garbage_run f : forall fuel x, exists acts, garbage fuel f x = xrun f acts x.
Proof.
  induction fuel as [|fuel IH]; intros x; cbn; [exists []; reflexivity|].
  destruct (r_cancel (w_roster (o_w (x_o x)))); [exists []; reflexivity|].
  destruct (IH (do_cancel f x)) as [acts E]. exists (XDoCancel :: acts). exact E.
Qed.

Lemma xrun_app f a b x : xrun f (a ++ b) x = xrun f b (xrun f a x).
Proof. apply fold_left_app. Qed.

Lemma flush_run f : forall fuel x, exists acts, flush fuel f x = xrun f acts x.
Proof.
  induction fuel as [|fuel IH]; intros x; cbn [flush]; [exists []; reflexivity|].
  destruct (r_queue (w_roster (o_w (x_o x)))).
  - destruct (r_disposed (w_roster (o_w (x_o x)))); [apply garbage_run|].
    destruct (garbage_run f (length (r_cancel (w_roster (o_w (x_o (notice f x)))))) (notice f x)) as [a1 E1].
    destruct (IH (collect_garbage f (notice f x))) as [a2 E2]. exists (XNotice :: a1 ++ a2).
    rewrite E2. unfold collect_garbage at 1. rewrite E1. cbn. rewrite <- xrun_app. reflexivity.
  - destruct (garbage_run f (length (r_cancel (w_roster (o_w (x_o (exec f x)))))) (exec f x)) as [a1 E1].
    destruct (IH (collect_garbage f (exec f x))) as [a2 E2]. exists (XExec :: a1 ++ a2).
    rewrite E2. unfold collect_garbage at 1. rewrite E1. cbn. rewrite <- xrun_app. reflexivity.
Qed.

(** ** C40: every session ends *)
(** However the sessions of a workflow are started, executed, checked and cancelled: when
    nothing is left to do, every session which was started has ended, exactly once. The
    workflow may have any connections, cycles too. Missing: joins, buffers, nested
    workflows and asynchronous nodes (for joins the claim is false, see C43). *)
Theorem C40_no_silent_hang_partial f acts s v :
  built f -> let x := xrun f acts (fresh f) in
  quiet x -> started x s v -> exists e, endings x s = [e].
Proof. exact (quiet_ended f acts s v). Qed.
Print Assumptions C40_no_silent_hang_partial.

(** The same for the order in which the flush loop does it. *)
Theorem C40_flush_partial f acts fuel s v :
  built f -> let x := flush fuel f (xrun f acts (fresh f)) in
  quiet x -> started x s v -> exists e, endings x s = [e].
Proof.
  intros Hb. destruct (flush_run f fuel (xrun f acts (fresh f))) as [a ->]. rewrite <- xrun_app.
  apply quiet_ended, Hb.
Qed.
Print Assumptions C40_flush_partial.

(** A session which still runs has something left to do, at every moment. *)
Theorem C40_progress_partial f acts s v :
  built f -> let x := xrun f acts (fresh f) in
  started x s v -> endings x s = [] ->
  (exists n w, In (s, w) (pending (o_w (x_o x)) n) /\ In n (queue (x_o x)) /\ leads f n) \/
  (exists d, In d (told (x_o x)) /\ d_source d = f_scope f /\ d_session d = s) \/
  (exists c, In c (asked (x_o x)) /\ c_target c = f_scope f /\ (c_session c = Some s \/ c_session c = None)).
Proof.
  intros Hb x Hs He. destruct (run_sound f acts Hb) as (B & _ & A). fold x in B, A.
  assert (Hin : In s (x_ongoing x)).
  { destruct (in_dec Nat.eq_dec s (x_ongoing x)) as [H|H]; [exact H|].
    destruct (b_over _ _ B s (started_known _ _ _ Hs) H) as [e E]. congruence. }
  destruct (A s Hin) as [[m [[w H1] H2]]|[[n H]|H]].
  - left. exists m, w. split; [exact H1|]. split; [|exact H2].
    pose proof (b_queue _ _ B m) as Hl. apply (count_occ_In Nat.eq_dec).
    destruct (pending (o_w (x_o x)) m); [destruct H1|]. cbn in Hl. lia.
  - right. left. eexists. split; [exact H|]. split; reflexivity.
  - right. right. exact H.
Qed.
Print Assumptions C40_progress_partial.

(** A workflow with a cycle and a collect: the request is spread, small numbers go round
    until they are large enough, large ones are collected. *)
Definition ex_nodes (l : list (entity * okind)) : emap okind :=
  fold_right (fun p m => emap_set m (fst p) (Some (snd p))) (fun _ => None) l.
Definition ex_workflow (scope entry terminal : entity) (l : list (entity * okind)) : workflow :=
  mk_workflow scope entry terminal (map fst l) (ex_nodes l).


Fixpoint distinct (l : list entity) : bool :=
  match l with [] => true | n :: l' => negb (existsb (Nat.eqb n) l') && distinct l' end.

Lemma distinct_ok l : distinct l = true -> NoDup l.
Proof.
  induction l as [|n l IH]; cbn; [constructor|]. rewrite Bool.andb_true_iff, Bool.negb_true_iff. intros [H1 H2].
  constructor; [|auto]. intros H. apply existsb_eqb in H. congruence.
Qed.

(** Such a workflow is one which the builder can make if this check says so. *)
Definition ex_ok (scope entry terminal : entity) (l : list (entity * okind)) : bool :=
  let ns := map fst l in
  distinct ns &&
  forallb (fun p => forallb (fun t => existsb (Nat.eqb t) ns) (targets_of (snd p))) l &&
  existsb (Nat.eqb entry) ns && existsb (Nat.eqb terminal) ns && negb (existsb (Nat.eqb scope) ns) &&
  forallb (fun p => match snd p with
                    | OTerminate => Nat.eqb (fst p) terminal
                    | OForkClone [] => false
                    | OCollect min max _ => collect_setup_ok min max
                    | _ => true
                    end) l &&
  forallb (fun p => negb (Nat.eqb (fst p) terminal) || match snd p with OTerminate => true | _ => false end) l.

Lemma ex_nodes_in l n k : NoDup (map fst l) -> (ex_nodes l n = Some k <-> In (n, k) l).
Proof.
  induction l as [|[m j] l IH]; cbn [ex_nodes fold_right map fst snd]; intros Hn.
  - split; [discriminate|intros []].
  - inversion Hn as [|? ? H1 H2]; subst. fold (ex_nodes l). destruct (Nat.eq_dec n m) as [->|Hne].
    + rewrite emap_set_eq. split.
      * intros H. injection H as ->. left. reflexivity.
      * intros [H|H]; [congruence|]. exfalso. apply H1. apply (in_map fst) in H. exact H.
    + rewrite emap_set_neq by assumption. rewrite IH by assumption. split; [right; assumption|].
      intros [H|H]; [congruence|exact H].
Qed.

Lemma ex_built scope entry terminal l : ex_ok scope entry terminal l = true ->
  built (ex_workflow scope entry terminal l).
Proof.
  unfold ex_ok. rewrite !Bool.andb_true_iff, Bool.negb_true_iff, !forallb_forall.
  intros [[[[[[Hn Ht] He] Hm] Hs] Hk] Hx].
  pose proof (distinct_ok _ Hn) as Hd.
  assert (Hin : forall n, In n (map fst l) <-> ex_nodes l n <> None).
  { intros n. split.
    - intros H. apply in_map_iff in H. destruct H as [[a k] [<- H]]. apply (ex_nodes_in l a k Hd) in H. cbn. congruence.
    - intros H. destruct (ex_nodes l n) as [k|] eqn:E; [|congruence]. apply (ex_nodes_in l n k Hd) in E.
      apply (in_map fst) in E. exact E. }
  apply existsb_eqb in He, Hm.
  split; [exact Hd|]. split; [exact Hin|]. split; [|split; [exact He|split; [|split; [|split]]]].
  - intros n t H. unfold node_targets in H. cbn [ex_workflow f_kind] in H.
    destruct (ex_nodes l n) as [k|] eqn:E; [|destruct H]. apply (ex_nodes_in l n k Hd) in E.
    pose proof (Ht _ E) as H1. rewrite forallb_forall in H1. apply existsb_eqb, H1, H.
  - cbn [ex_workflow f_kind f_terminal]. intros n. split.
    + intros H. apply (ex_nodes_in l n _ Hd) in H. apply Hk in H. apply Nat.eqb_eq, H.
    + intros ->. apply in_map_iff in Hm. destruct Hm as [[a k] [E H]]. cbn in E. subst a.
      pose proof (Hx _ H) as H1. cbn in H1. rewrite Nat.eqb_refl in H1. cbn in H1.
      apply (ex_nodes_in l terminal k Hd) in H. destruct k; congruence.
  - cbn [ex_workflow f_kind]. intros n H. apply (ex_nodes_in l n _ Hd) in H. apply Hk in H. discriminate.
  - cbn [ex_workflow f_kind f_scope]. destruct (ex_nodes l scope) eqn:E; [|reflexivity]. exfalso.
    assert (H : In scope (map fst l)) by (apply Hin; congruence). apply existsb_eqb in H. congruence.
  - cbn [ex_workflow f_kind]. intros n min max t H. apply (ex_nodes_in l n _ Hd) in H. exact (Hk _ H).
Qed.

Definition num (v : val) : nat := match v with VAtom n => n | _ => 0 end.
Definition ex_loop_nodes : list (entity * okind) :=
  [ (1, OSpread 2);
    (2, OBranch (fun v => Some (if Nat.leb 3 (num v) then (Some v, None) else (None, Some v))) 4 3);
    (3, OMap (fun v => VAtom (S (num v))) 2);
    (4, OCollect 1 None 9);
    (9, OTerminate) ].
Definition ex_loop : workflow := ex_workflow 0 1 9 ex_loop_nodes.

Example C40_case : built ex_loop /\
  (let x := flush 40 ex_loop (xrun ex_loop [XStart 20 (VList [VAtom 5; VAtom 1]); XStart 21 (VList [])] (fresh ex_loop)) in
   quiet x /\ endings x 20 = [EOut 20 (VList [VAtom 5; VAtom 3])] /\
   endings x 21 = [ECancelled 21 cause_unreachable]) /\
  (let x := xrun ex_loop [XStart 20 (VList [VAtom 5; VAtom 1]); XExec; XExec; XExec; XExec] (fresh ex_loop) in
   started x 20 (VList [VAtom 5; VAtom 1]) /\ endings x 20 = []).
Proof.
  split; [apply ex_built; vm_compute; reflexivity|].
  split; [vm_compute; repeat split; reflexivity|]. vm_compute; split; [left; reflexivity|reflexivity].
Qed.

(** ** C41: sessions which run at the same time *)
(** Not even the value of the response is independent of the other sessions: an entry of
    the queue left behind by a session which ended is used for the next message of another
    session, which thereby overtakes a message that was sent before it. Both runs are
    carried out by the flush loop. *)
Definition ex_race_nodes : list (entity * okind) :=
  [ (1, OBranch branch_result 2 3);
    (2, OForkClone [9; 5]);
    (3, OForkClone [4; 5]);
    (4, OMap (fun _ => VAtom 1) 9);
    (5, OMap (fun _ => VAtom 2) 9);
    (9, OTerminate) ].
Definition ex_race : workflow := ex_workflow 0 1 9 ex_race_nodes.

Theorem C41_response_refuted : built ex_race /\
  let alone := flush 100 ex_race (xrun ex_race [XStart 21 (VErr VUnit)] (fresh ex_race)) in
  let both := flush 100 ex_race (xrun ex_race [XStart 20 (VOk VUnit); XStart 21 (VErr VUnit)] (fresh ex_race)) in
  quiet alone /\ quiet both /\
  endings alone 21 = [EOut 21 (VAtom 1)] /\ endings both 21 = [EOut 21 (VAtom 2)].
Proof.
  split; [apply ex_built; vm_compute; reflexivity|]. vm_compute. repeat split; reflexivity.
Qed.
Print Assumptions C41_response_refuted.

(** A second response of one session cancels all other sessions. *)
Definition ex_late_nodes : list (entity * okind) :=
  [ (1, OForkClone [2; 3]); (2, OMap (fun v => v) 9); (3, OMap (fun v => v) 9); (9, OTerminate) ].
Definition ex_late : workflow := ex_workflow 0 1 9 ex_late_nodes.

Theorem C41_late_refuted : built ex_late /\
  let alone := flush 100 ex_late (xrun ex_late [XStart 21 VUnit] (fresh ex_late)) in
  let both := flush 100 ex_late (xrun ex_late ([XStart 20 VUnit] ++ repeat XExec 4 ++ [XStart 21 VUnit]) (fresh ex_late)) in
  quiet alone /\ quiet both /\
  endings alone 21 = [EOut 21 VUnit] /\ endings both 21 = [ECancelled 21 cause_broken].
Proof.
  split; [apply ex_built; vm_compute; reflexivity|]. vm_compute. repeat split; reflexivity.
Qed.
Print Assumptions C41_late_refuted.

(** A cancelling node which is reached after its session ended cancels all other
    sessions. *)
Definition ex_cancel_nodes : list (entity * okind) :=
  [ (1, OBranch branch_result 2 3); (2, OForkClone [9; 8]); (3, OMap (fun v => v) 4); (4, OMap (fun v => v) 9);
    (8, OCancel); (9, OTerminate) ].
Definition ex_cancel : workflow := ex_workflow 0 1 9 ex_cancel_nodes.

Theorem C41_cancel_refuted : built ex_cancel /\
  let alone := flush 100 ex_cancel (xrun ex_cancel [XStart 21 (VErr VUnit)] (fresh ex_cancel)) in
  let first := flush 100 ex_cancel (xrun ex_cancel [XStart 20 (VOk VUnit)] (fresh ex_cancel)) in
  let both := flush 100 ex_cancel (xrun ex_cancel [XStart 20 (VOk VUnit); XStart 21 (VErr VUnit)] (fresh ex_cancel)) in
  quiet alone /\ quiet first /\ quiet both /\
  endings alone 21 = [EOut 21 VUnit] /\ endings first 20 = [EOut 20 VUnit] /\
  endings both 20 = [EOut 20 VUnit] /\ endings both 21 = [ECancelled 21 cause_broken].
Proof.
  split; [apply ex_built; vm_compute; reflexivity|]. vm_compute. repeat split; reflexivity.
Qed.
Print Assumptions C41_cancel_refuted.

(** What remains: workflows without collects, in which every request comes to at most one
    result and nothing that comes of a request is for a cancelling node (this depends on the
    nodes and connections alone). Then the
    outcome of a session is given by its request: whatever other sessions run, in whatever
    order, and whoever else is cancelled. Missing: requests with more than one result, for
    which the claim is false (above). *)
Theorem C41_outcome_partial f acts s v l :
  built f -> collect_free f ->
  (forall s' v' n w, In (XStart s' v') acts -> occurs f (f_entry f) v' n w -> f_kind f n <> Some OCancel) ->
  (forall s' v', In (XStart s' v') acts ->
     exists l', yields f (f_entry f) v' l' /\ length l' <= 1 /\ ~ In RBreaks l') ->
  let x := xrun f acts (fresh f) in
  quiet x -> started x s v -> ~ In (XCancel s) acts -> yields f (f_entry f) v l ->
  match l with
  | [RValue r] => endings x s = [EOut s r]
  | _ => exists c, endings x s = [ECancelled s c]
  end.
Proof. intros Hb H1 H2 Ha. exact (outcome f acts s v l Hb H1 Ha (fun s' v' H n w => H2 s' v' n w H)). Qed.
Print Assumptions C41_outcome_partial.

(** So two runs which have nothing but this session in common agree. *)
Theorem C41_same_outcome_partial f acts1 acts2 s v :
  built f -> collect_free f ->
  (forall s' v' n w, In (XStart s' v') (acts1 ++ acts2) -> occurs f (f_entry f) v' n w -> f_kind f n <> Some OCancel) ->
  (forall s' v', In (XStart s' v') (acts1 ++ acts2) ->
     exists l', yields f (f_entry f) v' l' /\ length l' <= 1 /\ ~ In RBreaks l') ->
  let x1 := xrun f acts1 (fresh f) in
  let x2 := xrun f acts2 (fresh f) in
  quiet x1 -> quiet x2 -> started x1 s v -> started x2 s v -> ~ In (XCancel s) (acts1 ++ acts2) ->
  (exists r, endings x1 s = [EOut s r] /\ endings x2 s = [EOut s r]) \/
  (exists c1 c2, endings x1 s = [ECancelled s c1] /\ endings x2 s = [ECancelled s c2]).
Proof.
  intros Hb H1 H2 Ha x1 x2 Q1 Q2 S1 S2 Hc.
  assert (Hy : exists l, yields f (f_entry f) v l).
  { destruct (run_starts f s v acts1 (fresh f) S1) as [[]|H]. destruct (Ha s v (in_or_app _ _ _ (or_introl H))) as [l [Y _]]. eauto. }
  destruct Hy as [l Y].
  assert (A1 : forall s' v', In (XStart s' v') acts1 -> tame f v') by (intros s' v' H; apply (Ha s'), in_or_app; auto).
  assert (A2 : forall s' v', In (XStart s' v') acts2 -> tame f v') by (intros s' v' H; apply (Ha s'), in_or_app; auto).
  assert (G1 : forall s' v', In (XStart s' v') acts1 -> gentle f v') by (intros s' v' H n w; apply (H2 s'), in_or_app; auto).
  assert (G2 : forall s' v', In (XStart s' v') acts2 -> gentle f v') by (intros s' v' H n w; apply (H2 s'), in_or_app; auto).
  pose proof (outcome f acts1 s v l Hb H1 A1 G1 Q1 S1 (fun H => Hc (in_or_app _ _ _ (or_introl H))) Y) as O1.
  pose proof (outcome f acts2 s v l Hb H1 A2 G2 Q2 S2 (fun H => Hc (in_or_app _ _ _ (or_intror H))) Y) as O2.
  unfold ends_with in O1, O2. destruct l as [|[r| |] [|b l]];
    try (left; exists r; split; assumption); destruct O1 as [c1 O1], O2 as [c2 O2]; right; eauto.
Qed.
Print Assumptions C41_same_outcome_partial.

(** Nothing is reported as broken in such a workflow, whatever is cancelled. *)
Theorem C41_not_broken_partial f acts :
  built f -> collect_free f ->
  (forall s' v' n w, In (XStart s' v') acts -> occurs f (f_entry f) v' n w -> f_kind f n <> Some OCancel) ->
  (forall s' v', In (XStart s' v') acts ->
     exists l', yields f (f_entry f) v' l' /\ length l' <= 1 /\ ~ In RBreaks l') ->
  forall n, ~ In (EBroken n) (x_log (xrun f acts (fresh f))).
Proof. intros Hb H1 H2 Ha. exact (y_log _ _ (proj1 (tidy_run f acts Hb H1 Ha (fun s' v' H n w => H2 s' v' n w H)))). Qed.
Print Assumptions C41_not_broken_partial.

(** Two sessions in a workflow with a cycle; both are finished by the flush loop. Small
    numbers are cloned, one copy is dropped, the other goes round. *)
Definition ex_round_nodes : list (entity * okind) :=
  [ (1, OBranch (fun v => Some (if Nat.leb 3 (num v) then (Some v, None) else (None, Some v))) 9 2);
    (2, OForkClone [3; 4]);
    (3, OMap (fun v => VAtom (S (num v))) 1);
    (4, OFilter (fun _ => None) 9);
    (9, OTerminate) ].
Definition ex_round : workflow := ex_workflow 0 1 9 ex_round_nodes.

Lemma ex_round_yields n : n <= 3 -> yields ex_round 1 (VAtom n) [RValue (VAtom 3)].
Proof.
  assert (H3 : yields ex_round 1 (VAtom 3) [RValue (VAtom 3)]).
  { eapply Y_sends; [reflexivity|reflexivity|]. apply (Y_cons _ _ _ _ [RValue (VAtom 3)] []); [apply (Y_out ex_round)|constructor]. }
  assert (Hn : forall n, n < 3 -> yields ex_round 1 (VAtom (S n)) [RValue (VAtom 3)] ->
             yields ex_round 1 (VAtom n) [RValue (VAtom 3)]).
  { intros m Hm Y. eapply (Y_sends _ 1 _ (VAtom m) [(2, VAtom m)] true); [reflexivity| |].
    - cbn. destruct m as [|[|[|]]]; try reflexivity. lia.
    - apply (Y_cons _ _ _ _ [RValue (VAtom 3)] []); [|constructor].
      eapply Y_sends; [reflexivity|reflexivity|]. apply (Y_cons _ _ _ _ [RValue (VAtom 3)] []).
      + eapply Y_sends; [reflexivity|reflexivity|]. apply (Y_cons _ _ _ _ [RValue (VAtom 3)] []); [exact Y|constructor].
      + apply (Y_cons _ _ _ _ [] []); [|constructor]. eapply Y_sends; [reflexivity|reflexivity|constructor]. }
  intros H. assert (H2 : yields ex_round 1 (VAtom 2) [RValue (VAtom 3)]) by (apply Hn; [lia|exact H3]).
  assert (H1 : yields ex_round 1 (VAtom 1) [RValue (VAtom 3)]) by (apply Hn; [lia|exact H2]).
  destruct n as [|[|[|[|n]]]]; [apply Hn; [lia|exact H1]|exact H1|exact H2|exact H3|lia].
Qed.

Example C41_case : built ex_round /\ collect_free ex_round /\
  (forall v n w, occurs ex_round (f_entry ex_round) v n w -> f_kind ex_round n <> Some OCancel) /\
  (forall n, n <= 3 -> exists l', yields ex_round (f_entry ex_round) (VAtom n) l' /\ length l' <= 1 /\ ~ In RBreaks l') /\
  exists acts, let x := xrun ex_round ([XStart 20 (VAtom 1); XStart 21 (VAtom 0)] ++ acts) (fresh ex_round) in
    quiet x /\ started x 20 (VAtom 1) /\ started x 21 (VAtom 0) /\
    endings x 20 = [EOut 20 (VAtom 3)] /\ endings x 21 = [EOut 21 (VAtom 3)].
Proof.
  split; [apply ex_built; vm_compute; reflexivity|].
  split; [intros n; unfold is_collect; cbn; unfold emap_set; repeat (destruct (Nat.eqb _ _); [reflexivity|]); reflexivity|].
  split; [intros v n w _; cbn; unfold emap_set; repeat (destruct (Nat.eqb _ _); [discriminate|]); discriminate|].
  split.
  { intros n Hn. exists [RValue (VAtom 3)]. split; [apply ex_round_yields, Hn|]. split; [reflexivity|].
    intros [H|[]]; discriminate. }
  exists (repeat XExec 40 ++ repeat XNotice 40). vm_compute. repeat split; auto.
Qed.

(** ** C56: what comes out is what the connections say *)
(** A response is a value which the nodes make of the request, one after the other along
    the connections. *)
Theorem C56_response_partial f acts s r : built f ->
  let x := xrun f acts (fresh f) in
  In (EOut s r) (x_log x) ->
  exists v, started x s v /\ (forall v', started x s v' -> v' = v) /\ occurs f (f_entry f) v (f_terminal f) r.
Proof.
  intros Hb x Hin. destruct (traced_run f acts Hb) as [T _]. fold x in T.
  destruct (t_log _ _ _ T _ Hin) as [v [Hv Ho]]. exists v. split; [exact Hv|]. split; [|exact Ho].
  intros v' Hv'. exact (t_once _ _ _ T s v' v Hv' Hv).
Qed.
Print Assumptions C56_response_partial.

(** Every cancellation has its reason: a node cancels the session for a value that came to
    it; nothing can come to the terminal any more (shown for workflows without collects: no
    value at all comes to the terminal, neither before nor later); a node was broken; there
    are two collects in a cycle; or the session was cancelled from outside. *)
Theorem C56_cancelled_partial f acts s v c : built f ->
  let x := xrun f acts (fresh f) in
  started x s v -> In (ECancelled s c) (x_log x) ->
  ((c = cause_triggered \/ c = cause_filtered) /\ exists n, occurs_with f (f_entry f) v n Cancels) \/
  (c = cause_unreachable /\ (collect_free f -> forall r, ~ occurs f (f_entry f) v (f_terminal f) r)) \/
  (c = cause_broken /\ exists n, In (EBroken n) (x_log x)) \/
  (c = cause_circular /\ collects_in_cycle f) \/
  (c = cause_external /\ In (XCancel s) acts).
Proof.
  intros Hb x Hs Hin. destruct (traced_run f acts Hb) as [T _]. fold x in T.
  destruct (t_log _ _ _ T _ Hin) as [c v' n Hc Hv' Ho|H|n H|H|H].
  - left. rewrite (t_once _ _ _ T s v' v Hv' Hs) in Ho. eauto.
  - right. left. split; [reflexivity|]. intros Hc. destruct (H Hc) as [v' [Hv' Hno]].
    rewrite (t_once _ _ _ T s v' v Hv' Hs) in Hno. exact Hno.
  - right. right. left. eauto.
  - right. right. right. left. split; [reflexivity|]. apply circular_cycle; assumption.
  - right. right. right. right. auto.
Qed.
Print Assumptions C56_cancelled_partial.

(** A node is only reported as broken for one of these reasons: a cancelling node whose
    message is gone, a value which is not of the node's type, or a second response. No node
    panics. *)
Theorem C56_broken_partial f acts : built f ->
  let x := xrun f acts (fresh f) in
  (forall n, In (EBroken n) (x_log x) ->
     f_kind f n = Some OCancel \/
     (exists s v, started x s v /\ occurs_with f (f_entry f) v n Breaks) \/
     (n = f_terminal f /\ exists s v r w, started x s v /\ In (EOut s r) (x_log x) /\ occurs f (f_entry f) v n w)) /\
  (forall n, ~ In (EPanic n) (x_log x)).
Proof.
  intros Hb x. destruct (traced_run f acts Hb) as [T _]. fold x in T. split.
  - intros n Hin. exact (t_log _ _ _ T _ Hin).
  - intros n Hin. exact (t_log _ _ _ T _ Hin).
Qed.
Print Assumptions C56_broken_partial.

Example C56_case :
  (let x := flush 40 ex_loop (xrun ex_loop [XStart 20 (VList [VAtom 5; VAtom 1]); XStart 21 (VList [])] (fresh ex_loop)) in
   In (EOut 20 (VList [VAtom 5; VAtom 3])) (x_log x) /\ In (ECancelled 21 cause_unreachable) (x_log x)) /\
  (let x := flush 100 ex_cancel (xrun ex_cancel [XStart 20 (VOk VUnit); XStart 21 (VErr VUnit)] (fresh ex_cancel)) in
   In (EBroken 8) (x_log x) /\ In (ECancelled 21 cause_broken) (x_log x)).
Proof. vm_compute. intuition. Qed.
