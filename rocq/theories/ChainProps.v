(** C79: workflows written as chains do what the chains say. *)
From Verif Require Import Base RosterModel BufferModel InputModel InputSpec InputProofs GateModel
  OpsModel OpsSpec OpsProofs ReachModel ReachSpec ReachProofs ExecModel ExecSpec ExecProofs ExecProofs2 ExecProofs3
  ExecProofs4 ExecProofs5 ExecProofs8 ExecProps RestProofs RestProofs2 ChainModel ChainSpec ChainProofs ChainProofs2 ChainProofs3.

(** ** Any program that can be written is a proper workflow *)
Theorem C79_builds_partial p : proper_program p ->
  built (workflow_of p) /\ collect_free (workflow_of p).
Proof. intros P. split; [exact (program_built p P)|exact (program_no_collect p P)]. Qed.
Print Assumptions C79_builds_partial.

(** What the chains say is what comes of the messages. *)
Theorem C79_results_partial p v l : proper_program p -> means p (p_main p) v l ->
  yields (workflow_of p) (f_entry (workflow_of p)) v l.
Proof. exact (program_yields p v l). Qed.
Print Assumptions C79_results_partial.

(** ** Whatever else happens, a response is one of the results of the request *)
Theorem C79_response_partial p acts s v l r : proper_program p -> means p (p_main p) v l ->
  let f := workflow_of p in let x := xrun f acts (fresh f) in
  started x s v -> In (EOut s r) (x_log x) -> In (RValue r) l.
Proof.
  intros P M f x Hs Ho. pose proof (program_built p P) as Hb.
  destruct (C56_response_partial f acts s r Hb Ho) as (u & Hu & U & Oc). rewrite <- (U v Hs) in Oc.
  exact (occurs_result f Hb (program_no_collect p P) _ _ _ _ (program_yields p v l P M) Oc).
Qed.
Print Assumptions C79_response_partial.

(** A request for which the chains say nothing is cancelled for that reason only: nothing
    can come to the end any more. *)
Theorem C79_nothing_partial p acts s v c : proper_program p -> means p (p_main p) v [] ->
  let f := workflow_of p in let x := xrun f acts (fresh f) in
  started x s v -> In (ECancelled s c) (x_log x) ->
  c = cause_unreachable \/ (c = cause_broken /\ exists n, In (EBroken n) (x_log x)) \/ (c = cause_external /\ In (XCancel s) acts).
Proof.
  intros P M f x Hs Hc. pose proof (program_built p P) as Hb. pose proof (program_no_collect p P) as Hf.
  pose proof (program_yields p v [] P M) as Y.
  destruct (C56_cancelled_partial f acts s v c Hb Hs Hc) as [[_ [n O]]|[[E _]|[H|[[_ H]|H]]]]; auto.
  - destruct (occurs_cancelled f Hb Hf _ _ _ _ Y O).
  - destruct (no_collect_cycle f Hf H).
Qed.
Print Assumptions C79_nothing_partial.

(** ** Programs with one response at most: the outcome is what the chains say *)
Definition outcome_is (x : xworld) (s : entity) (l : list result) : Prop :=
  match l with
  | [RValue r] => endings x s = [EOut s r]
  | [] => endings x s = [ECancelled s cause_unreachable]
  | _ => exists c, endings x s = [ECancelled s c] /\ (c = cause_triggered \/ c = cause_filtered \/ c = cause_unreachable)
  end.

Theorem C79_outcome_partial p acts s v l : proper_program p -> single p -> without_cancel p ->
  (forall s' v', In (XStart s' v') acts -> exists l', means p (p_main p) v' l') ->
  let f := workflow_of p in let x := xrun f acts (fresh f) in
  quiet x -> started x s v -> ~ In (XCancel s) acts -> means p (p_main p) v l -> outcome_is x s l.
Proof.
  intros P Si V Ha f x Q Hs Hc M. pose proof (program_built p P) as Hb. pose proof (program_no_collect p P) as Hf.
  pose proof (program_no_cancel p V) as Hn. pose proof (program_yields p v l P M) as Y. fold f in Hb, Hf, Hn, Y.
  assert (Ht : forall s' v', In (XStart s' v') acts -> exists l', yields f (f_entry f) v' l' /\ length l' <= 1 /\ ~ In RBreaks l').
  { intros s' v' Hin. destruct (Ha s' v' Hin) as [l' M']. exists l'. split; [exact (program_yields p v' l' P M')|].
    split; [exact (single_means p v' l' Si M')|exact (means_sound p _ _ _ M')]. }
  pose proof (C41_outcome_partial f acts s v l Hb Hf (fun _ _ n _ _ _ => Hn n) Ht Q Hs Hc Y) as O. fold x in O.
  assert (R : forall c, endings x s = [ECancelled s c] -> In RCancelled l /\ (c = cause_triggered \/ c = cause_filtered) \/ c = cause_unreachable).
  { intros c E. assert (Hin : In (ECancelled s c) (x_log x)).
    { assert (H : In (ECancelled s c) (endings x s)) by (rewrite E; left; reflexivity). apply filter_In in H. tauto. }
    destruct (C56_cancelled_partial f acts s v c Hb Hs Hin) as [[H [n Oc]]|[[H _]|[[_ [n H]]|[[_ H]|[_ H]]]]]; auto.
    - left. split; [exact (occurs_cancelled f Hb Hf _ _ _ _ Y Oc)|exact H].
    - destruct (C41_not_broken_partial f acts Hb Hf (fun _ _ n _ _ _ => Hn n) Ht n H).
    - destruct (no_collect_cycle f Hf H).
    - destruct (Hc H). }
  unfold outcome_is. destruct l as [|[r| |] [|b l]].
  - destruct O as [c E]. destruct (R c E) as [[[] _]| ->]. exact E.
  - exact O.
  - destruct O as [c E]. exists c. split; [exact E|]. destruct (R c E) as [[_ [H|H]]|H]; auto.
  - destruct O as [c E]. exists c. split; [exact E|]. destruct (R c E) as [[_ [H|H]]|H]; auto.
  - destruct O as [c E]. exists c. split; [exact E|]. destruct (R c E) as [[_ [H|H]]|H]; auto.
  - destruct O as [c E]. exists c. split; [exact E|]. destruct (R c E) as [[_ [H|H]]|H]; auto.
  - destruct O as [c E]. exists c. split; [exact E|]. destruct (R c E) as [[_ [H|H]]|H]; auto.
Qed.
Print Assumptions C79_outcome_partial.

(** Responses have the type of the workflow. *)
Theorem C79_response_type_partial p q r acts s v l u : proper_program p -> typed_program p q r ->
  fits q v -> means p (p_main p) v l ->
  let f := workflow_of p in let x := xrun f acts (fresh f) in
  started x s v -> In (EOut s u) (x_log x) -> fits r u.
Proof.
  intros P (ins & outs & Tm & _ & HN) F M f x Hs Ho.
  pose proof (C79_response_partial p acts s v l u P M Hs Ho) as Hin.
  refine (means_typed p r ins _ _ _ _ M q Tm F u Hin).
  intros i g c Hi. destruct (HN i g c Hi) as (a & b & E1 & _ & Hm & Hc). eauto.
Qed.
Print Assumptions C79_response_type_partial.

(** ** Total correctness: for programs which fit together by their types, without loops and
    with one response at most, nothing is left to assume. Whatever requests of the right
    type come, whenever they come, and whatever happened between, the flush ends, everyone
    who asked has a session, and each session which nobody cancelled ends with what the
    chains say. *)
Theorem C79_total_partial p q r acts : proper_program p -> typed_program p q r -> forward_program p -> single p -> without_cancel p ->
  (forall s v, In (XStart s v) acts -> fits q v) ->
  exists n, forall m, n <= m -> let f := workflow_of p in let x := flush m f (xrun f acts (fresh f)) in
    quiet x /\
    forall s v, In (XStart s v) acts -> exists u l, started x s u /\ fits q u /\ means p (p_main p) u l /\
      (forall w, In (RValue w) l -> fits r w) /\
      (~ In (XCancel s) acts -> outcome_is x s l).
Proof.
  intros P T W Si V Ha. set (f := workflow_of p). pose proof (program_built p P) as Hb. pose proof (program_no_collect p P) as Hf.
  assert (Tot : forall v, fits q v -> exists l, means p (p_main p) v l) by exact (typed_total p q r T W (forward_any _)).
  destruct (flush_rests f acts Hb Hf) as [n Hn].
  { intros s v Hin. destruct (Tot v (Ha s v Hin)) as [l M]. exists l. exact (program_yields p v l P M). }
  exists n. intros m Hm. cbn zeta. fold f. set (x := flush m f (xrun f acts (fresh f))).
  pose proof (Hn m Hm) as Q. fold x in Q. split; [exact Q|]. intros s v Hin.
  destruct (flush_inner f m (xrun f acts (fresh f))) as [a [Fa Ea]]. rewrite <- xrun_app in Ea. fold x in Ea.
  destruct (run_started f (acts ++ a) s v Hb Hf (in_or_app _ _ _ (or_introl Hin))) as [u Hu]. rewrite <- Ea in Hu.
  assert (Fu : fits q u).
  { rewrite Ea in Hu. destruct (run_starts f s u (acts ++ a) (fresh f) Hu) as [[]|H]. exact (Ha s u (inner_start acts a s u Fa H)). }
  destruct (Tot u Fu) as [l M]. exists u, l. split; [exact Hu|]. split; [exact Fu|]. split; [exact M|]. split.
  - destruct T as (ins & outs & Tm & _ & HN). intros w Hw. refine (means_typed p r ins _ _ _ _ M q Tm Fu w Hw).
    intros i g c Hi. destruct (HN i g c Hi) as (a0 & b & E1 & _ & Hm' & Hc). eauto.
  - intros Hc. rewrite Ea in Q, Hu |- *. apply (C79_outcome_partial p (acts ++ a) s u l P Si V); auto.
    + intros s' v' H. apply Tot, (Ha s' v'), (inner_start acts a s' v' Fa H).
    + intros H. apply Hc, (inner_cancel acts a s Fa H).
Qed.
Print Assumptions C79_total_partial.

(** ** The functions which are put together from others *)
(** [connect_on_err] is [?]: an error is the response, everything else goes on. *)
Theorem C79_question_mark_partial p c w l :
  (means p (connect_on_err SEnd c) (VErr w) l <-> l = [RValue (VErr w)]) /\
  (means p (connect_on_err SEnd c) (VOk w) l <-> means p c w l) /\
  (means p (connect_on_none SEnd c) VNone l <-> l = [RValue VNone]) /\
  (means p (connect_on_none SEnd c) (VSome w) l <-> means p c w l).
Proof.
  assert (A : forall (g : val -> val) u l, means p (CStep (SMap g) (CConnect SEnd)) u l <-> l = [RValue (g u)]).
  { intros g u l'. split.
    - intros M. inversion M; subst; match goal with H : does _ _ _ |- _ => inversion H; subst end.
      match goal with H : means_all _ _ _ |- _ => inversion H; subst end.
      match goal with H : means_all _ _ _ |- _ => inversion H; subst end.
      match goal with H : means _ (CConnect SEnd) _ _ |- _ => inversion H; subst end.
      match goal with H : means_all _ [] _ |- _ => inversion H; subst end. reflexivity.
    - intros ->. eapply M_goes; [constructor|]. apply (M_cons p _ _ [] [RValue (g u)] []); constructor. }
  unfold connect_on_err, connect_on_none.
  split; [|split; [|split]]; split; intros H.
  - inversion H; subst. apply (A VErr). assumption.
  - apply M_for_err, (A VErr), H.
  - inversion H; subst. assumption.
  - apply M_not_err, H.
  - inversion H; subst. apply (A (fun _ => VNone) VUnit). assumption.
  - apply M_for_none, (A (fun _ => VNone) VUnit), H.
  - inversion H; subst. assumption.
  - apply M_not_none, H.
Qed.
Print Assumptions C79_question_mark_partial.

(** Filters: what the function gives goes on; otherwise the session is cancelled, or
    nothing goes on. *)
Theorem C79_filters_partial p (g : val -> option val) c v l :
  let h := fun v => match g v with Some u => VSome u | None => VNone end in
  (means p (cancellation_filter h c) v l <->
     match g v with Some u => means p c u l | None => l = [RCancelled] end) /\
  (means p (disposal_filter h c) v l <->
     match g v with Some u => means p c u l | None => l = [] end).
Proof.
  cbn zeta. set (h := fun v => match g v with Some u => VSome u | None => VNone end).
  assert (A : forall s c' l, means p (CStep (SMap h) (CStep s c')) v l <-> means p (CStep s c') (h v) l).
  { intros s c' l'. split; intros M.
    - inversion M; subst; match goal with H : does (SMap _) _ _ |- _ => inversion H; subst end.
      match goal with H : means_all _ _ _ |- _ => inversion H; subst end.
      match goal with H : means_all _ [] _ |- _ => inversion H; subst end. rewrite app_nil_r. assumption.
    - eapply M_goes; [constructor|]. rewrite <- (app_nil_r l'). constructor; [exact M|constructor]. }
  assert (B : forall s u l', does s (VSome u) (Goes [u]) -> (forall d, does s (VSome u) d -> d = Goes [u]) ->
     (means p (CStep s c) (VSome u) l' <-> means p c u l')).
  { intros s u l' D U. split; intros M.
    - inversion M; subst; match goal with H : does s _ _ |- _ => pose proof (U _ H) as X end; [|discriminate]. injection X as ->.
      match goal with H : means_all _ _ _ |- _ => inversion H; subst end.
      match goal with H : means_all _ [] _ |- _ => inversion H; subst end. rewrite app_nil_r. assumption.
    - eapply M_goes; [exact D|]. rewrite <- (app_nil_r l'). constructor; [exact M|constructor]. }
  unfold cancellation_filter, disposal_filter. rewrite !A. unfold h. destruct (g v) as [u|].
  - split; apply B; try constructor; intros d D; inversion D; reflexivity.
  - split; split; intros H.
    + inversion H; subst; match goal with D : does _ _ _ |- _ => inversion D; subst end. reflexivity.
    + subst. apply M_stops. constructor.
    + inversion H; subst; match goal with D : does _ _ _ |- _ => inversion D; subst end.
      match goal with X : means_all _ _ _ |- _ => inversion X; subst end. reflexivity.
    + subst. eapply M_goes; constructor.
Qed.
Print Assumptions C79_filters_partial.

(** ** Cases *)
(** Results of numbers; errors are the response, even numbers go through a node, odd ones
    are dropped; beside it a branch whose output is not used. *)
Definition half (v : val) : val :=
  match v with VAtom n => if Nat.even n then VSome (VAtom (Nat.div2 n)) else VNone | _ => VNone end.
Definition ex_chain : program :=
  mk_program
    (connect_on_err SEnd (CBranchClone (CStep (SMap (fun v => v)) CUnused) (CConnect (SNode 0))))
    [ (half, CStep SDisposeOnNone (CConnect (SNode 1)));
      (VOk, CStep SNoop (CConnect SEnd)) ].

Lemma ex_chain_proper : proper_program ex_chain.
Proof. split; repeat constructor; cbn; lia. Qed.
Lemma ex_chain_single : single ex_chain.
Proof.
  exists [1; 1]. split.
  - apply N_for_err; [apply N_map, N_end; lia|]. eapply (N_branch_clone _ _ _ 1 0); [|apply N_map, N_unused|lia].
    eapply N_node; [reflexivity|lia].
  - intros [|[|i]] g c E; cbn in E; [| |destruct i; discriminate]; injection E as <- <-; exists 1; split; try reflexivity.
    + apply N_dispose; [cbn; tauto|]. eapply N_node; [reflexivity|lia].
    + apply N_dispose; [cbn; tauto|]. apply N_end. lia.
Qed.
Lemma ex_chain_typed : typed_program ex_chain (TResult TAtom TUnit) (TResult TAtom TUnit).
Proof.
  exists [TAtom; TAtom], [TOption TAtom; TResult TAtom TUnit]. split; [|split; [reflexivity|]].
  - apply T_for_err.
    + apply T_branch_clone; [apply T_node; reflexivity|]. eapply T_step; [apply (T_map _ TAtom TAtom); intros v F; exact F|]. apply T_unused.
    + eapply T_step; [|apply T_end]. apply T_map. intros v F. constructor. exact F.
  - intros [|[|i]] g c E; cbn in E; [| |destruct i; discriminate]; injection E as <- <-; do 2 eexists;
      (split; [reflexivity|split; [reflexivity|split]]).
    + intros v F. inversion F; subst. cbn. destruct (Nat.even n); repeat constructor.
    + eapply T_step; [apply T_on_none|]. apply T_node. reflexivity.
    + intros v F. constructor. exact F.
    + eapply T_step; [apply T_noop|]. apply T_end.
Qed.

Example C79_case : proper_program ex_chain /\ single ex_chain /\ typed_program ex_chain (TResult TAtom TUnit) (TResult TAtom TUnit) /\
  forward_program ex_chain /\ without_cancel ex_chain /\
  let acts := [XStart 20 (VOk (VAtom 6)); XExec; XStart 21 (VErr VUnit); XExec; XStart 22 (VOk (VAtom 7)); XStart 23 (VOk (VAtom 2)); XCancel 23] in
  (forall s v, In (XStart s v) acts -> fits (TResult TAtom TUnit) v) /\
  let f := workflow_of ex_chain in let x := flush 100 f (xrun f acts (fresh f)) in
  quiet x /\ endings x 20 = [EOut 20 (VOk (VAtom 3))] /\ endings x 21 = [EOut 21 (VErr VUnit)] /\
  endings x 22 = [ECancelled 22 cause_unreachable] /\ endings x 23 = [ECancelled 23 cause_external].
Proof.
  split; [exact ex_chain_proper|]. split; [exact ex_chain_single|]. split; [exact ex_chain_typed|].
  split; [intros [|[|i]] g c E; cbn in E; [| |destruct i; discriminate]; injection E as <- <-; repeat constructor|].
  split; [split; [repeat constructor|]; intros g c [E|[E|[]]]; injection E as <- <-; repeat constructor|].
  split.
  { intros s v H. cbn in H. repeat (destruct H as [H|H]; [try discriminate; injection H as <- <-; repeat constructor|]). destruct H. }
  vm_compute. repeat split; reflexivity.
Qed.

(** A loop: down to zero, then the response. Every number comes to one result. *)
Definition down (v : val) : val := match v with VAtom (S n) => VSome (VAtom n) | _ => VNone end.
Definition ex_loop : program :=
  mk_program (CConnect (SNode 0)) [ (down, CForkOption (CConnect (SNode 0)) (CConnect SEnd)) ].
Lemma ex_loop_means n : means ex_loop (p_main ex_loop) (VAtom n) [RValue VUnit].
Proof.
  induction n as [|n IH]; eapply M_node; try reflexivity.
  - cbn. apply M_none. constructor.
  - cbn. apply M_some. exact IH.
Qed.
Example C79_loop_case : proper_program ex_loop /\ single ex_loop /\ without_cancel ex_loop /\
  (forall n, exists l, means ex_loop (p_main ex_loop) (VAtom n) l) /\
  let f := workflow_of ex_loop in
  exists acts, let x := xrun f ([XStart 20 (VAtom 4)] ++ acts) (fresh f) in
  quiet x /\ started x 20 (VAtom 4) /\ endings x 20 = [EOut 20 VUnit].
Proof.
  split; [split; repeat constructor; cbn; lia|].
  split.
  { exists [1]. split; [eapply N_node; [reflexivity|lia]|]. intros [|i] g c E; cbn in E; [|destruct i; discriminate].
    injection E as <- <-. exists 1. split; [reflexivity|]. apply N_fork_option; [eapply N_node; [reflexivity|lia]|apply N_end; lia]. }
  split; [split; [repeat constructor|]; intros g c [E|[]]; injection E as <- <-; repeat constructor|].
  split; [intros n; eexists; apply ex_loop_means|].
  exists (repeat XExec 12 ++ repeat XNotice 6). vm_compute. repeat split; auto.
Qed.

(** A program that says nothing, and one with two results of which one is the response. *)
Example C79_more_cases :
  let p0 := mk_program (CStep SDisposeOnErr (CConnect SEnd)) [] in
  let p2 := mk_program (CForkClone [CStep (SMap VOk) (CConnect SEnd); CConnect SEnd]) [] in
  proper_program p0 /\ means p0 (p_main p0) (VErr VUnit) [] /\
  (let f := workflow_of p0 in let x := flush 20 f (xrun f [XStart 20 (VErr VUnit)] (fresh f)) in
   endings x 20 = [ECancelled 20 cause_unreachable]) /\
  proper_program p2 /\ means p2 (p_main p2) VUnit [RValue (VOk VUnit); RValue VUnit] /\
  (let f := workflow_of p2 in let x := flush 20 f (xrun f [XStart 20 VUnit] (fresh f)) in
   started x 20 VUnit /\ endings x 20 = [EOut 20 VUnit]).
Proof.
  cbn zeta. split; [split; repeat constructor|].
  split; [eapply M_goes; constructor|]. split; [vm_compute; reflexivity|].
  split; [split; repeat constructor|]. split.
  - apply M_clone. apply (M_cons _ _ _ _ [RValue (VOk VUnit)] [RValue VUnit]).
    + eapply M_goes; [constructor|]. apply (M_cons _ _ _ [] [RValue (VOk VUnit)] []); constructor.
    + apply (M_cons _ _ _ [] [RValue VUnit] []); constructor.
  - vm_compute. split; auto.
Qed.
