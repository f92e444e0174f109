(** Proofs about workflow services: how runs end, and that waiting requests come to be served. *)
From Verif Require Import Base DeliveryModel DeliverySpec DeliveryProofs ScopeModel
  WorkflowModel WorkflowSpec WorkflowProofs.

Section Workflow.
Context {V : Type}.
Variable d0 : delivery V.
Implicit Types (w : wsrv V) (r : wrun V) (o : order V) (L : list (wevent V)) (e : wevent V).
Notation WInv := (WInv d0).

(** ** Shapes *)
Definition wreceive w (n s : entity) (i : option instr) (v : V) (d : delivery V) es : wsrv V :=
  mk_wsrv d (wf_runs w) (wf_live w ++ [(wf_next w, s)]) (S (wf_next w))
    (wf_log w ++ WReq (wf_next w) n s i v :: es).

Lemma wserve_shape base w n s i v : WInv base [] w ->
  let id := wf_next w in
  let o := mk_order n s id v i in
  let d := wf_del w in
  (exists d', wserve w n s i v = wbegin (wreceive w n s i v d' []) id n s i (expected d0 i) v /\
     ((lane d0 i = None /\ d' = d) \/
      exists k, lane d0 i = Some k /\ s_delivering (serial_at d k) = None /\
        d' = upd d k (mk_serial (Some (active_of o)) []))) \/
  (exists k a, lane d0 i = Some k /\ s_delivering (serial_at d k) = Some a /\
     (forall inc, i = Some inc -> i_preempt inc = false) /\
     wserve w n s i v
     = wreceive w n s i v (upd d k (mk_serial (Some a) (s_queue (serial_at d k) ++ [o]))) []) \/
  (exists k a inc, lane d0 i = Some k /\ s_delivering (serial_at d k) = Some a /\
     i = Some inc /\ i_preempt inc = true /\
     let f := fun c => should_discard inc (d_instr c) in
     let w2 := wreceive w n s i v
       (upd d k (mk_serial (Some a) (filter (fun c => negb (f c)) (s_queue (serial_at d k)) ++ [o])))
       (map (fun c => WDisp (d_task c) (d_source c) (d_session c) n s) (filter f (s_queue (serial_at d k)))) in
     wserve w n s i v
     = if should_discard inc (a_instr a) then wcancel w2 (a_session a) (WSupplanted n s) else w2).
Proof.
  intros I id o d. unfold wserve. cbn [wf_del wf_runs wf_live wf_next wf_log]. fold id. fold o. fold d.
  assert (Ek : forall j, lane d j = lane d0 j) by (intros j; apply kind_lane, I).
  destruct (lane d0 i) as [k|] eqn:Hl.
  - rewrite (insert_lane d o k) by (rewrite Ek; exact Hl). unfold insert_serial_order.
    destruct (s_delivering (serial_at d k)) as [a|] eqn:Hd.
    + destruct i as [inc|]; cbn [d_instr o fst snd].
      * destruct (i_preempt inc) eqn:Hp; cbn [fst snd].
        -- right. right. exists k, a, inc. repeat (split; [assumption||reflexivity|]).
           unfold wreceive, wsay, wset_del. cbn [wf_del wf_runs wf_live wf_next wf_log].
           rewrite map_map. cbn [st_task st_source st_session stop_order]. rewrite <- app_assoc. cbn [app].
           destruct (should_discard inc (a_instr a)); reflexivity.
        -- right. left. exists k, a. split; [reflexivity|]. split; [assumption|].
           split; [intros inc' E; injection E as <-; assumption|].
           unfold wreceive, wsay, wset_del. cbn [wf_del wf_runs wf_live wf_next wf_log map].
           rewrite app_nil_r. reflexivity.
      * right. left. exists k, a. split; [reflexivity|]. split; [assumption|]. split; [discriminate|].
        unfold wreceive, wsay, wset_del. cbn [wf_del wf_runs wf_live wf_next wf_log map].
        rewrite app_nil_r. reflexivity.
    + left. pose proof (q_idle _ _ _ _ I k Hd) as Hq. fold d in Hq. rewrite Hq. cbn [fst snd].
      exists (upd d k (mk_serial (Some (active_of o)) [])). split; [|right; exists k; auto].
      cbn [d_instr o]. rewrite (expected_immediate d0 i k Hl). reflexivity.
  - left. rewrite insert_nolane by (rewrite Ek; exact Hl). exists d. split; [|left; auto].
    rewrite (lane_none_expected d0 i Hl). reflexivity.
Qed.

Lemma begin_runs w id n s i b v :
  wf_runs (wbegin w id n s i b v) = wf_runs w ++ [mk_wrun id n s i b Ongoing None].
Proof. reflexivity. Qed.
Lemma begin_log w id n s i b v : wf_log (wbegin w id n s i b v) = wf_log w ++ [WStart id v].
Proof. reflexivity. Qed.
Lemma begin_live w id n s i b v : wf_live (wbegin w id n s i b v) = wf_live w.
Proof. reflexivity. Qed.
Lemma begin_del w id n s i b v : wf_del (wbegin w id n s i b v) = wf_del w.
Proof. reflexivity. Qed.

(** What [wserve_next] does: it drops requests from the front of the queue of a lane and begins
    the first one whose node has a target. *)
Lemma wserve_next_shape base fuel alive b : forall w, WInv base [] w -> known (wf_del w) b ->
  (forall r, In r (wf_runs w) -> lane d0 (wr_instr r) = Some (blane d0 b) -> False) ->
  length (s_queue (serial_at (wf_del w) (blane d0 b))) <= fuel ->
  let w' := wserve_next fuel alive b w in
  let k := blane d0 b in
  wf_live w' = wf_live w /\
  exists drop,
    (forall o, In o drop -> alive (d_source o) = false) /\
    ((s_queue (serial_at (wf_del w) k) = drop /\
      wf_runs w' = wf_runs w /\ wf_log w' = wf_log w ++ map (fun o => WDropped (d_task o)) drop /\
      serial_at (wf_del w') k = mk_serial None []) \/
     (exists o q, s_queue (serial_at (wf_del w) k) = drop ++ o :: q /\ alive (d_source o) = true /\
      wf_runs w' = wf_runs w ++ [mk_wrun (d_task o) (d_source o) (d_session o) (d_instr o)
        (expected d0 (d_instr o)) Ongoing None] /\
      wf_log w' = wf_log w ++ map (fun o => WDropped (d_task o)) drop ++ [WStart (d_task o) (d_request o)] /\
      serial_at (wf_del w') k = mk_serial (Some (active_of o)) q)) /\
    (forall k', k' <> k -> serial_at (wf_del w') k' = serial_at (wf_del w) k').
Proof.
  induction fuel as [|fuel IH]; intros w I Hk Hno Hf w' k; unfold w'; cbn [wserve_next];
    rewrite (pop_lane _ _ Hk), (kind_blane _ _ b (q_kind _ _ _ _ I)); unfold pop_impl; fold k in Hf; fold k;
    assert (Hv0 : valid d0 k = true)
      by (unfold k; rewrite <- (kind_blane _ _ b (q_kind _ _ _ _ I)), <- (kind_valid _ _ _ (q_kind _ _ _ _ I)); apply known_valid; assumption);
    assert (Hv : valid (wf_del w) k = true) by (rewrite (kind_valid _ _ _ (q_kind _ _ _ _ I)); assumption);
    destruct (s_queue (serial_at (wf_del w) k)) as [|o q] eqn:Eq; cbn [fst snd].
  - split; [reflexivity|]. exists []. split; [intros o []|]. cbn [wset_del wf_del wf_runs wf_log map].
    split; [left; rewrite app_nil_r, (serial_at_upd_eq _ _ _ Hv); auto|].
    intros k' E. apply serial_at_upd_neq. assumption.
  - cbn in Hf. lia.
  - split; [reflexivity|]. exists []. split; [intros o []|]. cbn [wset_del wf_del wf_runs wf_log map].
    split; [left; rewrite app_nil_r, (serial_at_upd_eq _ _ _ Hv); auto|].
    intros k' E. apply serial_at_upd_neq. assumption.
  - destruct (winv_pop d0 base w o k q I Hv0 Hno Eq) as [J El].
    destruct (alive (d_source o)) eqn:Ea.
    + split; [reflexivity|]. exists []. split; [intros o' []|]. split.
      * right. exists o, q. rewrite begin_runs, begin_log, begin_del. cbn [wset_del wf_del wf_runs wf_log map app].
        rewrite (serial_at_upd_eq _ _ _ Hv), (expected_immediate d0 _ _ El). auto.
      * intros k' E. rewrite begin_del. cbn [wset_del wf_del]. apply serial_at_upd_neq. assumption.
    + set (w1 := wsay (wset_del w (upd (wf_del w) k (mk_serial (Some (active_of o)) q))) [WDropped (d_task o)]).
      assert (J1 : WInv base [] w1).
      { apply (winv_drop d0 base _ o _ J); [exact Logic.I|reflexivity|].
        apply (hand_pending _ _ _ _ o J). left. reflexivity. }
      assert (Eq1 : s_queue (serial_at (wf_del w1) k) = q).
      { unfold w1. cbn [wsay wset_del wf_del]. rewrite serial_at_upd_eq by assumption. reflexivity. }
      destruct (IH w1 J1) as (A & drop & B & C & D).
      * unfold w1. cbn [wsay wset_del wf_del]. apply known_upd. assumption.
      * exact Hno.
      * fold k. rewrite Eq1. cbn in Hf. lia.
      * fold k in C, D. rewrite Eq1 in C. split; [exact A|]. exists (o :: drop).
        split; [intros o' [<-|Ho']; auto|]. split.
        -- destruct C as [(C1 & C2 & C3 & C4)|(o' & q' & C1 & C2 & C3 & C4 & C5)].
           ++ left. split; [congruence|]. split; [exact C2|]. split; [|exact C4].
              rewrite C3. unfold w1. cbn [wsay wset_del wf_log map]. rewrite <- app_assoc. reflexivity.
           ++ right. exists o', q'. split; [cbn [app]; congruence|]. split; [exact C2|]. split; [exact C3|].
              split; [|exact C5]. rewrite C4. unfold w1. cbn [wsay wset_del wf_log map]. rewrite <- app_assoc. reflexivity.
        -- intros k' E. rewrite (D k' E). unfold w1. cbn [wsay wset_del wf_del]. apply serial_at_upd_neq. assumption.
Qed.

(** The event at the end of a run. *)
Definition end_event (g : wconf) r (f : wfin V) : wevent V :=
  match f with
  | FinResp v => WResp (wr_id r) (wr_node r) (wr_session r) v
  | FinCancel c => if wc_top g (wr_session r) then WTold (wr_id r) (wr_session r) c
                   else WUntold (wr_id r) (wr_session r) c
  | FinEarly => WCleaned (wr_id r)
  end.

Lemma end_event_ended g r f : ended_as (end_event g r f) = Some (wr_id r, f).
Proof. destruct f; cbn; try reflexivity. destruct (wc_top g (wr_session r)); reflexivity. Qed.

Lemma end_event_quiet g r f : quiet (end_event g r f) /\ outcome (end_event g r f) = Some (wr_id r).
Proof. destruct f; cbn; auto. destruct (wc_top g (wr_session r)); cbn; auto. Qed.

Definition others w (id : entity) : list (wrun V) := filter (fun y => negb (Nat.eqb (wr_id y) id)) (wf_runs w).

Lemma wfinal_shape base g w id ex al : WInv base [] w ->
  wfinal g w id ex al = w \/
  exists r f, In r (wf_runs w) /\ wr_id r = id /\ wr_fin r = Some f /\
    ((exists v, f = FinResp v /\ ex (wr_node r) = false /\
        wfinal g w id ex al = wsay (wset_runs w (others w id)) [WLost id v]) \/
     (forall v, f = FinResp v -> ex (wr_node r) = true) /\
     wfinal g w id ex al
     = wdespawn_one (wunblock (wsay (wset_runs w (others w id)) [end_event g r f]) al (wr_block r)) id).
Proof.
  intros I. unfold wfinal. destruct (find _ (wf_runs w)) as [r|] eqn:Ef; [|left; reflexivity].
  destruct (find_run _ _ _ Ef) as [Hr <-]. destruct (wr_fin r) as [f|] eqn:Er; [|left; reflexivity].
  right. exists r, f. split; [assumption|]. split; [reflexivity|]. split; [assumption|].
  destruct f as [v|c|]; cbn [end_event].
  - destruct (ex (wr_node r)) eqn:Ee.
    + right. split; [intros v' _; reflexivity|reflexivity].
    + left. exists v. auto.
  - right. split; [discriminate|reflexivity].
  - right. split; [discriminate|reflexivity].
Qed.

(** What [wunblock] does after the end of a run. *)
Lemma wunblock_shape base w r e al : WInv base [] w -> In r (wf_runs w) -> quiet e ->
  outcome e = Some (wr_id r) -> well_timed (wf_log w) e ->
  let w1 := wsay (wset_runs w (others w (wr_id r))) [e] in
  let w' := wunblock w1 al (wr_block r) in
  (lane d0 (wr_instr r) = None /\ w' = w1) \/
  exists k drop, lane d0 (wr_instr r) = Some k /\ wf_live w' = wf_live w /\
    (forall o, In o drop -> al (d_source o) = false) /\
    ((s_queue (serial_at (wf_del w) k) = drop /\
      wf_runs w' = others w (wr_id r) /\
      wf_log w' = wf_log w ++ e :: map (fun o => WDropped (d_task o)) drop /\
      serial_at (wf_del w') k = mk_serial None []) \/
     (exists o q, s_queue (serial_at (wf_del w) k) = drop ++ o :: q /\ al (d_source o) = true /\
      wf_runs w' = others w (wr_id r) ++ [mk_wrun (d_task o) (d_source o) (d_session o) (d_instr o)
        (expected d0 (d_instr o)) Ongoing None] /\
      wf_log w' = wf_log w ++ e :: map (fun o => WDropped (d_task o)) drop ++ [WStart (d_task o) (d_request o)] /\
      serial_at (wf_del w') k = mk_serial (Some (active_of o)) q)) /\
    (forall k', k' <> k -> serial_at (wf_del w') k' = serial_at (wf_del w) k').
Proof.
  intros I Hr Q Eo Ht w1 w'. pose proof (winv_end d0 base w r e I Hr Q Eo Ht) as J. fold (others w (wr_id r)) in J. fold w1 in J.
  unfold w', wunblock. pose proof (q_block _ _ _ _ I r Hr) as Eb.
  destruct (lane d0 (wr_instr r)) as [k|] eqn:El.
  - right. destruct (lane_expected _ _ _ El) as (b & E & Ek). rewrite E in Eb. rewrite Eb.
    destruct (wserve_next_shape base (length (queued (wf_del w1))) al b w1 J) as (A & drop & B & C & D).
    + unfold w1. cbn [wsay wset_runs wf_del]. apply (act_known _ (wr_instr r)).
      * rewrite (kind_expected _ _ _ (q_kind _ _ _ _ I)). assumption.
      * rewrite (kind_blane _ _ _ (q_kind _ _ _ _ I)), Ek, (q_act _ _ _ _ I _ r Hr El). discriminate.
    + unfold w1, others. cbn [wsay wset_runs wf_runs]. rewrite Ek. intros y Hy E'. apply filter_In in Hy. destruct Hy as [Hy N].
      pose proof (one_run _ _ _ _ _ _ _ I Hr Hy El E') as ->. rewrite Nat.eqb_refl in N. discriminate.
    + apply lane_queue_length.
    + rewrite Ek in *. exists k, drop. split; [reflexivity|]. split; [exact A|]. split; [exact B|]. split; [|exact D].
      destruct C as [(C1 & C2 & C3 & C4)|(o' & q' & C1 & C2 & C3 & C4 & C5)].
      * left. split; [exact C1|]. split; [exact C2|]. split; [|exact C4]. rewrite C3. unfold w1. cbn [wsay wset_runs wf_log].
        rewrite <- app_assoc. reflexivity.
      * right. exists o', q'. split; [exact C1|]. split; [exact C2|]. split; [exact C3|]. split; [|exact C5].
        rewrite C4. unfold w1. cbn [wsay wset_runs wf_log]. rewrite <- app_assoc. reflexivity.
  - left. rewrite (lane_none_expected _ _ El) in Eb. rewrite Eb. auto.
Qed.

(** ** Logs grow *)
Lemma step_log g w a base : WInv base [] w -> exists es, wf_log (wstep g w a) = wf_log w ++ es.
Proof.
  intros I. destruct a as [n s i v|id v|s c|id ex al|s|s]; cbn [wstep].
  - destruct (wserve_shape base w n s i v I) as [(d' & E & _)|[(k & a & _ & _ & _ & E)|(k & a & inc & _ & _ & _ & _ & E)]];
      cbv zeta in E; rewrite E.
    + rewrite begin_log. unfold wreceive. cbn [wf_log]. rewrite <- app_assoc. eauto.
    + unfold wreceive. cbn [wf_log]. eauto.
    + destruct (should_discard inc (a_instr a)); unfold wcancel, wreceive; cbn [wset_runs wf_log]; eauto.
  - unfold wvalue. destruct (wlives w id); exists []; rewrite app_nil_r; reflexivity.
  - exists []. rewrite app_nil_r. reflexivity.
  - destruct (wfinal_shape base g w id ex al I) as [->|(r & f & Hr & <- & Ef & [(v & -> & _ & E)|(_ & E)])].
    + exists []. rewrite app_nil_r. reflexivity.
    + rewrite E. cbn [wsay wset_runs wf_log]. eauto.
    + rewrite E. destruct (end_event_quiet g r f) as [Q Eo].
      destruct (wunblock_shape base w r (end_event g r f) al I Hr Q Eo) as [(_ & E')|(k & drop & _ & _ & _ & C & _)].
      * pose proof (run_in_progress _ _ _ _ r I Hr) as Hp. destruct (q_info_r _ _ _ _ I r Hr) as (v0 & Hi).
        destruct f; cbn [end_event].
        -- split; [assumption|eauto].
        -- destruct (wc_top g (wr_session r)); (split; [assumption|eauto]).
        -- cbn. apply in_or_app. right. assumption.
      * unfold wdespawn_one. cbn [wset_live wf_log]. rewrite E'. cbn [wsay wset_runs wf_log]. eauto.
      * unfold wdespawn_one. cbn [wset_live wf_log].
        destruct C as [(_ & _ & -> & _)|(o & q & _ & _ & _ & -> & _)]; eauto.
  - unfold wclean. cbn [wset_runs wsay wset_del wf_log]. eauto.
  - exists []. rewrite app_nil_r. reflexivity.
Qed.

Lemma end_event_timed base g w r f : WInv base [] w -> In r (wf_runs w) -> well_timed (wf_log w) (end_event g r f).
Proof.
  intros I Hr. pose proof (run_in_progress _ _ _ _ r I Hr) as Hp. destruct (q_info_r _ _ _ _ I r Hr) as (v0 & Hi).
  destruct f; cbn [end_event].
  - split; [assumption|eauto].
  - destruct (wc_top g (wr_session r)); (split; [assumption|eauto]).
  - cbn. apply in_or_app. right. assumption.
Qed.

(** ** Considerate executions *)
Record LInv w : Prop := {
  l_run : forall r, In r (wf_runs w) -> In (wr_id r, wr_session r) (wf_live w);
  l_queue : forall o, In o (queued (wf_del w)) -> In (d_task o, d_session o) (wf_live w);
  l_status : forall r, In r (wf_runs w) -> wr_fin r = None ->
      wr_status r = Ongoing \/ wr_status r = DeferredCleanup;
  l_busy : forall k, s_delivering (serial_at (wf_del w) k) <> None ->
      exists r, In r (wf_runs w) /\ lane d0 (wr_instr r) = Some k }.

Lemma linv_new base : (d0 = Serial serial_new \/ d0 = Parallel []) -> LInv (wf_new base d0).
Proof.
  intros Hd. constructor; cbn [wf_new wf_del wf_runs wf_live].
  - intros r [].
  - intros o H. destruct Hd as [E|E]; rewrite E in H; destruct H.
  - intros r [].
  - intros k H. exfalso. apply H. destruct Hd as [-> | ->], k; reflexivity.
Qed.

Lemma lives_run w r : LInv w -> In r (wf_runs w) -> wlives w (wr_id r) = true.
Proof.
  intros J Hr. unfold wlives. apply existsb_exists. exists (wr_id r, wr_session r).
  split; [apply (l_run _ J); assumption|apply Nat.eqb_refl].
Qed.

(** The loops reach all runs they select. *)
Definition switch1 (sel : wrun V -> bool) (f : sstatus -> sstatus * bool) (fi : wfin V) r : wrun V :=
  if sel r then wswitched r (fst (f (wr_status r))) (if snd (f (wr_status r)) then Some fi else None) else r.

Lemma wswitch_map live sel f fi l : (forall r, In r l -> live (wr_id r) = true) ->
  wswitch live sel f fi true l = map (switch1 sel f fi) l.
Proof.
  induction l as [|r l IH]; intros H; [reflexivity|]. cbn [wswitch map]. unfold switch1 at 1.
  specialize (IH (fun y Hy => H y (or_intror Hy))).
  destruct (sel r).
  - destruct (f (wr_status r)) as [st hit]. cbn [fst snd]. rewrite (H r (or_introl eq_refl)).
    destruct hit; cbn [andb]; rewrite IH; reflexivity.
  - rewrite IH. reflexivity.
Qed.

Lemma switch1_skel sel f fi r : skel (switch1 sel f fi r) = skel r.
Proof. unfold switch1. destruct (sel r); reflexivity. Qed.

(** Changes of the status keep the invariant. *)
Lemma linv_map w (h : wrun V -> wrun V) : LInv w -> (forall r, skel (h r) = skel r) ->
  (forall r, In r (wf_runs w) -> wr_fin (h r) = None ->
     wr_fin r = None /\ (wr_status r = Ongoing \/ wr_status r = DeferredCleanup ->
        wr_status (h r) = Ongoing \/ wr_status (h r) = DeferredCleanup)) ->
  LInv (wset_runs w (map h (wf_runs w))).
Proof.
  intros J Hs Hf. constructor; cbn [wset_runs wf_del wf_runs wf_live].
  - intros r' H. apply in_map_iff in H. destruct H as (r & <- & Hr). pose proof (Hs r) as E. injection E as -> _ -> _ _.
    apply (l_run _ J r Hr).
  - apply (l_queue _ J).
  - intros r' H E. apply in_map_iff in H. destruct H as (r & <- & Hr). destruct (Hf r Hr E) as [E1 E2].
    apply E2. apply (l_status _ J r Hr E1).
  - intros k H. destruct (l_busy _ J k H) as (r & Hr & E). exists (h r). split; [apply in_map; assumption|].
    pose proof (Hs r) as E'. injection E' as _ _ _ -> _. assumption.
Qed.

Lemma cancel_runs w s c : LInv w -> wf_runs (wcancel w s c)
  = map (switch1 (fun r => Nat.eqb (wr_id r) s || Nat.eqb (wr_session r) s) to_cancelled (FinCancel c)) (wf_runs w).
Proof. intros J. unfold wcancel. cbn [wset_runs wf_runs]. apply wswitch_map. intros r Hr. apply (lives_run w r J Hr). Qed.

Lemma linv_cancel w s c : LInv w -> LInv (wcancel w s c).
Proof.
  intros J. unfold wcancel. rewrite wswitch_map by (intros r Hr; apply (lives_run w r J Hr)).
  apply linv_map; [assumption|intros r; apply switch1_skel|]. intros r Hr. unfold switch1, wswitched.
  destruct (_ || _); [|auto]. cbn [wr_fin wr_status]. destruct (wr_fin r); [discriminate|].
  destruct (wr_status r); cbn; try discriminate; auto.
Qed.

Definition value1 (id : entity) (v : V) r : wrun V :=
  if Nat.eqb (wr_id r) id then
    match wr_fin r with
    | Some _ => r
    | None => let '(st, hit) := to_finished (wr_status r) in
              wswitched r st (if hit then Some (FinResp v) else None)
    end
  else r.

Lemma linv_value w id v : LInv w -> LInv (wvalue w id v).
Proof.
  intros J. unfold wvalue. destruct (wlives w id); [|assumption]. fold (value1 id v).
  apply (linv_map w (value1 id v) J).
  - intros r. unfold value1. destruct (Nat.eqb (wr_id r) id); [|reflexivity]. destruct (wr_fin r); [reflexivity|].
    destruct (to_finished (wr_status r)). reflexivity.
  - intros r Hr. unfold value1. destruct (Nat.eqb (wr_id r) id); [|auto]. destruct (wr_fin r) eqn:E; [congruence|].
    unfold wswitched. destruct (wr_status r); cbn; rewrite E; try discriminate; auto.
Qed.

Lemma linv_clean_runs g w s : LInv w ->
  LInv (wset_runs w (wswitch (wlives w) (fun r => Nat.eqb (wr_session r) s) (to_cleanup (wc_unint g)) FinEarly true (wf_runs w))).
Proof.
  intros J. rewrite wswitch_map by (intros r Hr; apply (lives_run w r J Hr)).
  apply linv_map; [assumption|intros r; apply switch1_skel|]. intros r Hr. unfold switch1, wswitched.
  destruct (Nat.eqb (wr_session r) s); [|auto]. cbn [wr_fin wr_status]. destruct (wr_fin r); [discriminate|].
  destruct (wc_unint g), (wr_status r); cbn; try discriminate; auto; intros _; split; auto; intros [|]; congruence.
Qed.

Lemma linv_begin w id n s i b v : LInv w -> In (id, s) (wf_live w) -> LInv (wbegin w id n s i b v).
Proof.
  intros J H. constructor; rewrite ?begin_del, ?begin_runs, ?begin_live.
  - intros r. rewrite in_app_iff. intros [Hr|[<-|[]]]; [apply (l_run _ J r Hr)|exact H].
  - apply (l_queue _ J).
  - intros r. rewrite in_app_iff. intros [Hr|[<-|[]]]; [apply (l_status _ J r Hr)|]. left. reflexivity.
  - intros k Hk. destruct (l_busy _ J k Hk) as (r & Hr & E). exists r. split; [apply in_or_app; left|]; assumption.
Qed.

(** The general form for the queues. *)
Lemma queue_live base w d' : WInv base [] w -> LInv w -> keys_ok d' ->
  (forall k o, In o (s_queue (serial_at d' k)) -> In o (s_queue (serial_at (wf_del w) k))) ->
  forall o, In o (queued d') -> In (d_task o, d_session o) (wf_live w).
Proof.
  intros I J Hk H o Ho. destruct (queued_lane _ _ Hk Ho) as (k & Ho'). apply (l_queue _ J).
  apply (queued_in _ k). apply H. assumption.
Qed.

Lemma linv_step base g w a : WInv base [] w -> LInv w -> considerate w a -> LInv (wstep g w a).
Proof.
  intros I J Hc. destruct a as [n s i v|id v|s c|id ex al|s|s]; cbn [wstep].
  - destruct (wserve_shape base w n s i v I) as [(d' & E & Hd')|[(k & a & El & Ha & _ & E)|(k & a & inc & El & Ha & Ei & Hp & E)]];
      cbv zeta in E; rewrite E.
    + constructor; rewrite ?begin_del, ?begin_runs, ?begin_live; unfold wreceive; cbn [wf_del wf_runs wf_live].
      * intros r. rewrite !in_app_iff. intros [Hr|[<-|[]]]; [left; apply (l_run _ J r Hr)|right; left; reflexivity].
      * intros o Ho. apply in_or_app. left. destruct Hd' as [(_ & ->)|(k & El & Ek & ->)]; [apply (l_queue _ J o Ho)|].
        revert o Ho. apply (queue_live base w _ I J); [apply keys_upd, I|]. intros k' o.
        destruct (odec k' k) as [->|N].
        -- rewrite serial_at_upd_eq; [intros []|]. rewrite (kind_valid _ _ _ (q_kind _ _ _ _ I)). apply (lane_valid _ _ _ El).
        -- rewrite serial_at_upd_neq by assumption. auto.
      * intros r. rewrite in_app_iff. intros [Hr|[<-|[]]]; [apply (l_status _ J r Hr)|]. left. reflexivity.
      * intros k' Hk'. destruct Hd' as [(_ & ->)|(k & El & Ek & ->)].
        -- destruct (l_busy _ J k' Hk') as (r & Hr & E'). exists r. split; [apply in_or_app; left|]; assumption.
        -- destruct (odec k' k) as [->|N].
           ++ eexists. split; [apply in_or_app; right; left; reflexivity|]. exact El.
           ++ rewrite serial_at_upd_neq in Hk' by assumption.
              destruct (l_busy _ J k' Hk') as (r & Hr & E'). exists r. split; [apply in_or_app; left|]; assumption.
    + assert (Hv : valid (wf_del w) k = true) by (rewrite (kind_valid _ _ _ (q_kind _ _ _ _ I)); apply (lane_valid _ _ _ El)).
      constructor; unfold wreceive; cbn [wf_del wf_runs wf_live].
      * intros r Hr. apply in_or_app. left. apply (l_run _ J r Hr).
      * intros o Ho. destruct (queued_lane _ _ (keys_upd _ _ _ (q_keys _ _ _ _ I)) Ho) as (k' & Ho').
        apply in_or_app. destruct (odec k' k) as [->|N].
        -- rewrite (serial_at_upd_eq _ _ _ Hv) in Ho'. cbn [s_queue] in Ho'. rewrite in_app_iff in Ho'.
           destruct Ho' as [Ho'|[<-|[]]]; [left; apply (l_queue _ J); apply (queued_in _ k); assumption|right; left; reflexivity].
        -- rewrite serial_at_upd_neq in Ho' by assumption. left. apply (l_queue _ J). apply (queued_in _ k'). assumption.
      * apply (l_status _ J).
      * intros k' Hk'. destruct (odec k' k) as [->|N].
        -- apply (l_busy _ J). rewrite Ha. discriminate.
        -- rewrite serial_at_upd_neq in Hk' by assumption. apply (l_busy _ J k' Hk').
    + assert (Hv : valid (wf_del w) k = true) by (rewrite (kind_valid _ _ _ (q_kind _ _ _ _ I)); apply (lane_valid _ _ _ El)).
      assert (J2 : LInv (wreceive w n s i v
       (upd (wf_del w) k (mk_serial (Some a) (filter (fun c => negb (should_discard inc (d_instr c)))
          (s_queue (serial_at (wf_del w) k)) ++ [mk_order n s (wf_next w) v i])))
       (map (fun c => WDisp (d_task c) (d_source c) (d_session c) n s)
          (filter (fun c => should_discard inc (d_instr c)) (s_queue (serial_at (wf_del w) k)))))).
      { constructor; unfold wreceive; cbn [wf_del wf_runs wf_live].
        * intros r Hr. apply in_or_app. left. apply (l_run _ J r Hr).
        * intros o Ho. destruct (queued_lane _ _ (keys_upd _ _ _ (q_keys _ _ _ _ I)) Ho) as (k' & Ho').
          apply in_or_app. destruct (odec k' k) as [->|N].
          -- rewrite (serial_at_upd_eq _ _ _ Hv) in Ho'. cbn [s_queue] in Ho'. rewrite in_app_iff in Ho'.
             destruct Ho' as [Ho'|[<-|[]]]; [left; apply (l_queue _ J); apply (queued_in _ k); apply filter_In in Ho'; apply Ho'|right; left; reflexivity].
          -- rewrite serial_at_upd_neq in Ho' by assumption. left. apply (l_queue _ J). apply (queued_in _ k'). assumption.
        * apply (l_status _ J).
        * intros k' Hk'. destruct (odec k' k) as [->|N].
          -- apply (l_busy _ J). rewrite Ha. discriminate.
          -- rewrite serial_at_upd_neq in Hk' by assumption. apply (l_busy _ J k' Hk'). }
      destruct (should_discard inc (a_instr a)); [apply linv_cancel|]; exact J2.
  - apply linv_value; assumption.
  - apply linv_cancel; assumption.
  - destruct (wfinal_shape base g w id ex al I) as [->|(r & f & Hr & <- & Ef & [(v & -> & Ex & E)|(_ & E)])]; [assumption| |].
    + cbn in Hc. rewrite Hc in Ex. discriminate.
    + rewrite E. destruct (end_event_quiet g r f) as [Q Eo].
      pose proof (end_event_timed base g w r f I Hr) as Ht.
      assert (Hoth : forall y, In y (others w (wr_id r)) -> In y (wf_runs w) /\ wr_id y <> wr_id r).
      { intros y Hy. unfold others in Hy. apply filter_In in Hy. destruct Hy as [H1 H2]. split; [assumption|].
        apply negb_true_iff, Nat.eqb_neq in H2. assumption. }
      assert (Hlive : forall p, In p (wf_live w) -> fst p <> wr_id r ->
         In p (filter (fun p => negb (Nat.eqb (fst p) (wr_id r))) (wf_live w))).
      { intros p Hp Hn. apply filter_In. split; [assumption|]. apply negb_true_iff, Nat.eqb_neq. assumption. }
      assert (Hq : forall o, In o (queued (wf_del w)) -> d_task o <> wr_id r).
      { intros o Ho Eq. apply (q_fresh _ _ _ _ I o Ho). rewrite Eq. apply (q_runs _ _ _ _ I r Hr). }
      set (w' := wunblock (wsay (wset_runs w (others w (wr_id r))) [end_event g r f]) al (wr_block r)).
      assert (I' : WInv base [] (wdespawn_one w' (wr_id r))).
      { unfold w'. rewrite <- E. apply winv_final. assumption. }
      destruct (wunblock_shape base w r (end_event g r f) al I Hr Q Eo Ht) as [(El & E')|(k & drop & El & Elv & _ & C & D)];
        [fold w' in E'|fold w' in Elv, C, D].
      * constructor; unfold wdespawn_one; cbn [wset_live wf_del wf_runs wf_live]; rewrite E'; cbn [wsay wset_runs wf_del wf_runs wf_live].
        -- intros y Hy. destruct (Hoth y Hy). apply Hlive; [apply (l_run _ J); assumption|assumption].
        -- intros o Ho. apply Hlive; [apply (l_queue _ J o Ho)|apply Hq; assumption].
        -- intros y Hy. destruct (Hoth y Hy). apply (l_status _ J). assumption.
        -- intros k Hk. destruct (l_busy _ J k Hk) as (y & Hy & Ey). exists y. split; [|assumption].
           apply filter_In. split; [assumption|]. apply negb_true_iff, Nat.eqb_neq. intros Ez.
           pose proof (nodup_map_inj wr_id _ _ _ (runs_nodup _ _ _ _ I) Hy Hr Ez). congruence.
      * assert (Hsub : forall k' o, In o (s_queue (serial_at (wf_del w') k')) -> In o (s_queue (serial_at (wf_del w) k'))).
        { intros k' o. destruct (odec k' k) as [->|N].
          - destruct C as [(_ & _ & _ & ->)|(o' & q & -> & _ & _ & _ & ->)]; [intros []|].
            cbn [s_queue]. intros Ho. apply in_or_app. right. right. assumption.
          - rewrite (D k' N). auto. }
        constructor; unfold wdespawn_one; cbn [wset_live wf_del wf_runs wf_live]; rewrite ?Elv.
        -- intros y Hy. assert (K : In y (others w (wr_id r)) \/ exists o, In o (queued (wf_del w)) /\ wr_id y = d_task o /\ wr_session y = d_session o).
           { destruct C as [(_ & C2 & _)|(o' & q & C1 & _ & C2 & _)]; rewrite C2 in Hy; [left; assumption|].
             rewrite in_app_iff in Hy. destruct Hy as [Hy|[<-|[]]]; [left; assumption|right]. exists o'.
             split; [|split; reflexivity]. apply (queued_in _ k). rewrite C1. apply in_or_app. right. left. reflexivity. }
           destruct K as [K|(o & K1 & K2 & K3)].
           ++ destruct (Hoth y K). apply Hlive; [apply (l_run _ J); assumption|assumption].
           ++ rewrite K2, K3. apply Hlive; [apply (l_queue _ J o K1)|apply Hq; assumption].
        -- intros o Ho. assert (Ho2 : In o (queued (wf_del w))).
           { destruct (queued_lane _ _ (q_keys _ _ _ _ I') Ho) as (k' & Ho'). apply (queued_in _ k'). apply Hsub. exact Ho'. }
           apply Hlive; [apply (l_queue _ J o Ho2)|apply Hq; assumption].
        -- intros y Hy. destruct C as [(_ & C2 & _)|(o' & q & C1 & _ & C2 & _)]; rewrite C2 in Hy.
           ++ destruct (Hoth y Hy). apply (l_status _ J). assumption.
           ++ rewrite in_app_iff in Hy. destruct Hy as [Hy|[<-|[]]]; [destruct (Hoth y Hy); apply (l_status _ J); assumption|].
              left. reflexivity.
        -- intros k' Hk'. destruct (odec k' k) as [->|N].
           ++ destruct C as [(_ & _ & _ & C4)|(o' & q & C1 & _ & C2 & _)]; [rewrite C4 in Hk'; exfalso; apply Hk'; reflexivity|].
              rewrite C2. eexists. split; [apply in_or_app; right; left; reflexivity|]. cbn [wr_instr].
              apply (q_lane _ _ _ _ I). rewrite C1. apply in_or_app. right. left. reflexivity.
           ++ rewrite (D k' N) in Hk'. destruct (l_busy _ J k' Hk') as (y & Hy & Ey). exists y. split; [|assumption].
              assert (Hy' : In y (others w (wr_id r))).
              { apply filter_In. split; [assumption|]. apply negb_true_iff, Nat.eqb_neq. intros Ez.
                pose proof (nodup_map_inj wr_id _ _ _ (runs_nodup _ _ _ _ I) Hy Hr Ez). congruence. }
              destruct C as [(_ & -> & _)|(o' & q & _ & _ & -> & _)]; [assumption|apply in_or_app; left; assumption].
  - unfold wclean. apply linv_clean_runs.
    constructor; cbn [wsay wset_del wf_del wf_runs wf_live].
    + apply (l_run _ J).
    + intros o Ho. apply (l_queue _ J). rewrite cleanup_queued in Ho. apply filter_In in Ho. apply Ho.
    + apply (l_status _ J).
    + intros k. rewrite cleanup_serial_at. unfold serial_cleanup. cbn [s_delivering]. apply (l_busy _ J).
  - cbn in Hc.
    assert (G : forall id' s', In (id', s') (wf_live w) -> ~ In id' (outcomes (wf_log w)) ->
       (exists n i v, In (WReq id' n s' i v) (wf_log w)) ->
       In (id', s') (filter (fun p => negb (Nat.eqb (snd p) s)) (wf_live w))).
    { intros id' s' H1 H2 (n & i & v & H3). apply filter_In. split; [assumption|]. cbn. apply negb_true_iff, Nat.eqb_neq.
      intros ->. apply H2, Hc. unfold of_session. apply in_flat_map. eexists. split; [eassumption|]. cbn.
      rewrite Nat.eqb_refl. left. reflexivity. }
    constructor; unfold wdespawn; cbn [wset_live wf_del wf_runs wf_live].
    + intros r Hr. apply G; [apply (l_run _ J r Hr)| |destruct (q_info_r _ _ _ _ I r Hr) as (v & H); eauto].
      pose proof (run_in_progress _ _ _ _ r I Hr) as Hp. apply In_progress in Hp. apply Hp.
    + intros o Ho. apply G; [apply (l_queue _ J o Ho)| |pose proof (q_info_q _ _ _ _ I o Ho) as H; eauto].
      pose proof (hand_pending _ _ _ _ o I Ho) as Hp. apply In_pending in Hp. apply Hp.
    + apply (l_status _ J).
    + apply (l_busy _ J).
Qed.

End Workflow.
