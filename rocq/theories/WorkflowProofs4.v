(** Proofs about workflow services: services that got stuck, preemption, and who is told. *)
From Verif Require Import Base DeliveryModel DeliverySpec DeliveryProofs ScopeModel
  WorkflowModel WorkflowSpec WorkflowProofs WorkflowProofs2 WorkflowProofs3.

Section Workflow.
Context {V : Type}.
Variable d0 : delivery V.
Implicit Types (w : wsrv V) (r : wrun V) (o : order V) (L : list (wevent V)) (e : wevent V).
Notation WInv := (WInv d0).
Notation LInv := (LInv d0).

(** ** A lane whose active request has no run *)
Definition stuck k w : Prop :=
  s_delivering (serial_at (wf_del w) k) <> None /\
  forall r, In r (wf_runs w) -> lane d0 (wr_instr r) <> Some k.

Lemma skel_in rs rs' r' : map skel rs' = map skel rs -> In r' rs' ->
  exists r, In r rs /\ skel r = skel r'.
Proof.
  intros E H. apply (in_map skel) in H. rewrite E in H. apply in_map_iff in H. destruct H as (r & E' & H). eauto.
Qed.

Lemma skel_instr r r' : skel r = skel r' -> wr_instr r = wr_instr r'.
Proof. intros E. injection E as _ _ _ E _. exact E. Qed.

Lemma skel_id r r' : skel r = skel r' -> wr_id r = wr_id r'.
Proof. intros E. injection E as E _ _ _ _. exact E. Qed.

Lemma stuck_skel k w rs : stuck k w -> map skel rs = map skel (wf_runs w) ->
  forall r, In r rs -> lane d0 (wr_instr r) <> Some k.
Proof.
  intros [_ H] E r Hr. destruct (skel_in _ _ _ E Hr) as (r0 & H0 & Es). rewrite <- (skel_instr _ _ Es). apply H. assumption.
Qed.

Lemma value_skel id v l : map skel (map (value1 id v) l) = map (@skel V) l.
Proof.
  rewrite map_map. apply map_ext. intros r. unfold value1. destruct (Nat.eqb (wr_id r) id); [|reflexivity].
  destruct (wr_fin r); [reflexivity|]. destruct (to_finished (wr_status r)). reflexivity.
Qed.

Lemma stuck_step base g w a k : WInv base [] w -> stuck k w ->
  stuck k (wstep g w a) /\
  forall id, In id (begun (wf_log (wstep g w a))) ->
    In id (begun (wf_log w)) \/ exists r, In r (wf_runs (wstep g w a)) /\ wr_id r = id.
Proof.
  intros I S. pose proof S as [S1 S2]. destruct a as [n s i v|id v|s c|id ex al|s|s]; cbn [wstep].
  - destruct (wserve_shape d0 base w n s i v I) as [(d' & E & Hd')|[(k0 & a & El & Ha & Hp & E)|(k0 & a & inc & El & Ha & Ei & Hp & E)]];
      cbv zeta in E; rewrite E.
    + split; [split|].
      * rewrite begin_del. unfold wreceive. cbn [wf_del]. destruct Hd' as [(_ & ->)|(k0 & El & Ek & ->)]; [assumption|].
        rewrite serial_at_upd_neq; [assumption|]. intros ->. contradiction.
      * rewrite begin_runs. unfold wreceive. cbn [wf_runs]. intros r. rewrite in_app_iff. intros [Hr|[<-|[]]]; [apply S2; assumption|].
        cbn [wr_instr]. destruct Hd' as [(-> & _)|(k0 & El & Ek & _)]; [discriminate|]. congruence.
      * intros id. rewrite begin_log, begin_runs, begun_app, in_app_iff. unfold wreceive. cbn [wf_log wf_runs].
        intros [H|[<-|[]]].
        -- left. rewrite begun_app, in_app_iff in H. destruct H as [H|[]]. assumption.
        -- right. eexists. split; [apply in_or_app; right; left; reflexivity|reflexivity].
    + assert (Hv : valid (wf_del w) k0 = true) by (rewrite (kind_valid _ _ _ (q_kind _ _ _ _ I)); apply (lane_valid _ _ _ El)).
      split; [split|]; unfold wreceive; cbn [wf_del wf_runs wf_log].
      * destruct (odec k k0) as [->|N]; [rewrite (serial_at_upd_eq _ _ _ Hv); discriminate|].
        rewrite serial_at_upd_neq; assumption.
      * assumption.
      * intros id H. rewrite begun_app, in_app_iff in H. destruct H as [H|[]]. auto.
    + assert (Hv : valid (wf_del w) k0 = true) by (rewrite (kind_valid _ _ _ (q_kind _ _ _ _ I)); apply (lane_valid _ _ _ El)).
      set (w2 := wreceive _ _ _ _ _ _ _).
      assert (K1 : stuck k w2).
      { split; unfold w2, wreceive; cbn [wf_del wf_runs].
        - destruct (odec k k0) as [->|N]; [rewrite (serial_at_upd_eq _ _ _ Hv); discriminate|].
          rewrite serial_at_upd_neq; assumption.
        - assumption. }
      assert (K2 : forall id, In id (begun (wf_log w2)) -> In id (begun (wf_log w))).
      { intros id. unfold w2, wreceive. cbn [wf_log]. rewrite begun_app, in_app_iff. intros [H|H]; [assumption|exfalso].
        apply In_begun in H. destruct H as (v' & [H|H]); [discriminate|]. apply in_map_iff in H. destruct H as (o & H & _). discriminate. }
      destruct (should_discard inc (a_instr a)).
      * split; [split|].
        -- exact (proj1 K1).
        -- apply (stuck_skel k w2 _ K1). unfold wcancel. cbn [wset_runs wf_runs]. apply wswitch_skel.
        -- intros id H. left. apply K2. exact H.
      * split; [assumption|]. intros id H. left. apply K2. assumption.
  - unfold wvalue. destruct (wlives w id); [|split; [assumption|auto]]. fold (value1 id v). split; [split|auto].
    + assumption.
    + apply (stuck_skel k w _ S). cbn [wset_runs wf_runs]. apply value_skel.
  - split; [split|auto].
    + assumption.
    + apply (stuck_skel k w _ S). unfold wcancel. cbn [wset_runs wf_runs]. apply wswitch_skel.
  - destruct (wfinal_shape d0 base g w id ex al I) as [->|(r & f & Hr & <- & Ef & [(v & -> & Ex & ->)|(_ & ->)])].
    + split; [assumption|auto].
    + split; [split|].
      * assumption.
      * cbn [wsay wset_runs wf_runs]. intros y Hy. apply filter_In in Hy. apply S2. apply Hy.
      * cbn [wsay wset_runs wf_runs wf_log]. intros id H. rewrite begun_app, in_app_iff in H. destruct H as [H|[]]. auto.
    + destruct (end_event_quiet g r f) as [Q Eo]. pose proof (end_event_timed d0 base g w r f I Hr) as Ht.
      unfold stuck, wdespawn_one. cbn [wset_live wf_del wf_runs wf_log].
      assert (Hoth : forall y, In y (others w (wr_id r)) -> In y (wf_runs w)) by (intros y Hy; apply filter_In in Hy; apply Hy).
      destruct (quiet_logs d0 (wf_log w) [end_event g r f]) as (_ & Eb & _); [intros e [<-|[]]; assumption|].
      destruct (wunblock_shape d0 base w r (end_event g r f) al I Hr Q Eo Ht) as [(El & E')|(k0 & drop & El & Elv & _ & C & D)].
      * rewrite E'. cbn [wsay wset_runs wf_del wf_runs wf_log]. rewrite Eb. split; [split|auto]; [assumption|].
        intros y Hy. apply S2. apply Hoth. assumption.
      * assert (N : k <> k0) by (intros ->; apply (S2 r Hr El)). rewrite (D k N).
        assert (Hdrop : forall es : list (wevent V), begun (map (fun o => WDropped (d_task o)) drop ++ es) = begun es).
        { intros es. rewrite begun_app. clear. induction drop as [|o drop IH]; [reflexivity|exact IH]. }
        assert (Hlog : forall es, begun (wf_log w ++ end_event g r f :: es) = begun (wf_log w) ++ begun es).
        { intros es. replace (wf_log w ++ end_event g r f :: es) with ((wf_log w ++ [end_event g r f]) ++ es) by (rewrite <- app_assoc; reflexivity).
          rewrite begun_app, Eb. reflexivity. }
        destruct C as [(_ & C2 & C3 & _)|(o & q & C1 & _ & C2 & C3 & _)]; rewrite C2, C3, Hlog.
        -- rewrite <- (app_nil_r (map _ drop)), Hdrop. cbn [begun flat_map]. rewrite app_nil_r. split; [split|auto]; [assumption|].
           intros y Hy. apply S2. apply Hoth. assumption.
        -- rewrite Hdrop. split; [split|]; [assumption| |].
           ++ intros y Hy. rewrite in_app_iff in Hy. destruct Hy as [Hy|[<-|[]]]; [apply S2, Hoth, Hy|]. cbn [wr_instr].
              assert (Hk : lane d0 (d_instr o) = Some k0).
              { apply (q_lane _ _ _ _ I). rewrite C1. apply in_or_app. right. left. reflexivity. }
              congruence.
           ++ intros id H. rewrite in_app_iff in H. destruct H as [H|[<-|[]]]; [auto|].
              right. eexists. split; [apply in_or_app; right; left; reflexivity|reflexivity].
  - split; [split|].
    + unfold wclean. cbn [wset_runs wsay wset_del wf_del]. rewrite cleanup_serial_at. exact S1.
    + apply (stuck_skel k w _ S). unfold wclean. cbn [wset_runs wf_runs]. apply wswitch_skel.
    + unfold wclean. cbn [wset_runs wsay wset_del wf_log]. intros id H. left.
      match type of H with In _ (begun (_ ++ ?x)) => destruct (quiet_logs d0 (wf_log w) x) as (_ & Eb & _) end.
      { intros e He. apply in_map_iff in He. destruct He as (o & <- & _). exact Logic.I. }
      rewrite Eb in H. exact H.
  - split; [assumption|auto].
Qed.

Lemma stuck_exec base g k acts : forall w, WInv base [] w -> stuck k w ->
  stuck k (wexec g w acts) /\
  forall id, In id (lane_ids d0 k (wf_log (wexec g w acts))) -> In id (begun (wf_log (wexec g w acts))) ->
    In id (begun (wf_log w)).
Proof.
  induction acts as [|a acts IH]; intros w I S; [split; [assumption|auto]|]. cbn [wexec fold_left].
  change (fold_left (wstep g) acts (wstep g w a)) with (wexec g (wstep g w a) acts).
  pose proof (winv_step _ _ g w a I) as I1. destruct (stuck_step base g w a k I S) as [S1 B1].
  destruct (IH _ I1 S1) as [S2 B2]. split; [assumption|]. intros id Hk Hb. specialize (B2 id Hk Hb).
  destruct (B1 id B2) as [|(r & Hr & <-)]; [assumption|]. exfalso. apply (proj2 S1 r Hr).
  apply In_lane_ids in Hk. destruct Hk as (n & s & i & v & Hk & El).
  destruct (q_info_r _ _ _ _ I1 r Hr) as (v' & Hi).
  destruct (exec_log d0 base g acts _ I1) as (es & Ee).
  assert (WInv base [] (wexec g (wstep g w a) acts)) as I2 by (apply winv_exec_from; assumption).
  assert (Hi' : In (WReq (wr_id r) (wr_node r) (wr_session r) (wr_instr r) v') (wf_log (wexec g (wstep g w a) acts)))
    by (rewrite Ee; apply in_or_app; left; assumption).
  pose proof (info_unique _ _ _ _ _ _ _ _ _ _ (received_nodup _ _ _ _ I2) Hk Hi') as E. injection E as _ _ <- _. assumption.
Qed.

Lemma stuck_enter base g w r v k ex al : WInv base [] w -> In r (wf_runs w) -> wr_fin r = Some (FinResp v) ->
  lane d0 (wr_instr r) = Some k -> ex (wr_node r) = false ->
  stuck k (wfinal g w (wr_id r) ex al) /\ wf_log (wfinal g w (wr_id r) ex al) = wf_log w ++ [WLost (wr_id r) v].
Proof.
  intros I Hr Ef El Ex. unfold wfinal.
  destruct (find (fun y => Nat.eqb (wr_id y) (wr_id r)) (wf_runs w)) as [y|] eqn:Efind.
  2:{ exfalso. apply (find_none _ _ Efind) in Hr. rewrite Nat.eqb_refl in Hr. discriminate. }
  destruct (find_run _ _ _ Efind) as [Hy Ey].
  assert (y = r) as -> by (apply (nodup_map_inj wr_id (wf_runs w)); [apply (runs_nodup _ _ _ _ I)|assumption|assumption|congruence]).
  rewrite Ef, Ex. split; [split|reflexivity]; cbn [wsay wset_runs wf_del wf_runs].
  - rewrite (q_act _ _ _ _ I k r Hr El). discriminate.
  - intros y Hy' E. apply filter_In in Hy'. destruct Hy' as [Hy' N].
    pose proof (one_run _ _ _ _ _ _ _ I Hr Hy' El E) as ->. rewrite Nat.eqb_refl in N. discriminate.
Qed.

(** ** A run whose session is gone *)
Definition dead id w : Prop :=
  (exists r, In r (wf_runs w) /\ wr_id r = id /\ wr_fin r = None) /\ wlives w id = false.

Lemma wswitch_dead live sel f fi l r : In r l -> live (wr_id r) = false -> wr_fin r = None ->
  forall ok, exists r', In r' (wswitch live sel f fi ok l) /\ wr_id r' = wr_id r /\ wr_fin r' = None.
Proof.
  intros Hr Hl Hf. induction l as [|y l IH]; intros ok; [destruct Hr|]. cbn [wswitch]. destruct Hr as [->|Hr].
  - destruct (sel r).
    + destruct (f (wr_status r)) as [st hit]. rewrite Hl, andb_false_r.
      destruct hit; cbn [andb]; eexists; (split; [left; reflexivity|split; [reflexivity|]]); unfold wswitched; cbn [wr_fin]; rewrite Hf; reflexivity.
    + exists r. split; [left; reflexivity|auto].
  - destruct (sel y).
    + destruct (f (wr_status y)) as [st hit]. destruct (IH Hr (if hit then ok && live (wr_id y) else ok)) as (r' & H & E).
      exists r'. split; [right; assumption|assumption].
    + destruct (IH Hr ok) as (r' & H & E). exists r'. split; [right; assumption|assumption].
Qed.

Lemma dead_step base g w a id : WInv base [] w -> dead id w -> dead id (wstep g w a).
Proof.
  intros I [(r & Hr & Eid & Ef) Hl].
  assert (Hid : id < wf_next w).
  { rewrite <- Eid. apply (received_below d0 base [] w), (begun_received _ _ _ _ _ I), (q_runs _ _ _ _ I); assumption. }
  destruct a as [n s i v|id' v|s c|id' ex al|s|s]; cbn [wstep].
  - assert (Hl' : existsb (fun p => Nat.eqb (fst p) id) (wf_live w ++ [(wf_next w, s)]) = false).
    { rewrite existsb_app. fold (wlives w id). rewrite Hl. cbn. destruct (Nat.eqb_spec (wf_next w) id); [lia|reflexivity]. }
    destruct (wserve_shape d0 base w n s i v I) as [(d' & E & Hd')|[(k0 & a & El & Ha & Hp & E)|(k0 & a & inc & El & Ha & Ei & Hp & E)]];
      cbv zeta in E; rewrite E.
    + split; [|exact Hl']. exists r. split; [|auto]. rewrite begin_runs. apply in_or_app. left. exact Hr.
    + split; [|exact Hl']. exists r. split; [exact Hr|auto].
    + destruct (should_discard inc (a_instr a)).
      * split; [|exact Hl']. unfold wcancel. cbn [wset_runs wf_runs]. rewrite <- Eid.
        apply wswitch_dead; [exact Hr| |exact Ef]. rewrite Eid. exact Hl'.
      * split; [|exact Hl']. exists r. split; [exact Hr|auto].
  - unfold wvalue. destruct (wlives w id') eqn:El; [|split; [eauto|assumption]]. split; [|exact Hl].
    exists r. split; [|auto]. cbn [wset_runs wf_runs]. apply in_map_iff. exists r. split; [|assumption].
    destruct (Nat.eqb_spec (wr_id r) id'); [congruence|reflexivity].
  - split; [|exact Hl]. unfold wcancel. cbn [wset_runs wf_runs]. rewrite <- Eid.
    apply wswitch_dead; [exact Hr| |exact Ef]. rewrite Eid. exact Hl.
  - destruct (wfinal_shape d0 base g w id' ex al I) as [->|(r0 & f & Hr0 & <- & Ef0 & [(v & -> & Ex & ->)|(_ & ->)])].
    + split; [eauto|assumption].
    + split; [|exact Hl]. exists r. split; [|auto]. cbn [wsay wset_runs wf_runs]. apply filter_In. split; [assumption|].
      apply negb_true_iff, Nat.eqb_neq. intros E. pose proof (nodup_map_inj wr_id _ _ _ (runs_nodup _ _ _ _ I) Hr Hr0 E). congruence.
    + assert (Hr' : In r (others w (wr_id r0))).
      { apply filter_In. split; [assumption|]. apply negb_true_iff, Nat.eqb_neq. intros E.
        pose proof (nodup_map_inj wr_id _ _ _ (runs_nodup _ _ _ _ I) Hr Hr0 E). congruence. }
      destruct (end_event_quiet g r0 f) as [Q Eo]. pose proof (end_event_timed d0 base g w r0 f I Hr0) as Ht.
      assert (Hf : forall l : list (nat * nat), existsb (fun p => Nat.eqb (fst p) id) l = false ->
          existsb (fun p => Nat.eqb (fst p) id) (filter (fun p => negb (Nat.eqb (fst p) (wr_id r0))) l) = false).
      { intros l. rewrite <- !not_true_iff_false, !existsb_exists. intros K (p & Hp & Ep). apply K. exists p.
        apply filter_In in Hp. split; [apply Hp|assumption]. }
      destruct (wunblock_shape d0 base w r0 (end_event g r0 f) al I Hr0 Q Eo Ht) as [(El & E')|(k & drop & El & Elv & _ & C & D)].
      * rewrite E'. split; [|unfold wlives, wdespawn_one; cbn [wset_live wsay wset_runs wf_live]; apply Hf; exact Hl].
        exists r. split; [exact Hr'|auto].
      * split; [|unfold wlives, wdespawn_one; cbn [wset_live wf_live]; rewrite Elv; apply Hf; exact Hl].
        exists r. split; [|auto]. unfold wdespawn_one. cbn [wset_live wf_runs].
        destruct C as [(_ & C2 & _)|(o & q & C1 & _ & C2 & _)]; rewrite C2; [assumption|apply in_or_app; left; assumption].
  - split; [|exact Hl]. unfold wclean. cbn [wset_runs wf_runs]. rewrite <- Eid.
    apply wswitch_dead; [exact Hr| |exact Ef]. rewrite Eid. exact Hl.
  - split; [eauto|]. unfold wlives, wdespawn in *. cbn [wset_live wf_live]. rewrite <- !not_true_iff_false, !existsb_exists in *.
    intros (p & Hp & Ep). apply Hl. exists p. apply filter_In in Hp. split; [apply Hp|assumption].
Qed.

Lemma dead_exec base g id acts : forall w, WInv base [] w -> dead id w -> dead id (wexec g w acts).
Proof.
  induction acts as [|a acts IH]; intros w I D; [assumption|]. cbn [wexec fold_left].
  change (fold_left (wstep g) acts (wstep g w a)) with (wexec g (wstep g w a) acts).
  apply IH; [apply winv_step; assumption|apply (dead_step base); assumption].
Qed.

(** Scoped sessions belong to the session of their request. *)
Definition live_info w : Prop := forall p, In p (wf_live w) -> exists n i v, In (WReq (fst p) n (snd p) i v) (wf_log w).

Lemma live_info_step base g w a : WInv base [] w -> live_info w -> live_info (wstep g w a).
Proof.
  intros I H.
  assert (Hgrow : forall w' es, wf_log w' = wf_log w ++ es -> (forall p, In p (wf_live w') -> In p (wf_live w)) -> live_info w').
  { intros w' es E Hs p Hp. destruct (H p (Hs p Hp)) as (n & i & v & K). exists n, i, v. rewrite E. apply in_or_app. left. exact K. }
  destruct a as [n s i v|id' v|s c|id' ex al|s|s].
  - cbn [wstep]. 
    assert (K : forall w' es, wf_log w' = wf_log w ++ WReq (wf_next w) n s i v :: es -> wf_live w' = wf_live w ++ [(wf_next w, s)] -> live_info w').
    { intros w' es E1 E2 p Hp. rewrite E2, in_app_iff in Hp. rewrite E1. destruct Hp as [Hp|[<-|[]]].
      - destruct (H p Hp) as (n' & i' & v' & K). exists n', i', v'. apply in_or_app. left. exact K.
      - exists n, i, v. apply in_or_app. right. left. reflexivity. }
    destruct (wserve_shape d0 base w n s i v I) as [(d' & E & Hd')|[(k0 & a & El & Ha & Hp & E)|(k0 & a & inc & El & Ha & Ei & Hp & E)]];
      cbv zeta in E; rewrite E.
    + eapply K; [rewrite begin_log; unfold wreceive; cbn [wf_log]; rewrite <- app_assoc; reflexivity|reflexivity].
    + eapply K; reflexivity.
    + destruct (should_discard inc (a_instr a)); eapply K; reflexivity.
  - cbn [wstep]. unfold wvalue. destruct (wlives w id'); [|assumption]. apply (Hgrow _ []); [symmetry; apply app_nil_r|auto].
  - apply (Hgrow _ []); [symmetry; apply app_nil_r|auto].
  - destruct (step_log d0 g w (AFinal id' ex al) base I) as (es & E). apply (Hgrow _ es E). cbn [wstep].
    destruct (wfinal_shape d0 base g w id' ex al I) as [->|(r0 & f & Hr0 & <- & Ef0 & [(v & -> & Ex & ->)|(_ & ->)])]; [auto|auto|].
    destruct (end_event_quiet g r0 f) as [Q Eo]. pose proof (end_event_timed d0 base g w r0 f I Hr0) as Ht.
    unfold wdespawn_one. cbn [wset_live wf_live]. intros p Hp. apply filter_In in Hp. destruct Hp as [Hp _].
    destruct (wunblock_shape d0 base w r0 (end_event g r0 f) al I Hr0 Q Eo Ht) as [(El & E')|(k & drop & El & Elv & _ & _)].
    + rewrite E' in Hp. exact Hp.
    + rewrite Elv in Hp. exact Hp.
  - destruct (step_log d0 g w (AClean s) base I) as (es & E). apply (Hgrow _ es E). auto.
  - apply (Hgrow _ []); [symmetry; apply app_nil_r|]. intros p Hp. cbn [wstep wdespawn wset_live wf_live] in Hp. apply filter_In in Hp. apply Hp.
Qed.

(** ** Who is told *)
Definition told_ok (g : wconf) e : Prop :=
  match e with
  | WTold _ s _ => wc_top g s = true
  | WUntold _ s _ => wc_top g s = false
  | _ => True
  end.

Lemma step_told base g w a : WInv base [] w -> (forall e, In e (wf_log w) -> told_ok g e) ->
  forall e, In e (wf_log (wstep g w a)) -> told_ok g e.
Proof.
  intros I H. destruct a as [n s i v|id v|s c|id ex al|s|s]; cbn [wstep].
  - destruct (wserve_shape d0 base w n s i v I) as [(d' & E & Hd')|[(k & a & El & Ha & Hp & E)|(k & a & inc & El & Ha & Ei & Hp & E)]];
      cbv zeta in E; rewrite E.
    + rewrite begin_log. unfold wreceive. cbn [wf_log]. intros e. rewrite !in_app_iff. intros [[K|[<-|[]]]|[<-|[]]]; [auto| |]; exact Logic.I.
    + unfold wreceive. cbn [wf_log]. intros e. rewrite !in_app_iff. intros [K|[<-|[]]]; [auto|]; exact Logic.I.
    + intros e K.
      assert (K' : In e (wf_log w ++ WReq (wf_next w) n s i v :: map (fun c => WDisp (d_task c) (d_source c) (d_session c) n s)
          (filter (fun c => should_discard inc (d_instr c)) (s_queue (serial_at (wf_del w) k))))).
      { destruct (should_discard inc (a_instr a)); exact K. }
      rewrite in_app_iff in K'. destruct K' as [K'|[<-|K']]; [auto|exact Logic.I|].
      apply in_map_iff in K'. destruct K' as (o & <- & _). exact Logic.I.
  - unfold wvalue. destruct (wlives w id); exact H.
  - exact H.
  - destruct (wfinal_shape d0 base g w id ex al I) as [->|(r & f & Hr & <- & Ef & [(v & -> & Ex & ->)|(_ & ->)])].
    + assumption.
    + cbn [wsay wset_runs wf_log]. intros e. rewrite in_app_iff. intros [K|[<-|[]]]; [auto|exact Logic.I].
    + destruct (end_event_quiet g r f) as [Q Eo]. pose proof (end_event_timed d0 base g w r f I Hr) as Ht.
      assert (He : told_ok g (end_event g r f)).
      { destruct f; cbn; auto. destruct (wc_top g (wr_session r)) eqn:Et; cbn; assumption. }
      unfold wdespawn_one. cbn [wset_live wf_log]. intros e K.
      destruct (wunblock_shape d0 base w r (end_event g r f) al I Hr Q Eo Ht) as [(El & E')|(k & drop & El & Elv & _ & C & D)].
      * rewrite E' in K. cbn [wsay wset_runs wf_log] in K. rewrite in_app_iff in K. destruct K as [K|[<-|[]]]; auto.
      * destruct C as [(_ & _ & C3 & _)|(o & q & C1 & _ & _ & C3 & _)]; rewrite C3 in K; rewrite in_app_iff in K.
        -- destruct K as [K|[<-|K]]; auto. apply in_map_iff in K. destruct K as (o & <- & _). exact Logic.I.
        -- destruct K as [K|[<-|K]]; auto. rewrite in_app_iff in K. destruct K as [K|[<-|[]]]; [|exact Logic.I].
           apply in_map_iff in K. destruct K as (o' & <- & _). exact Logic.I.
  - unfold wclean. cbn [wset_runs wsay wset_del wf_log]. intros e. rewrite in_app_iff. intros [K|K]; [auto|].
    apply in_map_iff in K. destruct K as (o & <- & _). exact Logic.I.
  - exact H.
Qed.

(** ** Preemption *)
Lemma preemption base g w n s inc (v : V) : WInv base [] w -> i_preempt inc = true ->
  forall id n2 s2 i2 v2, In id (pending (wf_log w)) -> In (WReq id n2 s2 i2 v2) (wf_log w) ->
  (gives_way inc i2 -> In (WDisp id n2 s2 n s) (wf_log (wstep g w (ARequest n s (Some inc) v)))) /\
  (~ gives_way inc i2 -> In id (pending (wf_log (wstep g w (ARequest n s (Some inc) v))))).
Proof.
  intros I Hpre id n2 s2 i2 v2 Hp Hi. cbn [wstep].
  assert (Hq : exists o k, In o (s_queue (serial_at (wf_del w) k)) /\ mk_order n2 s2 id v2 i2 = o /\ lane d0 i2 = Some k).
  { assert (Ho : In id (map d_task (queued (wf_del w)))).
    { apply In_pending in Hp. destruct Hp as (P1 & P2 & P3). pose proof (Permutation_in _ (q_ledger _ _ _ _ I) P1) as K.
      rewrite !in_app_iff in K. destruct K as [[]|[K|[K|K]]]; [assumption| |contradiction]. exfalso. apply in_map_iff in K.
      destruct K as (r & E & Hr). apply P2. rewrite <- E. apply (q_runs _ _ _ _ I). assumption. }
    apply in_map_iff in Ho. destruct Ho as (o & Et & Ho). destruct (queued_lane _ _ (q_keys _ _ _ _ I) Ho) as (k & Hk).
    pose proof (q_info_q _ _ _ _ I o Ho) as Hio. rewrite Et in Hio.
    pose proof (info_unique _ _ _ _ _ _ _ _ _ _ (received_nodup _ _ _ _ I) Hi Hio) as E. injection E as -> -> -> ->.
    exists o, k. split; [assumption|]. split; [destruct o; cbn in *; congruence|]. apply (q_lane _ _ _ _ I). assumption. }
  destruct Hq as (o & k & Ho & Eo & El2).
  pose proof (proj1 (In_pending _ _) Hp) as (P1 & P2 & P3).
  assert (Nnext : id <> wf_next w) by (pose proof (received_below _ _ _ _ _ I P1); lia).
  assert (Hnot : forall L', received (wf_log w) = received L' \/ (exists x, received L' = received (wf_log w) ++ x) -> ~ In id (begun L') -> ~ In id (outcomes L') -> In id (pending L')).
  { intros L' K K1 K2. apply In_pending. split; [|auto]. destruct K as [<-|(x & ->)]; [assumption|apply in_or_app; left; assumption]. }
  destruct (wserve_shape d0 base w n s (Some inc) v I) as [(d' & E & Hd')|[(k0 & a & El & Ha & Hp' & E)|(k0 & a & inc' & El & Ha & Ei & Hp' & E)]];
    cbv zeta in E; rewrite E.
  - split.
    + intros G. exfalso. destruct Hd' as [(El & _)|(k0 & El & Ek & _)]; [destruct d0; discriminate El|].
      pose proof (gives_way_lane d0 _ _ _ G El) as E2. assert (k0 = k) as -> by congruence.
      rewrite (q_idle _ _ _ _ I k Ek) in Ho. destruct Ho.
    + intros _. rewrite begin_log. unfold wreceive. cbn [wf_log]. apply Hnot.
      * right. rewrite !received_app, <- app_assoc. eauto.
      * rewrite !begun_app, !in_app_iff. cbn. intros [[K|[]]|[K|[]]]; [contradiction|congruence].
      * rewrite !outcomes_app, !in_app_iff. cbn. intros [[K|[]]|[]]. contradiction.
  - rewrite (Hp' _ eq_refl) in Hpre. discriminate.
  - injection Ei as <-. 
    assert (Elog : forall w2 : wsrv V, wf_log (if should_discard inc (a_instr a) then wcancel w2 (a_session a) (WSupplanted n s) else w2) = wf_log w2)
      by (intros w2; destruct (should_discard inc (a_instr a)); reflexivity).
    rewrite Elog. unfold wreceive. cbn [wf_log]. split.
    + intros G. pose proof (gives_way_lane d0 _ _ _ G El) as E2. assert (k0 = k) as -> by congruence.
      apply in_or_app. right. right. apply in_map_iff. exists o. rewrite <- Eo. split; [reflexivity|]. apply filter_In.
      split; [rewrite Eo; assumption|]. apply discard_gives_way. assumption.
    + intros G. apply Hnot.
      * right. rewrite received_app. eauto.
      * rewrite begun_app, in_app_iff. intros [K|K]; [contradiction|]. apply In_begun in K. destruct K as (v' & [K|K]); [discriminate|].
        apply in_map_iff in K. destruct K as (o' & K & _). discriminate.
      * rewrite outcomes_app, in_app_iff. intros [K|K]; [contradiction|]. unfold outcomes in K. apply in_flat_map in K.
        destruct K as (e & He & K). destruct He as [<-|He]; [destruct K|]. apply in_map_iff in He. destruct He as (o' & <- & Ho').
        cbn in K. destruct K as [K|[]]. apply filter_In in Ho'. destruct Ho' as [Ho' Hd'']. apply discard_gives_way in Hd''.
        apply G. pose proof (q_info_q _ _ _ _ I o' (queued_in _ _ _ Ho')) as Hio. rewrite K in Hio.
        pose proof (info_unique _ _ _ _ _ _ _ _ _ _ (received_nodup _ _ _ _ I) Hi Hio) as Eq. injection Eq as _ _ -> _. assumption.
Qed.

(** A request without preemption ends none. *)
Lemma no_preemption base g w n s i (v : V) : WInv base [] w -> (forall inc, i = Some inc -> i_preempt inc = false) ->
  outcomes (wf_log (wstep g w (ARequest n s i v))) = outcomes (wf_log w).
Proof.
  intros I Hn. cbn [wstep].
  destruct (wserve_shape d0 base w n s i v I) as [(d' & E & Hd')|[(k0 & a & El & Ha & Hp' & E)|(k0 & a & inc' & El & Ha & Ei & Hp' & E)]];
    cbv zeta in E; rewrite E.
  - rewrite begin_log. unfold wreceive. cbn [wf_log]. rewrite !outcomes_app. cbn. rewrite !app_nil_r. reflexivity.
  - unfold wreceive. cbn [wf_log]. rewrite !outcomes_app. cbn. rewrite !app_nil_r. reflexivity.
  - rewrite (Hn _ Ei) in Hp'. discriminate.
Qed.

End Workflow.
