(** Proofs about workflow services: the history of runs, and services that got stuck. *)
From Verif Require Import Base DeliveryModel DeliverySpec DeliveryProofs ScopeModel
  WorkflowModel WorkflowSpec WorkflowProofs WorkflowProofs2.

Section Workflow.
Context {V : Type}.
Variable d0 : delivery V.
Implicit Types (w : wsrv V) (r : wrun V) (o : order V) (L : list (wevent V)) (e : wevent V).
Notation WInv := (WInv d0).
Notation LInv := (LInv d0).

Lemma discard_gives_way inc p : should_discard inc p = true <-> gives_way inc p.
Proof.
  unfold should_discard, gives_way. destruct p as [p|].
  - rewrite andb_true_iff, negb_true_iff, Nat.eqb_eq. split.
    + intros [E1 E2]. eauto.
    + intros (p' & E & E1 & E2). injection E as <-. auto.
  - split; [discriminate|]. intros (p' & E & _). discriminate.
Qed.

Lemma gives_way_lane inc p k : gives_way inc p -> lane d0 (Some inc) = Some k -> lane d0 p = Some k.
Proof. intros (p' & -> & E & _). destruct d0; cbn; [auto|]. rewrite E. auto. Qed.

Lemma run_info base x w r n s i (v : V) : WInv base x w -> In r (wf_runs w) ->
  In (WReq (wr_id r) n s i v) (wf_log w) -> n = wr_node r /\ s = wr_session r /\ i = wr_instr r.
Proof.
  intros I Hr H. destruct (q_info_r _ _ _ _ I r Hr) as (v' & H').
  pose proof (info_unique _ _ _ _ _ _ _ _ _ _ (received_nodup _ _ _ _ I) H H') as E. injection E as -> -> -> ->. auto.
Qed.

Lemma means_run base x w r t : WInv base x w -> In r (wf_runs w) ->
  (means (wf_log w) t (wr_id r) <-> Nat.eqb (wr_id r) t || Nat.eqb (wr_session r) t = true).
Proof.
  intros I Hr. unfold means. rewrite orb_true_iff, !Nat.eqb_eq. split.
  - intros [->|(n & i & v & H)]; [left; reflexivity|]. right. symmetry. apply (run_info _ _ _ _ _ _ _ _ I Hr H).
  - intros [->|<-]; [left; reflexivity|]. right. destruct (q_info_r _ _ _ _ I r Hr) as (v & H). eauto.
Qed.

Lemma progress_run base x w id n s i (v : V) : WInv base x w -> In id (in_progress (wf_log w)) ->
  In (WReq id n s i v) (wf_log w) ->
  exists r, In r (wf_runs w) /\ wr_id r = id /\ wr_node r = n /\ wr_session r = s /\ wr_instr r = i.
Proof.
  intros I H1 H2. destruct (in_progress_run _ _ _ _ _ I H1) as (r & Hr & <-).
  destruct (run_info _ _ _ _ _ _ _ _ I Hr H2) as (-> & -> & ->). eauto 7.
Qed.

(** What a step does to what decides the end of a run. *)
Definition changes g L (a : wact V) r r' : Prop :=
  match wr_fin r with
  | Some f => wr_fin r' = Some f
  | None => match wr_fin r' with
            | Some f => decides g L (wr_id r) a f
            | None => forall f, ~ decides g L (wr_id r) a f
            end
  end.

Lemma changes_none g L a r : (forall f, ~ decides g L (wr_id r) a f) -> changes g L a r r.
Proof. intros H. unfold changes. destruct (wr_fin r); auto. Qed.

Lemma step_fate base g w a r' : WInv base [] w -> LInv w -> In r' (wf_runs (wstep g w a)) ->
  (~ In (wr_id r') (begun (wf_log w)) /\ wr_fin r' = None) \/
  exists r, In r (wf_runs w) /\ skel r = skel r' /\ changes g (wf_log w) a r r'.
Proof.
  intros I J H. destruct a as [n s i v|id v|s c|id ex al|s|s]; cbn [wstep] in H.
  - assert (Hnext : ~ In (wf_next w) (begun (wf_log w))).
    { intros K. apply (begun_received _ _ _ _ _ I), (received_below _ _ _ _ _ I) in K. lia. }
    destruct (wserve_shape d0 base w n s i v I) as [(d' & E & Hd')|[(k & a & El & Ha & Hp & E)|(k & a & inc & El & Ha & Ei & Hp & E)]];
      cbv zeta in E; rewrite E in H.
    + rewrite begin_runs in H. unfold wreceive in H. cbn [wf_runs] in H. rewrite in_app_iff in H.
      destruct H as [H|[<-|[]]]; [|left; auto]. right. exists r'. split; [assumption|]. split; [reflexivity|].
      apply changes_none. intros f D. inversion D as [| | |n' s' inc v' id2 n2 s2 i2 v2 P1 P2 P3 P4 P5]; subst.
      destruct (progress_run _ _ _ _ _ _ _ _ I P2 P3) as (r2 & R1 & R2 & R3 & R4 & R5).
      destruct Hd' as [(El & _)|(k & El & Ek & _)]; [destruct d0; discriminate El|].
      pose proof (gives_way_lane _ _ _ P4 El) as E2. rewrite <- R5 in E2.
      rewrite (q_act _ _ _ _ I k r2 R1 E2) in Ek. discriminate.
    + unfold wreceive in H. cbn [wf_runs] in H. right. exists r'. split; [assumption|]. split; [reflexivity|].
      apply changes_none. intros f D. inversion D as [| | |n' s' inc v' id2 n2 s2 i2 v2 P1 P2 P3 P4 P5]; subst.
      rewrite (Hp _ eq_refl) in P1. discriminate.
    + destruct (l_busy _ _ J k) as (ra & A1 & A2); [rewrite Ha; discriminate|].
      pose proof (q_act _ _ _ _ I k ra A1 A2) as A3. rewrite Ha in A3. injection A3 as A3.
      assert (Hdec : forall r f, In r (wf_runs w) -> decides g (wf_log w) (wr_id r) (ARequest n s i v) f ->
         should_discard inc (a_instr a) = true /\ means (wf_log w) (a_session a) (wr_id r)).
      { intros r f Hr D. inversion D as [| | |n' s' inc' v' id2 n2 s2 i2 v2 P1 P2 P3 P4 P5]; subst.
        match goal with K : Some _ = Some inc |- _ => injection K as -> end.
        destruct (progress_run _ _ _ _ _ _ _ _ I P2 P3) as (r2 & R1 & R2 & R3 & R4 & R5).
        pose proof (gives_way_lane _ _ _ P4 El) as E2. rewrite <- R5 in E2.
        pose proof (one_run _ _ _ _ _ _ _ I A1 R1 A2 E2) as ->. cbn [a_instr a_session].
        split; [apply discard_gives_way; rewrite R5; assumption|]. rewrite R4. assumption. }
      destruct (should_discard inc (a_instr a)) eqn:Hs.
      * unfold wcancel in H. cbn [wset_runs wf_runs] in H. rewrite wswitch_map in H.
        -- unfold wreceive in H. cbn [wf_runs] in H. apply in_map_iff in H. destruct H as (r & <- & Hr). right.
           exists r. split; [assumption|]. split; [symmetry; apply switch1_skel|]. unfold switch1.
           destruct (Nat.eqb (wr_id r) (a_session a) || Nat.eqb (wr_session r) (a_session a)) eqn:Es.
           ++ unfold changes, wswitched. cbn [wr_fin]. destruct (wr_fin r) eqn:Ef; [reflexivity|].
              assert (snd (to_cancelled (wr_status r)) = true) as ->.
              { destruct (l_status _ _ J r Hr Ef) as [-> | ->]; reflexivity. }
              apply (means_run _ _ _ _ _ I Hr) in Es. rewrite Ei.
              destruct (q_info_r _ _ _ _ I ra A1) as (v2 & Hi).
              apply (dec_supplant g (wf_log w) (wr_id r) n s inc v (wr_id ra) (wr_node ra) (wr_session ra) (wr_instr ra) v2).
              ** assumption.
              ** apply (run_in_progress _ _ _ _ _ I A1).
              ** assumption.
              ** apply discard_gives_way. rewrite A3 in Hs. exact Hs.
              ** rewrite A3 in Es. exact Es.
           ++ apply changes_none. intros f D. destruct (Hdec r f Hr D) as [_ D2].
              apply (means_run _ _ _ _ _ I Hr) in D2. congruence.
        -- intros r Hr. unfold wreceive in *. cbn [wf_runs] in Hr. unfold wlives. cbn [wf_live].
           rewrite existsb_app. apply orb_true_iff. left. apply (lives_run d0 w r J Hr).
      * unfold wreceive in H. cbn [wf_runs] in H. right. exists r'. split; [assumption|]. split; [reflexivity|].
        apply changes_none. intros f D. destruct (Hdec r' f H D) as [D1 _]. discriminate.
  - right. unfold wvalue in H. destruct (wlives w id) eqn:Elv.
    + cbn [wset_runs wf_runs] in H. fold (value1 id v) in H. apply in_map_iff in H. destruct H as (r & <- & Hr).
      exists r. split; [assumption|]. unfold value1. destruct (Nat.eqb_spec (wr_id r) id) as [<-|N].
      * destruct (wr_fin r) as [f|] eqn:Ef; [split; [reflexivity|]; unfold changes; rewrite Ef; reflexivity|].
        destruct (to_finished (wr_status r)) as [st hit] eqn:Eh. split; [reflexivity|].
        unfold changes, wswitched. cbn [wr_fin]. rewrite Ef.
        destruct (l_status _ _ J r Hr Ef) as [Es|Es]; rewrite Es in Eh; injection Eh as <- <-; constructor.
      * split; [reflexivity|]. apply changes_none. intros f D. inversion D. congruence.
    + exists r'. split; [assumption|]. split; [reflexivity|]. apply changes_none. intros f D. inversion D. subst.
      rewrite (lives_run d0 w r' J H) in Elv. discriminate.
  - right. rewrite (cancel_runs d0) in H by assumption. apply in_map_iff in H. destruct H as (r & <- & Hr).
    exists r. split; [assumption|]. split; [symmetry; apply switch1_skel|]. unfold switch1.
    destruct (Nat.eqb (wr_id r) s || Nat.eqb (wr_session r) s) eqn:Es.
    + unfold changes, wswitched. cbn [wr_fin]. destruct (wr_fin r) eqn:Ef; [reflexivity|].
      assert (snd (to_cancelled (wr_status r)) = true) as ->.
      { destruct (l_status _ _ J r Hr Ef) as [-> | ->]; reflexivity. }
      constructor. apply (means_run _ _ _ _ _ I Hr). assumption.
    + apply changes_none. intros f D. inversion D as [|t c' Hm| |]; subst. apply (means_run _ _ _ _ _ I Hr) in Hm. congruence.
  - assert (Hold : forall r, In r (wf_runs w) -> exists r0, In r0 (wf_runs w) /\ skel r0 = skel r /\
        changes g (wf_log w) (AFinal id ex al) r0 r).
    { intros r Hr. exists r. split; [assumption|]. split; [reflexivity|]. apply changes_none. intros f D. inversion D. }
    destruct (wfinal_shape d0 base g w id ex al I) as [E|(r & f & Hr & <- & Ef & [(v & -> & Ex & E)|(_ & E)])]; rewrite E in H.
    + right. apply Hold. assumption.
    + right. apply Hold. cbn [wsay wset_runs wf_runs] in H. apply filter_In in H. apply H.
    + destruct (end_event_quiet g r f) as [Q Eo]. pose proof (end_event_timed d0 base g w r f I Hr) as Ht.
      unfold wdespawn_one in H. cbn [wset_live wf_runs] in H.
      destruct (wunblock_shape d0 base w r (end_event g r f) al I Hr Q Eo Ht) as [(El & E')|(k & drop & El & Elv & _ & C & D)].
      * rewrite E' in H. cbn [wsay wset_runs wf_runs] in H. right. apply Hold. apply filter_In in H. apply H.
      * destruct C as [(_ & C2 & _)|(o & q & C1 & _ & C2 & _)]; rewrite C2 in H.
        -- right. apply Hold. apply filter_In in H. apply H.
        -- rewrite in_app_iff in H. destruct H as [H|[<-|[]]]; [right; apply Hold; apply filter_In in H; apply H|].
           left. split; [|reflexivity]. cbn [wr_id]. apply (q_fresh _ _ _ _ I). cbn [app]. apply (queued_in _ k).
           rewrite C1. apply in_or_app. right. left. reflexivity.
  - right. unfold wclean in H. cbn [wset_runs wsay wset_del wf_runs] in H.
    rewrite wswitch_map in H by (intros r Hr; apply (lives_run d0 w r J Hr)).
    apply in_map_iff in H. destruct H as (r & <- & Hr).
    exists r. split; [assumption|]. split; [symmetry; apply switch1_skel|]. unfold switch1.
    destruct (Nat.eqb_spec (wr_session r) s) as [<-|N].
    + unfold changes, wswitched. cbn [wr_fin]. destruct (wr_fin r) eqn:Ef; [reflexivity|].
      destruct (wc_unint g) eqn:Eu.
      * assert (snd (to_cleanup true (wr_status r)) = false) as -> by (destruct (wr_status r); reflexivity).
        intros f D. inversion D as [| |n s i v Hu Hm|]; subst. congruence.
      * assert (snd (to_cleanup false (wr_status r)) = true) as ->.
        { destruct (l_status _ _ J r Hr Ef) as [-> | ->]; reflexivity. }
        destruct (q_info_r _ _ _ _ I r Hr) as (v & Hi). econstructor; eassumption.
    + apply changes_none. intros f D. inversion D as [| |n s' i v Hu Hm|]; subst.
      destruct (run_info _ _ _ _ _ _ _ _ I Hr Hm) as (_ & E & _). congruence.
  - right. exists r'. split; [exact H|]. split; [reflexivity|]. apply changes_none. intros f D. inversion D.
Qed.

(** What a step adds to the log. *)
Lemma step_ends base g w a e : WInv base [] w -> In e (wf_log (wstep g w a)) ->
  In e (wf_log w) \/
  forall id f, ended_as e = Some (id, f) -> In id (begun (wf_log (wstep g w a))) ->
    exists r, In r (wf_runs w) /\ wr_id r = id /\ wr_fin r = Some f.
Proof.
  intros I H. destruct a as [n s i v|id v|s c|id ex al|s|s]; cbn [wstep] in *.
  - destruct (wserve_shape d0 base w n s i v I) as [(d' & E & Hd')|[(k & a & El & Ha & Hp & E)|(k & a & inc & El & Ha & Ei & Hp & E)]];
      cbv zeta in E; rewrite E in H.
    + rewrite begin_log in H. unfold wreceive in H. cbn [wf_log] in H. rewrite !in_app_iff in H.
      destruct H as [[H|[<-|[]]]|[<-|[]]]; [left; assumption| |]; right; discriminate.
    + unfold wreceive in H. cbn [wf_log] in H. rewrite !in_app_iff in H.
      destruct H as [H|[<-|[]]]; [left; assumption|]; right; discriminate.
    + assert (H' : In e (wf_log w ++ WReq (wf_next w) n s i v :: map (fun c => WDisp (d_task c) (d_source c) (d_session c) n s)
          (filter (fun c => should_discard inc (d_instr c)) (s_queue (serial_at (wf_del w) k))))).
      { destruct (should_discard inc (a_instr a)); exact H. }
      rewrite in_app_iff in H'. destruct H' as [H'|[<-|H']]; [left; assumption|right; discriminate|].
      apply in_map_iff in H'. destruct H' as (o & <- & _). right; discriminate.
  - left. unfold wvalue in H. destruct (wlives w id); exact H.
  - left. exact H.
  - destruct (wfinal_shape d0 base g w id ex al I) as [E|(r & f & Hr & <- & Ef & [(v & -> & Ex & E)|(_ & E)])]; rewrite E in *.
    + left. assumption.
    + cbn [wsay wset_runs wf_log] in H. rewrite in_app_iff in H. destruct H as [H|[<-|[]]]; [left; assumption|].
      right. intros id f E' _. injection E' as <- <-. exists r. auto.
    + destruct (end_event_quiet g r f) as [Q Eo]. pose proof (end_event_timed d0 base g w r f I Hr) as Ht.
      unfold wdespawn_one in H. cbn [wset_live wf_log] in H.
      assert (H' : In e (wf_log w) \/ e = end_event g r f \/ (exists id, e = WDropped id) \/ exists id v, e = WStart id v).
      { destruct (wunblock_shape d0 base w r (end_event g r f) al I Hr Q Eo Ht) as [(El & E')|(k & drop & El & Elv & _ & C & D)].
        - rewrite E' in H. cbn [wsay wset_runs wf_log] in H. rewrite in_app_iff in H. destruct H as [H|[<-|[]]]; auto.
        - destruct C as [(_ & _ & C3 & _)|(o & q & C1 & _ & _ & C3 & _)]; rewrite C3 in H; rewrite in_app_iff in H.
          + destruct H as [H|[<-|H]]; auto. apply in_map_iff in H. destruct H as (o & <- & _). eauto.
          + destruct H as [H|[<-|H]]; auto. rewrite in_app_iff in H. destruct H as [H|[<-|[]]]; [|eauto 6].
            apply in_map_iff in H. destruct H as (o' & <- & _). eauto. }
      destruct H' as [H'|[->|[(id & ->)|(id & v & ->)]]]; [left; assumption| | |]; right; try discriminate.
      intros id f' E' _. rewrite end_event_ended in E'. injection E' as <- <-. exists r. auto.
  - unfold wclean in *. cbn [wset_runs wsay wset_del wf_log] in *.
    set (gone := filter (fun o => Nat.eqb (d_session o) s) (queued (wf_del w))) in *.
    rewrite in_app_iff in H. destruct H as [H|H]; [left; assumption|right].
    apply in_map_iff in H. destruct H as (o & <- & Ho). intros id f E Hb. exfalso. injection E as <- <-.
    destruct (quiet_logs d0 (wf_log w) (map (fun o => WCleaned (d_task o)) gone)) as (_ & Eb & _).
    { intros e' He. apply in_map_iff in He. destruct He as (o' & <- & _). exact Logic.I. }
    rewrite Eb in Hb. revert Hb. apply (q_fresh _ _ _ _ I). apply filter_In in Ho. apply Ho.
  - left. exact H.
Qed.

Lemma exec_snoc g w (acts : list (wact V)) a : wexec g w (acts ++ [a]) = wstep g (wexec g w acts) a.
Proof. unfold wexec. rewrite fold_left_app. reflexivity. Qed.

Lemma exec_app g w (a1 a2 : list (wact V)) : wexec g w (a1 ++ a2) = wexec g (wexec g w a1) a2.
Proof. unfold wexec. apply fold_left_app. Qed.

Lemma exec_log base g acts : forall w, WInv base [] w -> exists es, wf_log (wexec g w acts) = wf_log w ++ es.
Proof.
  induction acts as [|a acts IH]; intros w I; [exists []; rewrite app_nil_r; reflexivity|].
  destruct (step_log d0 g w a base I) as (es & E). destruct (IH (wstep g w a) (winv_step _ _ g w a I)) as (es' & E').
  exists (es ++ es'). cbn [wexec fold_left]. unfold wexec in E'. rewrite E', E, app_assoc. reflexivity.
Qed.

Lemma considerate_snoc g acts : forall w a,
  considerate_run g w (acts ++ [a]) <-> considerate_run g w acts /\ considerate (wexec g w acts) a.
Proof.
  induction acts as [|b acts IH]; intros w a; cbn [app considerate_run wexec fold_left]; [tauto|].
  rewrite IH. unfold wexec. tauto.
Qed.

Lemma snoc_split {A} (acts : list A) a b1 b b2 : acts ++ [a] = b1 ++ b :: b2 ->
  (b1 = acts /\ b = a /\ b2 = []) \/ exists c, b2 = c ++ [a] /\ acts = b1 ++ b :: c.
Proof.
  intros E. destruct (rev_case b2) as [->|(c & y & ->)].
  - apply app_inj_tail in E. destruct E as [<- <-]. auto.
  - rewrite app_comm_cons, app_assoc in E. apply app_inj_tail in E. destruct E as [E <-]. right. eauto.
Qed.

Lemma outcome_begun base x w L es id : WInv base x w -> wf_log w = L ++ es -> In id (outcomes L) ->
  In id (begun (L ++ es)) -> In id (begun L).
Proof.
  intros I E Ho Hb. rewrite begun_app, in_app_iff in Hb. destruct Hb as [Hb|Hb]; [assumption|]. exfalso.
  apply In_begun in Hb. destruct Hb as (v & Hb). apply in_split in Hb. destruct Hb as (p & q & ->).
  pose proof (q_ok _ _ _ _ I (L ++ p) (WStart id v) q) as Hw. rewrite E, <- app_assoc in Hw. specialize (Hw eq_refl).
  destruct Hw as [Hp _]. apply In_pending in Hp. destruct Hp as (_ & _ & Hp). apply Hp. rewrite outcomes_app.
  apply in_or_app. left. assumption.
Qed.

Lemma ended_outcome e id (f : wfin V) L : ended_as e = Some (id, f) -> In e L -> In id (outcomes L).
Proof.
  intros E H. unfold outcomes. apply in_flat_map. exists e. split; [assumption|].
  destruct e; cbn in *; try discriminate; injection E as <- <-; left; reflexivity.
Qed.

(** ** The history of runs in considerate executions *)
Section History.
Variables (base : nat) (g : wconf) (w0 : wsrv V).
Hypothesis Hd : d0 = Serial serial_new \/ d0 = Parallel [].
Hypothesis Hw0 : w0 = wf_new base d0.

Lemma hist_inv acts : WInv base [] (wexec g w0 acts).
Proof. rewrite Hw0. apply winv_exec. assumption. Qed.

Lemma hist_live acts : considerate_run g w0 acts -> LInv (wexec g w0 acts).
Proof.
  induction acts as [|a acts IH] using rev_ind; intros H.
  - cbn. rewrite Hw0. apply linv_new. assumption.
  - apply considerate_snoc in H. destruct H as [H1 H2]. rewrite exec_snoc.
    apply (linv_step d0 base); [apply hist_inv|apply IH; assumption|assumption].
Qed.

Lemma decided_snoc acts a id f : decided g w0 acts id f -> decided g w0 (acts ++ [a]) id f.
Proof.
  intros (a1 & b & a2 & -> & H). exists a1, b, (a2 ++ [a]). rewrite <- app_assoc. auto.
Qed.

Lemma undecided_snoc acts a id : undecided g w0 acts id ->
  (forall f, ~ decides g (wf_log (wexec g w0 acts)) id a f) -> undecided g w0 (acts ++ [a]) id.
Proof.
  intros H1 H2 b1 b b2 f E Hp. destruct (snoc_split _ _ _ _ _ E) as [(-> & -> & _)|(c & -> & E')].
  - apply H2.
  - apply (H1 b1 b c f E' Hp).
Qed.

Lemma history acts : considerate_run g w0 acts ->
  (forall r, In r (wf_runs (wexec g w0 acts)) ->
     match wr_fin r with
     | None => undecided g w0 acts (wr_id r)
     | Some f => decided g w0 acts (wr_id r) f
     end) /\
  (forall e id f, In e (wf_log (wexec g w0 acts)) -> ended_as e = Some (id, f) ->
     In id (begun (wf_log (wexec g w0 acts))) -> decided g w0 acts id f).
Proof.
  induction acts as [|a acts IH] using rev_ind; intros H.
  - cbn. rewrite Hw0. split; [intros r []|intros e id f []].
  - apply considerate_snoc in H. destruct H as [H1 H2]. destruct (IH H1) as [IH1 IH2].
    pose proof (hist_inv acts) as I. pose proof (hist_live acts H1) as J.
    pose proof (winv_step _ _ g _ a I) as I'. rewrite exec_snoc. set (w := wexec g w0 acts) in *. split.
    + intros r' Hr'. destruct (step_fate base g w a r' I J Hr') as [(Hb & Ef)|(r & Hr & Es & Hch)].
      * rewrite Ef. intros b1 b b2 f E Hp. exfalso. apply Hb.
        assert (Hx : exists c, acts = b1 ++ c).
        { destruct (snoc_split _ _ _ _ _ E) as [(-> & _ & _)|(c & -> & E')]; [exists []; rewrite app_nil_r; reflexivity|eauto]. }
        destruct Hx as (c & Ec). unfold w. rewrite Ec, exec_app. destruct (exec_log base g c _ (hist_inv b1)) as (es & ->).
        rewrite begun_app. apply in_or_app. left. apply In_progress in Hp. apply Hp.
      * assert (Eid : wr_id r' = wr_id r) by (injection Es as E _ _ _ _; symmetry; exact E). rewrite Eid.
        specialize (IH1 r Hr). unfold changes in Hch. destruct (wr_fin r) as [f|].
        -- rewrite Hch. apply decided_snoc. assumption.
        -- destruct (wr_fin r') as [f|].
           ++ exists acts, a, []. split; [reflexivity|]. fold w. split; [apply (run_in_progress _ _ _ _ _ I Hr)|]. auto.
           ++ apply undecided_snoc; assumption.
    + intros e id f He Ee Hb. destruct (step_ends base g w a e I He) as [He'|Hnew].
      * apply decided_snoc. apply (IH2 e id f He' Ee). destruct (step_log d0 g w a base I) as (es & El).
        apply (outcome_begun base [] (wstep g w a) _ es _ I' El); [apply (ended_outcome e id f); assumption|].
        rewrite <- El. assumption.
      * destruct (Hnew id f Ee Hb) as (r & Hr & <- & Ef). specialize (IH1 r Hr). rewrite Ef in IH1.
        apply decided_snoc. assumption.
Qed.

Lemma decided_unique acts id f f' : decided g w0 acts id f -> decided g w0 acts id f' -> f = f'.
Proof.
  intros (a1 & a & a2 & E1 & P1 & D1 & U1) (b1 & b & b2 & E2 & P2 & D2 & U2).
  assert (K : forall (x1 y1 x2 y2 : list (wact V)) x y, x1 ++ x :: x2 = y1 ++ y :: y2 ->
    (x1 = y1 /\ x = y) \/ (exists z, y1 = x1 ++ x :: z) \/ (exists z, x1 = y1 ++ y :: z)).
  { intros x1 y1 x2 y2 x y. revert y1. induction x1 as [|u x1 IH]; intros [|v y1] E; cbn in E; injection E as E Et.
    - auto.
    - subst v. right. left. exists y1. reflexivity.
    - subst u. right. right. exists x1. reflexivity.
    - subst v. destruct (IH y1 Et) as [(-> & ->)|[(z & ->)|(z & ->)]]; [auto| |].
      + right. left. exists z. reflexivity.
      + right. right. exists z. reflexivity. }
  rewrite E1 in E2. destruct (K _ _ _ _ _ _ E2) as [(-> & ->)|[(z & ->)|(z & ->)]].
  - inversion D1; subst; inversion D2; subst; reflexivity.
  - exfalso. apply (U2 a1 a z f eq_refl P1 D1).
  - exfalso. apply (U1 b1 b z f' eq_refl P2 D2).
Qed.

(** A run that is decided ends when it is finished. *)
Lemma decided_ends acts id f ex al : considerate_run g w0 acts ->
  In id (in_progress (wf_log (wexec g w0 acts))) -> decided g w0 acts id f -> (forall n, ex n = true) ->
  exists e, In e (wf_log (wexec g w0 (acts ++ [AFinal id ex al]))) /\ ended_as e = Some (id, f).
Proof.
  intros H1 Hp Hde Hex. rewrite exec_snoc. set (w := wexec g w0 acts) in *.
  pose proof (hist_inv acts) as I. fold w in I. destruct (history acts H1) as [K _].
  destruct (in_progress_run _ _ _ _ _ I Hp) as (r & Hr & Eid). specialize (K r Hr). rewrite Eid in K.
  assert (Ef : wr_fin r = Some f).
  { destruct (wr_fin r) as [f'|].
    - f_equal. apply (decided_unique acts id); assumption.
    - exfalso. destruct Hde as (a1 & a & a2 & E & P1 & D1 & _). apply (K a1 a a2 f E P1 D1). }
  cbn [wstep]. unfold wfinal.
  destruct (find (fun y => Nat.eqb (wr_id y) id) (wf_runs w)) as [y|] eqn:Efind.
  2:{ exfalso. apply (find_none _ _ Efind) in Hr. rewrite Eid, Nat.eqb_refl in Hr. discriminate. }
  destruct (find_run _ _ _ Efind) as [Hy Ey].
  assert (y = r) as -> by (apply (nodup_map_inj wr_id (wf_runs w)); [apply (runs_nodup _ _ _ _ I)|assumption|assumption|congruence]).
  rewrite Ef.
  assert (G : forall e, ended_as e = Some (id, f) -> e = end_event g r f -> exists e', In e' (wf_log (wdespawn_one (wunblock (wsay (wset_runs w
          (filter (fun r => negb (Nat.eqb (wr_id r) id)) (wf_runs w))) [e]) al (wr_block r)) id)) /\ ended_as e' = Some (id, f)).
  { intros e Ee ->. exists (end_event g r f). split; [|assumption]. unfold wdespawn_one. cbn [wset_live wf_log].
    destruct (end_event_quiet g r f) as [Q Eo]. pose proof (end_event_timed d0 base g w r f I Hr) as Ht.
    rewrite <- Eid. fold (others w (wr_id r)).
    destruct (wunblock_shape d0 base w r (end_event g r f) al I Hr Q Eo Ht) as [(El & ->)|(k & drop & El & Elv & _ & C & D)].
    - cbn [wsay wset_runs wf_log]. apply in_or_app. right. left. reflexivity.
    - destruct C as [(_ & _ & -> & _)|(o & q & C1 & _ & _ & -> & _)]; apply in_or_app; right; left; reflexivity. }
  destruct f as [v|c|]; cbn zeta.
  - rewrite Hex. apply G; [cbn; congruence|]. cbn. congruence.
  - apply G; cbn [end_event]; destruct (wc_top g (wr_session r)); cbn; congruence.
  - apply G; cbn; congruence.
Qed.

(** The oldest request of a lane is begun once the one in progress has got its value. *)
Lemma oldest_served acts k id m : considerate_run g w0 acts ->
  among (lane_ids d0 k (wf_log (wexec g w0 acts))) (pending (wf_log (wexec g w0 acts))) = id :: m ->
  exists id0, prog d0 k (wf_log (wexec g w0 acts)) = [id0] /\
    forall v ex al, (forall n, ex n = true) -> (forall n, al n = true) ->
      In id (begun (wf_log (wexec g w0 (acts ++ [AValue id0 v; AFinal id0 ex al])))).
Proof.
  intros H1 Hm. set (w := wexec g w0 acts) in *. pose proof (hist_inv acts) as I. pose proof (hist_live acts H1) as J.
  fold w in I, J. rewrite (pending_lane _ _ _ _ k I) in Hm. cbn [filter app] in Hm.
  destruct (s_queue (serial_at (wf_del w) k)) as [|o q] eqn:Eq; [discriminate|]. cbn [map] in Hm. injection Hm as Eo _.
  destruct (l_busy _ _ J k) as (r & Hr & El).
  { intros E. rewrite (q_idle _ _ _ _ I k E) in Eq. discriminate. }
  exists (wr_id r). split.
  { pose proof (proj2 (prog_runs _ _ _ _ k (wr_id r) I) (ex_intro _ r (conj Hr (conj eq_refl El)))) as Hin.
    pose proof (q_pfx _ _ _ _ I (wf_log w) [] k) as Hl. rewrite app_nil_r in Hl. specialize (Hl eq_refl).
    destruct (prog d0 k (wf_log w)) as [|x [|y l]]; [destruct Hin| |cbn in Hl; lia].
    destruct Hin as [->|[]]. reflexivity. }
  intros v ex al Hex Hal.
  replace (acts ++ [AValue (wr_id r) v; AFinal (wr_id r) ex al]) with ((acts ++ [AValue (wr_id r) v]) ++ [AFinal (wr_id r) ex al])
    by (rewrite <- app_assoc; reflexivity).
  rewrite exec_snoc, exec_snoc. fold w. cbn [wstep].
  set (w1 := wvalue w (wr_id r) v).
  assert (I1 : WInv base [] w1) by (apply winv_value; assumption).
  assert (Ew1 : w1 = wset_runs w (map (value1 (wr_id r) v) (wf_runs w))).
  { unfold w1, wvalue. rewrite (lives_run d0 w r J Hr). reflexivity. }
  set (r1 := value1 (wr_id r) v r).
  assert (Hr1 : In r1 (wf_runs w1)) by (rewrite Ew1; cbn [wset_runs wf_runs]; apply in_map; assumption).
  assert (Es : skel r1 = skel r).
  { unfold r1, value1. rewrite Nat.eqb_refl. destruct (wr_fin r); [reflexivity|]. destruct (to_finished (wr_status r)). reflexivity. }
  assert (Ef : exists f, wr_fin r1 = Some f).
  { unfold r1, value1. rewrite Nat.eqb_refl. destruct (wr_fin r) eqn:Ef; [eauto|]. unfold wswitched.
    destruct (l_status _ _ J r Hr Ef) as [-> | ->]; cbn; rewrite Ef; eauto. }
  destruct Ef as (f & Ef). injection Es as Es1 _ _ Es4 _.
  assert (Edel : wf_del w1 = wf_del w) by (rewrite Ew1; reflexivity).
  destruct (wfinal_shape d0 base g w1 (wr_id r) ex al I1) as [E|(y & f' & Hy & Ey & Ef' & [(v' & -> & Ex & E)|(_ & E)])].
  - exfalso. unfold wfinal in E.
    destruct (find (fun y => Nat.eqb (wr_id y) (wr_id r)) (wf_runs w1)) as [y|] eqn:Efind.
    2:{ apply (find_none _ _ Efind) in Hr1. rewrite Es1, Nat.eqb_refl in Hr1. discriminate. }
    destruct (find_run _ _ _ Efind) as [Hy Ey].
    assert (y = r1) as -> by (apply (nodup_map_inj wr_id (wf_runs w1)); [apply (runs_nodup _ _ _ _ I1)|assumption|assumption|congruence]).
    rewrite Ef in E. apply (f_equal wf_log) in E.
    assert (G : forall e, wf_log (wdespawn_one (wunblock (wsay (wset_runs w1
          (filter (fun r0 => negb (Nat.eqb (wr_id r0) (wr_id r))) (wf_runs w1))) [e]) al (wr_block r1)) (wr_id r)) = wf_log w1 ->
        e = end_event g r1 f -> False).
    { intros e Ee ->. unfold wdespawn_one in Ee. cbn [wset_live wf_log] in Ee.
      destruct (end_event_quiet g r1 f) as [Q Eo']. pose proof (end_event_timed d0 base g w1 r1 f I1 Hr1) as Ht.
      rewrite <- Es1 in Ee. fold (others w1 (wr_id r1)) in Ee.
      destruct (wunblock_shape d0 base w1 r1 (end_event g r1 f) al I1 Hr1 Q Eo' Ht) as [(_ & E')|(k' & drop & _ & _ & _ & C & _)].
      - rewrite E' in Ee. cbn [wsay wset_runs wf_log] in Ee. rewrite <- (app_nil_r (wf_log w1)) in Ee at 2.
        apply app_inv_head in Ee. discriminate.
      - destruct C as [(_ & _ & C3 & _)|(o' & q' & _ & _ & _ & C3 & _)]; rewrite C3 in Ee;
          rewrite <- (app_nil_r (wf_log w1)) in Ee at 2; apply app_inv_head in Ee; discriminate. }
    destruct f as [v'|c|]; cbn zeta in E.
    + rewrite Hex in E. apply (G _ E). cbn. congruence.
    + apply (G _ E). cbn. rewrite Es1. reflexivity.
    + apply (G _ E). cbn. congruence.
  - rewrite Hex in Ex. discriminate.
  - rewrite E. unfold wdespawn_one. cbn [wset_live wf_log]. rewrite <- Ey. 
    assert (y = r1) as -> by (apply (nodup_map_inj wr_id (wf_runs w1)); [apply (runs_nodup _ _ _ _ I1)|assumption|assumption|congruence]).
    destruct (end_event_quiet g r1 f') as [Q Eo']. pose proof (end_event_timed d0 base g w1 r1 f' I1 Hr1) as Ht.
    destruct (wunblock_shape d0 base w1 r1 (end_event g r1 f') al I1 Hr1 Q Eo' Ht) as [(El' & _)|(k' & drop & El' & _ & Hdr & C & _)].
    + congruence.
    + assert (k' = k) as -> by congruence. rewrite Edel, Eq in C.
      destruct drop as [|o1 drop]; [|specialize (Hdr o1 (or_introl eq_refl)); rewrite Hal in Hdr; discriminate].
      destruct C as [(C1 & _)|(o' & q' & C1 & _ & _ & -> & _)]; [discriminate|]. injection C1 as <- <-. cbn [map app].
      rewrite begun_app. apply in_or_app. right. rewrite <- Eo.
      apply In_begun. exists (d_request o). right. left. reflexivity.
Qed.

End History.

End Workflow.
