(** C77 and C78: workflows as services. *)
From Verif Require Import Base DeliveryModel DeliverySpec DeliveryProofs ScopeModel
  WorkflowModel WorkflowSpec WorkflowProofs WorkflowProofs2 WorkflowProofs3 WorkflowProofs4.

Section Lines.
Context {V : Type}.

Lemma serial_ids L : lane_ids (Serial serial_new : delivery V) None L = received L.
Proof.
  induction L as [|e L IH]; [reflexivity|]. destruct e; cbn in *; rewrite ?IH; reflexivity.
Qed.

Lemma parallel_ids n L : lane_ids (Parallel [] : delivery V) (Some n) L = of_label n L.
Proof.
  induction L as [|e L IH]; [reflexivity|]. unfold lane_ids, of_label in *. destruct e as [id m s [i|] v| | | | | | | | |]; cbn in *; rewrite ?IH; reflexivity.
Qed.

Lemma among_all ids m : (forall id, In id m -> In id ids) -> among ids m = m.
Proof.
  intros H. unfold among. rewrite (filter_same _ (fun _ => true)); [apply filter_true_w|].
  intros id Hid. apply mem_In. apply H. assumption.
Qed.

Lemma pending_received L id : In id (pending L) -> In id (@received V L).
Proof. intros H. apply In_pending in H. apply H. Qed.

Lemma new_inv (w0 : wsrv V) : new_service w0 -> exists base d0, (d0 = Serial serial_new \/ d0 = Parallel []) /\ w0 = wf_new base d0.
Proof. intros (base & [-> | ->]); [exists base, (Serial serial_new)|exists base, (Parallel [])]; auto. Qed.

Lemma prefix_begun d0 base (w : wsrv V) p q id : WInv d0 base [] w -> wf_log w = p ++ q -> In id (begun p) -> In id (received p).
Proof.
  intros I E H. apply In_begun in H. destruct H as (v & H). apply in_split in H. destruct H as (p1 & p2 & ->).
  rewrite <- app_assoc in E. pose proof (q_ok _ _ _ _ I p1 _ _ E) as [Hp _]. apply pending_received in Hp.
  rewrite received_app. apply in_or_app. left. assumption.
Qed.

(** What is never ended keeps its line. *)
Lemma blocked_line d0 base (w : wsrv V) L es k id : WInv d0 base [] w -> wf_log w = L ++ es ->
  In id (lane_ids d0 k L) -> In id (begun L) -> In id (in_progress (wf_log w)) ->
  forall id', In id' (lane_ids d0 k (wf_log w)) -> In id' (begun (wf_log w)) -> In id' (begun L).
Proof.
  intros I E Hk Hb Hp id' Hk' Hb'. rewrite E, begun_app, in_app_iff in Hb'. destruct Hb' as [|Hb']; [assumption|]. exfalso.
  apply In_begun in Hb'. destruct Hb' as (v & Hb'). apply in_split in Hb'. destruct Hb' as (p & q & ->).
  assert (E1 : wf_log w = (L ++ p) ++ WStart id' v :: q) by (rewrite E, <- app_assoc; reflexivity).
  assert (E2 : wf_log w = ((L ++ p) ++ [WStart id' v]) ++ q) by (rewrite E, <- !app_assoc; reflexivity).
  pose proof (q_ok _ _ _ _ I _ _ _ E1) as [Hpe (n & s & i & Hi)]. apply In_pending in Hpe. destruct Hpe as (P1 & P2 & P3).
  pose proof (q_pfx _ _ _ _ I _ _ k E2) as Hlen.
  assert (H1 : In id (prog d0 k ((L ++ p) ++ [WStart id' v]))).
  { apply In_prog. split; [rewrite !lane_ids_app, !in_app_iff; auto|]. split; [rewrite !begun_app, !in_app_iff; auto|].
    apply In_progress in Hp. destruct Hp as [_ Hp]. intros K. apply Hp. rewrite E2, outcomes_app. apply in_or_app. left. assumption. }
  assert (H2 : In id' (prog d0 k ((L ++ p) ++ [WStart id' v]))).
  { apply In_prog. split.
    - rewrite lane_ids_app. apply in_or_app. left. apply In_lane_ids in Hk'. destruct Hk' as (n' & s' & i' & v' & Hi' & El).
      assert (Hi2 : In (WReq id' n s i v) (wf_log w)) by (rewrite E1; apply in_or_app; left; assumption).
      pose proof (info_unique _ _ _ _ _ _ _ _ _ _ (received_nodup _ _ _ _ I) Hi' Hi2) as Eq. injection Eq as -> -> -> ->.
      apply In_lane_ids. eauto 7.
    - split; [rewrite begun_app; apply in_or_app; right; left; reflexivity|].
      rewrite outcomes_app, in_app_iff. cbn. tauto. }
  assert (N : id <> id') by (intros ->; apply P2; rewrite begun_app; apply in_or_app; left; assumption).
  destruct (prog d0 k ((L ++ p) ++ [WStart id' v])) as [|x [|y l]]; [destruct H1| |cbn in Hlen; lia].
  destruct H1 as [<-|[]], H2 as [<-|[]]. congruence.
Qed.

Lemma begun_same d0 base (w : wsrv V) L es : WInv d0 base [] w -> wf_log w = L ++ es ->
  (forall id, In id (begun (wf_log w)) -> In id (begun L)) -> begun (wf_log w) = begun L.
Proof.
  intros I E H. pose proof (q_once _ _ _ _ I) as N. rewrite E, begun_app in *.
  destruct (begun es) as [|x l]; [apply app_nil_r|]. exfalso. apply NoDup_remove_2 in N. apply N. apply in_or_app. left.
  apply H. apply in_or_app. right. left. reflexivity.
Qed.

End Lines.

(** ** C77: requests to a workflow, one at a time, in order, each with one outcome *)

(** Every event fits to what has happened before, whatever happens; in particular nothing
    panics, each run gets the value of its request, each response goes to the node and session
    of the request. *)
Theorem C77_every_event_in_time {V} g (w0 : wsrv V) acts p e q :
  new_service w0 -> wf_log (wexec g w0 acts) = p ++ e :: q -> well_timed p e.
Proof.
  intros Hn. destruct (new_inv w0 Hn) as (base & d0 & Hd & ->). apply (winv_exec d0 base g acts Hd).
Qed.
Print Assumptions C77_every_event_in_time.

(** No request has two outcomes, none begins twice. *)
Theorem C77_one_outcome {V} g (w0 : wsrv V) acts : new_service w0 ->
  NoDup (outcomes (wf_log (wexec g w0 acts))) /\ NoDup (begun (wf_log (wexec g w0 acts))).
Proof.
  intros Hn. destruct (new_inv w0 Hn) as (base & d0 & Hd & ->). pose proof (winv_exec d0 base g acts Hd) as I. split.
  - pose proof (ledger_nodup_w _ _ _ _ I) as N. rewrite !app_assoc in N.
    revert N. generalize (outcomes (wf_log (wexec g (wf_new base d0) acts))). match goal with |- forall l, NoDup (?x ++ l) -> _ => generalize x end.
    intros x l. induction x as [|y x IH]; intros N; [assumption|]. apply IH. inversion N. assumption.
  - apply (q_once _ _ _ _ I).
Qed.
Print Assumptions C77_one_outcome.

(** At no time is more than one request in progress: of the service, or with a label. *)
Theorem C77_one_at_a_time {V} g base acts :
  (forall p q, wf_log (wexec g (@wf_serial V base) acts) = p ++ q -> length (in_progress p) <= 1) /\
  (forall p q n, wf_log (wexec g (@wf_parallel V base) acts) = p ++ q ->
     length (among (of_label n p) (in_progress p)) <= 1).
Proof.
  split.
  - intros p q E. pose proof (winv_exec (Serial serial_new) base g acts (or_introl eq_refl)) as I.
    pose proof (q_pfx _ _ _ _ I p q None E) as H. unfold prog in H. rewrite serial_ids, among_all in H; [assumption|].
    intros id K. apply In_progress in K. apply (prefix_begun _ _ _ _ _ _ I E). apply K.
  - intros p q n E. pose proof (winv_exec (Parallel []) base g acts (or_intror eq_refl)) as I.
    pose proof (q_pfx _ _ _ _ I p q (Some n) E) as H. unfold prog in H. rewrite parallel_ids in H. assumption.
Qed.
Print Assumptions C77_one_at_a_time.

(** The request that begins is the oldest of those waiting: of the service, or with its label. *)
Theorem C77_oldest_first {V} g base acts :
  (forall p id v q, wf_log (wexec g (@wf_serial V base) acts) = p ++ WStart id v :: q ->
     exists m, pending p = id :: m) /\
  (forall p id v q n, wf_log (wexec g (@wf_parallel V base) acts) = p ++ WStart id v :: q ->
     In id (of_label n p) -> exists m, among (of_label n p) (pending p) = id :: m).
Proof.
  split.
  - intros p id v q E. pose proof (winv_exec (Serial serial_new) base g acts (or_introl eq_refl)) as I.
    destruct (q_ok _ _ _ _ I p _ _ E) as [Hp _].
    destruct (q_first _ _ _ _ I p id v q None E) as (m & H).
    { rewrite serial_ids. apply pending_received. assumption. }
    rewrite serial_ids, among_all in H by apply pending_received. eauto.
  - intros p id v q n E Hid. pose proof (winv_exec (Parallel []) base g acts (or_intror eq_refl)) as I.
    destruct (q_first _ _ _ _ I p id v q (Some n) E) as (m & H); [rewrite parallel_ids; assumption|].
    rewrite parallel_ids in H. eauto.
Qed.
Print Assumptions C77_oldest_first.

(** A run ends as the first thing that decided it says; and it does end so when its nodes are
    done. *)
Theorem C77_first_decision {V} g (w0 : wsrv V) acts : new_service w0 -> considerate_run g w0 acts ->
  (forall e id f, In e (wf_log (wexec g w0 acts)) -> ended_as e = Some (id, f) ->
     In id (begun (wf_log (wexec g w0 acts))) -> decided g w0 acts id f) /\
  (forall id f ex al, In id (in_progress (wf_log (wexec g w0 acts))) -> decided g w0 acts id f ->
     (forall n, ex n = true) ->
     exists e, In e (wf_log (wexec g w0 (acts ++ [AFinal id ex al]))) /\ ended_as e = Some (id, f)).
Proof.
  intros Hn Hc. destruct (new_inv w0 Hn) as (base & d0 & Hd & E). split.
  - apply (history d0 base g w0 Hd E acts Hc).
  - intros id f ex al Hp Hde Hex. apply (decided_ends d0 base g w0 Hd E acts id f ex al Hc Hp Hde Hex).
Qed.
Print Assumptions C77_first_decision.

(** The oldest request waiting begins once the one in progress has given its response. *)
Theorem C77_next_is_served_partial {V} g base acts :
  (forall id m, considerate_run g (@wf_serial V base) acts ->
     pending (wf_log (wexec g (wf_serial base) acts)) = id :: m ->
     exists id0, in_progress (wf_log (wexec g (wf_serial base) acts)) = [id0] /\
       forall v ex al, (forall n, ex n = true) -> (forall n, al n = true) ->
         In id (begun (wf_log (wexec g (wf_serial base) (acts ++ [AValue id0 v; AFinal id0 ex al]))))) /\
  (forall n id m, considerate_run g (@wf_parallel V base) acts ->
     among (of_label n (wf_log (wexec g (wf_parallel base) acts))) (pending (wf_log (wexec g (wf_parallel base) acts))) = id :: m ->
     exists id0, among (of_label n (wf_log (wexec g (wf_parallel base) acts))) (in_progress (wf_log (wexec g (wf_parallel base) acts))) = [id0] /\
       forall v ex al, (forall n, ex n = true) -> (forall n, al n = true) ->
         In id (begun (wf_log (wexec g (wf_parallel base) (acts ++ [AValue id0 v; AFinal id0 ex al]))))).
Proof.
  split.
  - intros id m Hc Hm. pose proof (winv_exec (Serial serial_new) base g acts (or_introl eq_refl)) as I.
    destruct (oldest_served (Serial serial_new) base g (wf_serial base) (or_introl eq_refl) eq_refl acts None id m Hc) as (id0 & H1 & H2).
    { rewrite serial_ids, among_all by apply pending_received. assumption. }
    exists id0. split; [|assumption]. unfold prog in H1. rewrite serial_ids, among_all in H1; [assumption|].
    intros id' K. apply In_progress in K. apply (begun_received _ _ _ _ _ I). apply K.
  - intros n id m Hc Hm.
    destruct (oldest_served (Parallel []) base g (wf_parallel base) (or_intror eq_refl) eq_refl acts (Some n) id m Hc) as (id0 & H1 & H2).
    { rewrite parallel_ids. assumption. }
    exists id0. split; [|assumption]. unfold prog in H1. rewrite parallel_ids in H1. assumption.
Qed.
Print Assumptions C77_next_is_served_partial.

(** A decided run of a considerate execution. *)
Lemma decided_run {V} d0 base g (w0 : wsrv V) acts id f : (d0 = Serial serial_new \/ d0 = Parallel []) -> w0 = wf_new base d0 ->
  considerate_run g w0 acts -> In id (in_progress (wf_log (wexec g w0 acts))) ->
  (decided g w0 acts id f -> exists r, In r (wf_runs (wexec g w0 acts)) /\ wr_id r = id /\ wr_fin r = Some f) /\
  (undecided g w0 acts id -> exists r, In r (wf_runs (wexec g w0 acts)) /\ wr_id r = id /\ wr_fin r = None).
Proof.
  intros Hd E Hc Hp. pose proof (hist_inv d0 base g w0 Hd E acts) as I. destruct (history d0 base g w0 Hd E acts Hc) as [K _].
  destruct (in_progress_run _ _ _ _ _ I Hp) as (r & Hr & Eid). specialize (K r Hr). rewrite Eid in K. split.
  - intros D. exists r. split; [assumption|]. split; [assumption|]. destruct (wr_fin r) as [f'|].
    + f_equal. eapply decided_unique; eassumption.
    + exfalso. destruct D as (a1 & a & a2 & E' & P & D & _). apply (K a1 a a2 f E' P D).
  - intros U. exists r. split; [assumption|]. split; [assumption|]. destruct (wr_fin r) as [f'|]; [|reflexivity].
    exfalso. destruct K as (a1 & a & a2 & E' & P & D & _). apply (U a1 a a2 f' E' P D).
Qed.

Lemma lost_lane {V} d0 base g (w0 : wsrv V) acts id n s i v v' k ex al : (d0 = Serial serial_new \/ d0 = Parallel []) -> w0 = wf_new base d0 ->
  considerate_run g w0 acts -> In id (in_progress (wf_log (wexec g w0 acts))) ->
  In (WReq id n s i v) (wf_log (wexec g w0 acts)) -> decided g w0 acts id (FinResp v') -> ex n = false -> lane d0 i = Some k ->
  In (WLost id v') (wf_log (wexec g w0 (acts ++ [AFinal id ex al]))) /\
  forall more id', let L := wf_log (wexec g w0 (acts ++ [AFinal id ex al] ++ more)) in
    In id' (lane_ids d0 k L) -> In id' (begun L) -> In id' (begun (wf_log (wexec g w0 acts))).
Proof.
  intros Hd E Hc Hp Hi Hde Hex El. pose proof (hist_inv d0 base g w0 Hd E acts) as I.
  destruct (decided_run d0 base g w0 acts id (FinResp v') Hd E Hc Hp) as [K _]. destruct (K Hde) as (r & Hr & Eid & Ef).
  rewrite <- Eid in Hi. destruct (run_info _ _ _ _ _ _ _ _ _ I Hr Hi) as (-> & -> & ->).
  destruct (stuck_enter d0 base g (wexec g w0 acts) r v' k ex al I Hr Ef El Hex) as [S Hl]. rewrite Eid in S, Hl.
  split; [rewrite exec_snoc; cbn [wstep]; rewrite Hl; apply in_or_app; right; left; reflexivity|].
  intros more id'. cbv zeta. rewrite exec_app. cbn [app wexec fold_left wstep].
  change (fold_left (wstep g) more (wfinal g (wexec g w0 acts) id ex al)) with (wexec g (wfinal g (wexec g w0 acts) id ex al) more).
  intros H1 H2. destruct (stuck_exec d0 base g k more (wfinal g (wexec g w0 acts) id ex al)) as [_ B]; [|assumption|].
  - apply winv_final. assumption.
  - specialize (B id' H1 H2). rewrite Hl, begun_app in B. cbn in B. rewrite app_nil_r in B. assumption.
Qed.

(** If the target of the response is gone when a run ends, nothing waiting behind it is ever
    begun again: of the whole service, or with its label. *)
Theorem C77_lost_target_refuted {V} g base acts id n s i v v' ex al : ex n = false ->
  (considerate_run g (@wf_serial V base) acts ->
   In id (in_progress (wf_log (wexec g (wf_serial base) acts))) ->
   In (WReq id n s i v) (wf_log (wexec g (wf_serial base) acts)) ->
   decided g (wf_serial base) acts id (FinResp v') ->
   In (WLost id v') (wf_log (wexec g (wf_serial base) (acts ++ [AFinal id ex al]))) /\
   forall more, begun (wf_log (wexec g (wf_serial base) (acts ++ [AFinal id ex al] ++ more)))
                = begun (wf_log (wexec g (wf_serial base) acts))) /\
  (forall inc, i = Some inc -> considerate_run g (@wf_parallel V base) acts ->
   In id (in_progress (wf_log (wexec g (wf_parallel base) acts))) ->
   In (WReq id n s i v) (wf_log (wexec g (wf_parallel base) acts)) ->
   decided g (wf_parallel base) acts id (FinResp v') ->
   forall more id', let L := wf_log (wexec g (wf_parallel base) (acts ++ [AFinal id ex al] ++ more)) in
     In id' (of_label (i_label inc) L) -> In id' (begun L) ->
     In id' (begun (wf_log (wexec g (wf_parallel base) acts)))).
Proof.
  intros Hex. split.
  - intros Hc Hp Hi Hde.
    destruct (lost_lane (Serial serial_new) base g (wf_serial base) acts id n s i v v' None ex al
      (or_introl eq_refl) eq_refl Hc Hp Hi Hde Hex eq_refl) as [H1 H2]. split; [assumption|].
    intros more. cbv zeta in H2.
    pose proof (winv_exec (Serial serial_new) base g acts (or_introl eq_refl)) as I0.
    pose proof (winv_exec (Serial serial_new) base g (acts ++ [AFinal id ex al] ++ more) (or_introl eq_refl)) as I.
    destruct (exec_log (Serial serial_new) base g ([AFinal id ex al] ++ more) _ I0) as (es & Ee).
    change (wf_new base (Serial serial_new)) with (@wf_serial V base) in *. rewrite <- exec_app in Ee.
    apply (begun_same _ _ _ _ _ I Ee). intros id' K. apply (H2 more); [|assumption].
    rewrite serial_ids. apply (begun_received _ _ _ _ _ I). assumption.
  - intros inc -> Hc Hp Hi Hde more id' L H1 H2.
    destruct (lost_lane (Parallel []) base g (wf_parallel base) acts id n s (Some inc) v v' (Some (i_label inc)) ex al
      (or_intror eq_refl) eq_refl Hc Hp Hi Hde Hex eq_refl) as [_ H]. apply (H more); [|assumption].
    rewrite parallel_ids. exact H1.
Qed.
Print Assumptions C77_lost_target_refuted.

Lemma outer_dead {V} d0 base g (w0 : wsrv V) acts id n s i v : (d0 = Serial serial_new \/ d0 = Parallel []) -> w0 = wf_new base d0 ->
  considerate_run g w0 acts -> In id (in_progress (wf_log (wexec g w0 acts))) ->
  In (WReq id n s i v) (wf_log (wexec g w0 acts)) -> undecided g w0 acts id -> wc_unint g = true ->
  forall more, In id (in_progress (wf_log (wexec g w0 (acts ++ [AClean s; ADespawn s] ++ more)))).
Proof.
  intros Hd E Hc Hp Hi Hu Hun more. pose proof (hist_inv d0 base g w0 Hd E acts) as I.
  destruct (decided_run d0 base g w0 acts id FinEarly Hd E Hc Hp) as [_ K]. destruct (K Hu) as (r & Hr & Eid & Ef).
  rewrite exec_app. set (w := wexec g w0 acts) in *.
  cbn [app wexec fold_left]. set (w2 := wstep g (wstep g w (AClean s)) (ADespawn s)).
  change (fold_left (wstep g) more w2) with (wexec g w2 more).
  assert (I1 : WInv d0 base [] (wstep g w (AClean s))) by (apply winv_step; assumption).
  assert (I2 : WInv d0 base [] w2) by (apply winv_step; assumption).
  assert (Hli : live_info w).
  { unfold w. rewrite E. clear -Hd. induction acts as [|a acts IH] using rev_ind; [intros p []|].
    rewrite exec_snoc. apply (live_info_step d0 base); [apply winv_exec; assumption|assumption]. }
  assert (D : dead id w2).
  { split.
    - unfold w2. cbn [wstep wdespawn wset_live wf_runs]. unfold wclean. cbn [wset_runs wsay wset_del wf_runs].
      assert (G : forall live sel l ok, In r l -> exists r', In r' (wswitch live sel (to_cleanup (wc_unint g)) FinEarly ok l) /\ wr_id r' = id /\ wr_fin r' = None).
      { intros live sel l. induction l as [|y l IH]; intros ok H; [destruct H|]. cbn [wswitch]. rewrite Hun. destruct H as [->|H].
        - destruct (sel r); [|exists r; split; [left; reflexivity|auto]].
          destruct (wr_status r); cbn [to_cleanup]; eexists; (split; [left; reflexivity|split; [exact Eid|]]);
            unfold wswitched; cbn [wr_fin]; rewrite Ef; reflexivity.
        - rewrite Hun in IH. destruct (sel y).
          + destruct (to_cleanup true (wr_status y)) as [st hit]. destruct (IH (if hit then ok && live (wr_id y) else ok) H) as (r' & R).
            exists r'. split; [right; apply R|apply R].
          + destruct (IH ok H) as (r' & R). exists r'. split; [right; apply R|apply R]. }
      apply G. assumption.
    - unfold w2, wlives. cbn [wstep wdespawn wset_live wf_live]. apply not_true_iff_false. rewrite existsb_exists.
      intros (p & Hin & Ep). apply filter_In in Hin. destruct Hin as [Hin Es]. apply Nat.eqb_eq in Ep.
      destruct (Hli p Hin) as (n' & i' & v' & Hi'). rewrite Ep in Hi'.
      pose proof (info_unique _ _ _ _ _ _ _ _ _ _ (received_nodup _ _ _ _ I) Hi Hi') as Eq. injection Eq as _ Eq _ _.
      rewrite <- Eq, Nat.eqb_refl in Es. discriminate. }
  pose proof (dead_exec d0 base g id more w2 I2 D) as [(r' & Hr' & <- & _) _].
  apply (run_in_progress d0 base [] _ r'); [|assumption]. apply winv_exec_from. assumption.
Qed.

(** If the session around a run of an uninterruptible workflow ends, the run stays in progress
    for ever, and nothing behind it is begun again. *)
Theorem C77_outer_end_refuted {V} g base acts id n s i v : wc_unint g = true ->
  (considerate_run g (@wf_serial V base) acts ->
   In id (in_progress (wf_log (wexec g (wf_serial base) acts))) ->
   In (WReq id n s i v) (wf_log (wexec g (wf_serial base) acts)) ->
   undecided g (wf_serial base) acts id ->
   forall more, let L := wf_log (wexec g (wf_serial base) (acts ++ [AClean s; ADespawn s] ++ more)) in
     In id (in_progress L) /\ begun L = begun (wf_log (wexec g (wf_serial base) acts))) /\
  (considerate_run g (@wf_parallel V base) acts ->
   In id (in_progress (wf_log (wexec g (wf_parallel base) acts))) ->
   In (WReq id n s i v) (wf_log (wexec g (wf_parallel base) acts)) ->
   undecided g (wf_parallel base) acts id ->
   forall more, let L := wf_log (wexec g (wf_parallel base) (acts ++ [AClean s; ADespawn s] ++ more)) in
     In id (in_progress L) /\
     forall inc id', i = Some inc -> In id' (of_label (i_label inc) L) -> In id' (begun L) ->
       In id' (begun (wf_log (wexec g (wf_parallel base) acts)))).
Proof.
  intros Hun. split; intros Hc Hp Hi Hu more L.
  - assert (Hp' : In id (in_progress L)).
    { apply (outer_dead (Serial serial_new) base g (wf_serial base) acts id n s i v (or_introl eq_refl) eq_refl); assumption. }
    split; [assumption|].
    pose proof (winv_exec (Serial serial_new) base g acts (or_introl eq_refl)) as I0.
    pose proof (winv_exec (Serial serial_new) base g (acts ++ [AClean s; ADespawn s] ++ more) (or_introl eq_refl)) as I.
    destruct (exec_log (Serial serial_new) base g ([AClean s; ADespawn s] ++ more) _ I0) as (es & Ee).
    change (wf_new base (Serial serial_new)) with (@wf_serial V base) in *. rewrite <- exec_app in Ee.
    apply (begun_same _ _ _ _ _ I Ee). intros id' K.
    apply In_progress in Hp. destruct Hp as [Hb _].
    apply (blocked_line _ _ _ _ _ None id I Ee); rewrite ?serial_ids; try assumption.
    + apply (begun_received _ _ _ _ _ I0). assumption.
    + apply (begun_received _ _ _ _ _ I). assumption.
  - assert (Hp' : In id (in_progress L)).
    { apply (outer_dead (Parallel []) base g (wf_parallel base) acts id n s i v (or_intror eq_refl) eq_refl); assumption. }
    split; [assumption|]. intros inc id' -> K1 K2.
    pose proof (winv_exec (Parallel []) base g acts (or_intror eq_refl)) as I0.
    pose proof (winv_exec (Parallel []) base g (acts ++ [AClean s; ADespawn s] ++ more) (or_intror eq_refl)) as I.
    destruct (exec_log (Parallel []) base g ([AClean s; ADespawn s] ++ more) _ I0) as (es & Ee).
    change (wf_new base (Parallel [])) with (@wf_parallel V base) in *. rewrite <- exec_app in Ee.
    apply In_progress in Hp. destruct Hp as [Hb _].
    apply (blocked_line _ _ _ _ _ (Some (i_label inc)) id I Ee); rewrite ?parallel_ids; try assumption.
    unfold of_label. apply in_flat_map. eexists. split; [exact Hi|]. cbn. rewrite Nat.eqb_refl. left. reflexivity.
Qed.
Print Assumptions C77_outer_end_refuted.

(** ** C78: preemption and cancellation of workflow services *)

(** A preempting request disposes of exactly the waiting requests with its label that are not
    ensured, and tells on whose behalf; others wait on. A request that does not preempt ends
    none. *)
Theorem C78_waiting_requests_give_way {V} g (w0 : wsrv V) acts n s v : new_service w0 ->
  (forall inc id n2 s2 i2 v2, i_preempt inc = true ->
     In id (pending (wf_log (wexec g w0 acts))) -> In (WReq id n2 s2 i2 v2) (wf_log (wexec g w0 acts)) ->
     (gives_way inc i2 -> In (WDisp id n2 s2 n s) (wf_log (wexec g w0 (acts ++ [ARequest n s (Some inc) v])))) /\
     (~ gives_way inc i2 -> In id (pending (wf_log (wexec g w0 (acts ++ [ARequest n s (Some inc) v])))))) /\
  (forall i, (forall inc, i = Some inc -> i_preempt inc = false) ->
     outcomes (wf_log (wexec g w0 (acts ++ [ARequest n s i v]))) = outcomes (wf_log (wexec g w0 acts))).
Proof.
  intros Hn. destruct (new_inv w0 Hn) as (base & d0 & Hd & E). pose proof (hist_inv d0 base g w0 Hd E acts) as I. split.
  - intros inc id n2 s2 i2 v2 Hp Hw Hi. rewrite exec_snoc. apply (preemption d0 base g _ n s inc v I Hp id n2 s2 i2 v2 Hw Hi).
  - intros i Hi. rewrite exec_snoc. apply (no_preemption d0 base g _ n s i v I Hi).
Qed.
Print Assumptions C78_waiting_requests_give_way.

Lemma decided_now {V} g (w0 : wsrv V) acts a id f : In id (in_progress (wf_log (wexec g w0 acts))) ->
  undecided g w0 acts id -> decides g (wf_log (wexec g w0 acts)) id a f -> decided g w0 (acts ++ [a]) id f.
Proof. intros H1 H2 H3. exists acts, a, []. auto. Qed.

Lemma still_in_progress {V} g (w0 : wsrv V) acts n s i v id : new_service w0 ->
  In id (in_progress (wf_log (wexec g w0 acts))) -> In id (in_progress (wf_log (wexec g w0 (acts ++ [ARequest n s i v])))).
Proof.
  intros Hn Hp. destruct (new_inv w0 Hn) as (base & d0 & Hd & E). pose proof (hist_inv d0 base g w0 Hd E acts) as I.
  apply In_progress in Hp. destruct Hp as [H1 H2]. apply In_progress.
  destruct (step_log d0 g (wexec g w0 acts) (ARequest n s i v) base I) as (es & El). rewrite exec_snoc. split.
  - rewrite El, begun_app. apply in_or_app. left. assumption.
  - intros K. assert (Hr : In id (outcomes (wf_log (wexec g w0 acts))) \/ In id (pending (wf_log (wexec g w0 acts)))).
    { cbn [wstep] in K.
      destruct (wserve_shape d0 base (wexec g w0 acts) n s i v I) as [(d' & E' & _)|[(k0 & a & _ & _ & _ & E')|(k0 & a & inc' & _ & _ & _ & _ & E')]];
        cbv zeta in E'; rewrite E' in K.
      - rewrite begin_log in K. unfold wreceive in K. cbn [wf_log] in K. rewrite !outcomes_app, !in_app_iff in K. cbn in K. tauto.
      - unfold wreceive in K. cbn [wf_log] in K. rewrite outcomes_app, in_app_iff in K. cbn in K. tauto.
      - assert (K' : In id (outcomes (wf_log (wexec g w0 acts) ++ WReq (wf_next (wexec g w0 acts)) n s i v ::
            map (fun c => WDisp (d_task c) (d_source c) (d_session c) n s)
              (filter (fun c => should_discard inc' (d_instr c)) (s_queue (serial_at (wf_del (wexec g w0 acts)) k0)))))).
        { destruct (should_discard inc' (a_instr a)); exact K. }
        rewrite outcomes_app, in_app_iff in K'. destruct K' as [K'|K']; [auto|]. right. unfold outcomes in K'. apply in_flat_map in K'.
        destruct K' as (e & [<-|He] & K'); [destruct K'|]. apply in_map_iff in He. destruct He as (o & <- & Ho).
        apply filter_In in Ho. destruct Ho as [Ho _]. cbn in K'. destruct K' as [<-|[]].
        exfalso. apply (q_fresh _ _ _ _ I o); [apply (queued_in _ _ _ Ho)|assumption]. }
    destruct Hr as [Hr|Hr]; [contradiction|]. apply In_pending in Hr. tauto.
Qed.

(** The request in progress that gives way is cancelled on behalf of the preempting one, unless
    its end was decided before. *)
Theorem C78_request_in_progress_gives_way {V} g (w0 : wsrv V) acts n s inc v id n2 s2 i2 v2 ex al :
  new_service w0 -> considerate_run g w0 acts -> i_preempt inc = true ->
  In id (in_progress (wf_log (wexec g w0 acts))) -> In (WReq id n2 s2 i2 v2) (wf_log (wexec g w0 acts)) ->
  gives_way inc i2 -> undecided g w0 acts id -> (forall n, ex n = true) ->
  exists e, In e (wf_log (wexec g w0 (acts ++ [ARequest n s (Some inc) v; AFinal id ex al]))) /\
    ended_as e = Some (id, FinCancel (WSupplanted n s)).
Proof.
  intros Hn Hc Hpre Hp Hi Hg Hu Hex.
  replace (acts ++ [ARequest n s (Some inc) v; AFinal id ex al]) with ((acts ++ [ARequest n s (Some inc) v]) ++ [AFinal id ex al]) by (rewrite <- app_assoc; reflexivity).
  apply C77_first_decision; [assumption|apply considerate_snoc; split; [assumption|exact Logic.I]|apply still_in_progress; assumption| |assumption].
  apply decided_now; [assumption|assumption|]. apply (dec_supplant g _ id n s inc v id n2 s2 i2 v2); auto.
  right. eauto.
Qed.
Print Assumptions C78_request_in_progress_gives_way.

(** And so is every other run of the same session, whatever its label, even if it is ensured. *)
Theorem C78_same_session_refuted {V} g (w0 : wsrv V) acts n s inc v id2 n2 s2 i2 v2 id n3 i3 v3 ex al :
  new_service w0 -> considerate_run g w0 acts -> i_preempt inc = true ->
  In id2 (in_progress (wf_log (wexec g w0 acts))) -> In (WReq id2 n2 s2 i2 v2) (wf_log (wexec g w0 acts)) ->
  gives_way inc i2 ->
  In id (in_progress (wf_log (wexec g w0 acts))) -> In (WReq id n3 s2 i3 v3) (wf_log (wexec g w0 acts)) ->
  undecided g w0 acts id -> (forall n, ex n = true) ->
  exists e, In e (wf_log (wexec g w0 (acts ++ [ARequest n s (Some inc) v; AFinal id ex al]))) /\
    ended_as e = Some (id, FinCancel (WSupplanted n s)).
Proof.
  intros Hn Hc Hpre Hp2 Hi2 Hg Hp Hi Hu Hex.
  replace (acts ++ [ARequest n s (Some inc) v; AFinal id ex al]) with ((acts ++ [ARequest n s (Some inc) v]) ++ [AFinal id ex al]) by (rewrite <- app_assoc; reflexivity).
  apply C77_first_decision; [assumption|apply considerate_snoc; split; [assumption|exact Logic.I]|apply still_in_progress; assumption| |assumption].
  apply decided_now; [assumption|assumption|]. apply (dec_supplant g _ id n s inc v id2 n2 s2 i2 v2); auto.
  right. eauto.
Qed.
Print Assumptions C78_same_session_refuted.

Lemma all_told {V} g (w0 : wsrv V) acts e : new_service w0 -> In e (wf_log (wexec g w0 acts)) -> told_ok g e.
Proof.
  intros Hn. destruct (new_inv w0 Hn) as (base & d0 & Hd & E). revert e.
  induction acts as [|a acts IH] using rev_ind; [rewrite E; intros e []|].
  rewrite exec_snoc. apply (step_told d0 base g); [apply (hist_inv d0 base g w0 Hd E)|assumption].
Qed.

Lemma cancelled_event {V} g (w0 : wsrv V) acts id n s i v c ex al : new_service w0 -> considerate_run g w0 acts ->
  In id (in_progress (wf_log (wexec g w0 acts))) -> In (WReq id n s i v) (wf_log (wexec g w0 acts)) ->
  decided g w0 acts id (FinCancel c) -> (forall n, ex n = true) ->
  let L := wf_log (wexec g w0 (acts ++ [AFinal id ex al])) in In (WTold id s c) L \/ In (WUntold id s c) L.
Proof.
  intros Hn Hc Hp Hi Hde Hex L.
  destruct (proj2 (C77_first_decision g w0 acts Hn Hc) id (FinCancel c) ex al Hp Hde Hex) as (e & He & Ee). fold L in He.
  destruct (new_inv w0 Hn) as (base & d0 & Hd & E). pose proof (hist_inv d0 base g w0 Hd E (acts ++ [AFinal id ex al])) as I. fold L in I.
  pose proof (hist_inv d0 base g w0 Hd E acts) as I0.
  assert (Hi' : In (WReq id n s i v) L).
  { unfold L. rewrite exec_snoc. destruct (step_log d0 g (wexec g w0 acts) (AFinal id ex al) base I0) as (es & ->). apply in_or_app. left. assumption. }
  assert (Hs : forall s', (exists n i v, In (WReq id n s' i v) L) -> s' = s).
  { intros s' (n' & i' & v' & K). pose proof (info_unique _ _ _ _ _ _ _ _ _ _ (received_nodup _ _ _ _ I) K Hi') as Eq. congruence. }
  destruct (in_split _ _ He) as (p & q & El). pose proof (q_ok _ _ _ _ I p e q El) as Ht.
  assert (Hsub : forall s', (exists n i v, In (WReq id n s' i v) p) -> s' = s).
  { intros s' (n' & i' & v' & K). apply Hs. exists n', i', v'. rewrite El. apply in_or_app. left. assumption. }
  destruct e; try discriminate; cbn in Ee; injection Ee as Eid Ec; subst; cbn in Ht; destruct Ht as [_ Ht]; rewrite <- (Hsub _ Ht); auto.
Qed.

(** A session that can be cancelled is told, with the cause, and no other one is. *)
Theorem C78_session_is_told {V} g (w0 : wsrv V) acts : new_service w0 ->
  (forall id s c, In (WTold id s c) (wf_log (wexec g w0 acts)) -> wc_top g s = true) /\
  (forall id n s i v c ex al, considerate_run g w0 acts ->
     In id (in_progress (wf_log (wexec g w0 acts))) -> In (WReq id n s i v) (wf_log (wexec g w0 acts)) ->
     decided g w0 acts id (FinCancel c) -> (forall n, ex n = true) -> wc_top g s = true ->
     In (WTold id s c) (wf_log (wexec g w0 (acts ++ [AFinal id ex al])))).
Proof.
  intros Hn. split.
  - intros id s c H. apply (all_told g w0 acts _ Hn H).
  - intros id n s i v c ex al Hc Hp Hi Hde Hex Ht.
    destruct (cancelled_event g w0 acts id n s i v c ex al Hn Hc Hp Hi Hde Hex) as [H|H]; [assumption|].
    pose proof (all_told g w0 _ _ Hn H) as K. cbn in K. congruence.
Qed.
Print Assumptions C78_session_is_told.

(** The session of an outer workflow is not told that the workflow it asked was cancelled. *)
Theorem C78_nested_refuted {V} g (w0 : wsrv V) acts id n s i v c ex al : new_service w0 -> considerate_run g w0 acts ->
  In id (in_progress (wf_log (wexec g w0 acts))) -> In (WReq id n s i v) (wf_log (wexec g w0 acts)) ->
  decided g w0 acts id (FinCancel c) -> (forall n, ex n = true) -> wc_top g s = false ->
  In (WUntold id s c) (wf_log (wexec g w0 (acts ++ [AFinal id ex al]))) /\
  forall more id' c', ~ In (WTold id' s c') (wf_log (wexec g w0 (acts ++ [AFinal id ex al] ++ more))).
Proof.
  intros Hn Hc Hp Hi Hde Hex Ht. split.
  - destruct (cancelled_event g w0 acts id n s i v c ex al Hn Hc Hp Hi Hde Hex) as [H|H]; [|assumption].
    pose proof (all_told g w0 _ _ Hn H) as K. cbn in K. congruence.
  - intros more id' c' H. pose proof (all_told g w0 _ _ Hn H) as K. cbn in K. congruence.
Qed.
Print Assumptions C78_nested_refuted.

(** ** Cases *)
Definition wc_all : entity -> bool := fun _ => true.
Definition wc_not (n : entity) : entity -> bool := fun m => negb (Nat.eqb m n).
Definition wc_top_conf := mk_wconf false wc_all.
Definition wc_keep_conf := mk_wconf true wc_all.
Definition wc_nested_conf := mk_wconf false (fun _ => false).

(** Three requests to a serial service: the first gets its value, the second is cancelled, the
    third begins and its session is cleaned up. *)
Definition wc_three : list (wact nat) :=
  [ARequest 10 1 None 5; ARequest 11 2 None 6; ARequest 12 3 None 7; AValue 0 50].
Definition wc_three_more : list (wact nat) :=
  [AFinal 0 wc_all wc_all; ACancel 2 9; AFinal 1 wc_all wc_all; AClean 3; AFinal 2 wc_all wc_all].

Example C77_every_event_in_time_case :
  wf_log (wexec wc_top_conf (wf_serial 0) (wc_three ++ wc_three_more))
  = [WReq 0 10 1 None 5; WStart 0 5; WReq 1 11 2 None 6; WReq 2 12 3 None 7;
     WResp 0 10 1 50; WStart 1 6; WTold 1 2 (WOther 9); WStart 2 7; WCleaned 2] /\
  new_service (@wf_serial nat 0) /\
  considerate_run wc_top_conf (wf_serial 0) (wc_three ++ wc_three_more).
Proof.
  split; [reflexivity|]. split; [exists 0; left; reflexivity|]. cbn. repeat split; intros; try contradiction.
Qed.

Example C77_first_decision_case :
  considerate_run wc_top_conf (wf_serial 0) wc_three /\
  in_progress (wf_log (wexec wc_top_conf (wf_serial 0) wc_three)) = [0] /\
  decided wc_top_conf (wf_serial 0) wc_three 0 (FinResp 50).
Proof.
  split; [cbn; tauto|]. split; [reflexivity|].
  exists [ARequest 10 1 None 5; ARequest 11 2 None 6; ARequest 12 3 None 7], (AValue 0 50), [].
  split; [reflexivity|]. split; [left; reflexivity|]. split; [constructor|].
  intros b1 b b2 f E Hp D.
  destruct b1 as [|? b1]; cbn in E; injection E as <- E; [inversion D|].
  destruct b1 as [|? b1]; cbn in E; injection E as <- E; [inversion D|].
  destruct b1 as [|? b1]; cbn in E; injection E as <- E; [inversion D|].
  destruct b1; discriminate.
Qed.

(** With labels: two requests with label 4, one with label 5. *)
Definition wc_labels : list (wact nat) :=
  [ARequest 10 1 (Some (mk_instr 4 false false)) 5; ARequest 11 2 (Some (mk_instr 4 false true)) 6;
   ARequest 12 3 (Some (mk_instr 5 false false)) 7; ARequest 13 1 (Some (mk_instr 4 false false)) 8].

Example C77_next_is_served_case :
  considerate_run wc_top_conf (wf_serial 0) wc_three /\
  pending (wf_log (wexec wc_top_conf (wf_serial 0) wc_three)) = [1; 2] /\
  considerate_run wc_top_conf (wf_parallel 0) wc_labels /\
  among (of_label 4 (wf_log (wexec wc_top_conf (wf_parallel 0) wc_labels)))
    (pending (wf_log (wexec wc_top_conf (wf_parallel 0) wc_labels))) = [1; 3] /\
  in_progress (wf_log (wexec wc_top_conf (wf_parallel 0) wc_labels)) = [0; 2].
Proof. repeat split; try reflexivity; cbn; tauto. Qed.

(** Two requests wait behind the first one, whose target is gone. *)
Example C77_lost_target_case :
  wc_not 10 10 = false /\ considerate_run wc_top_conf (wf_serial 0) wc_three /\
  In 0 (in_progress (wf_log (wexec wc_top_conf (wf_serial 0) wc_three))) /\
  In (WReq 0 10 1 None 5) (wf_log (wexec wc_top_conf (wf_serial 0) wc_three)) /\
  decided wc_top_conf (wf_serial 0) wc_three 0 (FinResp 50) /\
  pending (wf_log (wexec wc_top_conf (wf_serial 0) (wc_three ++ [AFinal 0 (wc_not 10) wc_all]))) = [1; 2] /\
  in_progress (wf_log (wexec wc_top_conf (wf_serial 0) (wc_three ++ [AFinal 0 (wc_not 10) wc_all]))) = [].
Proof.
  destruct C77_first_decision_case as (H1 & H2 & H3). split; [reflexivity|]. split; [assumption|].
  split; [rewrite H2; left; reflexivity|]. split; [left; reflexivity|]. split; [assumption|]. split; reflexivity.
Qed.

Example C77_outer_end_case : let acts := firstn 3 wc_three in
  wc_unint wc_keep_conf = true /\ considerate_run wc_keep_conf (wf_serial 0) acts /\
  In 0 (in_progress (wf_log (wexec wc_keep_conf (wf_serial 0) acts))) /\
  In (WReq 0 10 1 None 5) (wf_log (wexec wc_keep_conf (wf_serial 0) acts)) /\
  undecided wc_keep_conf (wf_serial 0) acts 0 /\
  pending (wf_log (wexec wc_keep_conf (wf_serial 0) (acts ++ [AClean 1; ADespawn 1]))) = [1; 2].
Proof.
  split; [reflexivity|]. split; [cbn; tauto|]. split; [left; reflexivity|]. split; [left; reflexivity|]. split; [|reflexivity].
  intros b1 b b2 f E Hp D. cbn in E.
  destruct b1 as [|? b1]; cbn in E; injection E as <- E; [inversion D|].
  destruct b1 as [|? b1]; cbn in E; injection E as <- E; [inversion D|].
  destruct b1 as [|? b1]; cbn in E; injection E as <- E; [inversion D|].
  destruct b1; discriminate.
Qed.

(** Of the requests waiting with label 4 the one that is ensured stays, the other one gives way
    to a preempting one. *)
Example C78_waiting_requests_case : let inc := mk_instr 4 true false in
  let L := wf_log (wexec wc_top_conf (wf_parallel 0) wc_labels) in
  i_preempt inc = true /\ pending L = [1; 3] /\
  In (WReq 3 13 1 (Some (mk_instr 4 false false)) 8) L /\ gives_way inc (Some (mk_instr 4 false false)) /\
  In (WReq 1 11 2 (Some (mk_instr 4 false true)) 6) L /\ ~ gives_way inc (Some (mk_instr 4 false true)) /\
  skipn 6 (wf_log (wexec wc_top_conf (wf_parallel 0) (wc_labels ++ [ARequest 14 5 (Some inc) 9])))
  = [WReq 4 14 5 (Some inc) 9; WDisp 3 13 1 14 5].
Proof.
  cbn zeta. split; [reflexivity|]. split; [reflexivity|]. split; [vm_compute; tauto|].
  split; [eexists; split; [reflexivity|split; reflexivity]|]. split; [vm_compute; tauto|].
  split; [|reflexivity]. intros (p & E & _ & H). injection E as <-. discriminate.
Qed.

(** Two runs of one session: the one with label 4 is to give way, the one with label 5 is
    ensured and cancelled as well. *)
Definition wc_two : list (wact nat) :=
  [ARequest 10 1 (Some (mk_instr 4 false false)) 5; ARequest 12 1 (Some (mk_instr 5 false true)) 7].

Example C78_same_session_case : let inc := mk_instr 4 true false in
  let w0 := wf_parallel 0 in let L := wf_log (wexec wc_top_conf w0 wc_two) in
  considerate_run wc_top_conf w0 wc_two /\ i_preempt inc = true /\ in_progress L = [0; 1] /\
  In (WReq 0 10 1 (Some (mk_instr 4 false false)) 5) L /\ gives_way inc (Some (mk_instr 4 false false)) /\
  In (WReq 1 12 1 (Some (mk_instr 5 false true)) 7) L /\ ~ gives_way inc (Some (mk_instr 5 false true)) /\
  undecided wc_top_conf w0 wc_two 0 /\ undecided wc_top_conf w0 wc_two 1 /\
  skipn 4 (wf_log (wexec wc_top_conf w0
    (wc_two ++ [ARequest 14 5 (Some inc) 9; AFinal 1 wc_all wc_all; AFinal 0 wc_all wc_all])))
  = [WReq 2 14 5 (Some inc) 9; WTold 1 1 (WSupplanted 14 5); WTold 0 1 (WSupplanted 14 5); WStart 2 9].
Proof.
  cbn zeta. split; [cbn; tauto|]. split; [reflexivity|]. split; [reflexivity|]. split; [vm_compute; tauto|].
  split; [eexists; split; [reflexivity|split; reflexivity]|]. split; [vm_compute; tauto|].
  split; [intros (p & E & H & _); injection E as <-; discriminate|].
  assert (G : forall id, undecided wc_top_conf (wf_parallel 0) wc_two id).
  { intros id b1 b b2 f E Hp D. cbn in E.
    destruct b1 as [|? b1]; cbn in E; injection E as <- E; [destruct Hp|].
    destruct b1 as [|? b1]; cbn in E; injection E as <- E; [inversion D; subst; discriminate|].
    destruct b1; discriminate. }
  split; [apply G|]. split; [apply G|]. reflexivity.
Qed.

(** A cancellation: the session of a request from outside is told, that of an outer workflow is
    not. *)
Definition wc_cancelled : list (wact nat) := [ARequest 10 1 None 5; ACancel 1 9].

Lemma wc_cancelled_decided g : decided g (wf_serial 0) wc_cancelled 0 (FinCancel (WOther 9)).
Proof.
  exists [ARequest 10 1 None 5], (ACancel 1 9), []. split; [reflexivity|]. split; [left; reflexivity|].
  split; [constructor; right; exists 10, None, 5; left; reflexivity|].
  intros b1 b b2 f E Hp D.
  destruct b1 as [|? b1]; cbn in E; injection E as <- E; [destruct Hp|]. destruct b1; discriminate.
Qed.

Example C78_session_is_told_case :
  considerate_run wc_top_conf (wf_serial 0) wc_cancelled /\
  In 0 (in_progress (wf_log (wexec wc_top_conf (wf_serial 0) wc_cancelled))) /\
  In (WReq 0 10 1 None 5) (wf_log (wexec wc_top_conf (wf_serial 0) wc_cancelled)) /\
  decided wc_top_conf (wf_serial 0) wc_cancelled 0 (FinCancel (WOther 9)) /\ wc_top wc_top_conf 1 = true.
Proof. repeat split; try apply wc_cancelled_decided; try (left; reflexivity). Qed.

Example C78_nested_case :
  considerate_run wc_nested_conf (wf_serial 0) wc_cancelled /\
  In 0 (in_progress (wf_log (wexec wc_nested_conf (wf_serial 0) wc_cancelled))) /\
  In (WReq 0 10 1 None 5) (wf_log (wexec wc_nested_conf (wf_serial 0) wc_cancelled)) /\
  decided wc_nested_conf (wf_serial 0) wc_cancelled 0 (FinCancel (WOther 9)) /\ wc_top wc_nested_conf 1 = false /\
  wf_log (wexec wc_nested_conf (wf_serial 0) (wc_cancelled ++ [AFinal 0 wc_all wc_all]))
  = [WReq 0 10 1 None 5; WStart 0 5; WUntold 0 1 (WOther 9)].
Proof. repeat split; try apply wc_cancelled_decided; try (left; reflexivity). Qed.
