(** Proofs about workflow services: an invariant of all executions. *)
From Verif Require Import Base DeliveryModel DeliverySpec DeliveryProofs ScopeModel
  WorkflowModel WorkflowSpec.

(** ** Lists *)
Section Lists.
Context {A : Type}.

Lemma filter_le (f g : A -> bool) l : (forall x, In x l -> f x = true -> g x = true) ->
  length (filter f l) <= length (filter g l).
Proof.
  induction l as [|x l IH]; intros H; [reflexivity|]. cbn [filter].
  assert (IH' := IH (fun y Hy => H y (or_intror Hy))). specialize (H x (or_introl eq_refl)).
  destruct (f x), (g x); cbn [length]; try lia; try (specialize (H eq_refl); discriminate).
Qed.

Lemma filter_same (f g : A -> bool) l : (forall x, In x l -> f x = g x) -> filter f l = filter g l.
Proof.
  induction l as [|x l IH]; intros H; [reflexivity|]. cbn [filter].
  rewrite (H x (or_introl eq_refl)), IH; [reflexivity|]. intros y Hy. apply H. right. assumption.
Qed.

Lemma filter_none (f : A -> bool) l : (forall x, In x l -> f x = false) -> filter f l = [].
Proof.
  induction l as [|x l IH]; intros H; [reflexivity|]. cbn [filter].
  rewrite (H x (or_introl eq_refl)). apply IH. intros y Hy. apply H. right. assumption.
Qed.

End Lists.

Lemma filter_true_w {A} (l : list A) : filter (fun _ => true) l = l.
Proof. induction l as [|x l IH]; [reflexivity|]. cbn [filter]. f_equal. exact IH. Qed.

Lemma subseq_In {A} (l m : list A) x : subsequence l m -> In x l -> In x m.
Proof.
  induction 1 as [|y l m H IH|y l m H IH]; cbn; intros Hx; [assumption| |]; try (right; apply IH; assumption).
  destruct Hx as [->|Hx]; [left; reflexivity|right; apply IH; assumption].
Qed.

Lemma queued_lane {V} (d : delivery V) o : keys_ok d -> In o (queued d) ->
  exists k, In o (s_queue (serial_at d k)).
Proof.
  destruct d as [s|ls]; cbn [keys_ok queued]; intros N H; [exists None; assumption|].
  apply in_flat_map in H. destruct H as ([l s] & H1 & H2). exists (Some l). cbn [serial_at].
  assert (E : lget l ls = Some s).
  { induction ls as [|[l' s'] ls IH]; [destruct H1|]. inversion N as [|? ? N1 N2]; subst. cbn [lget].
    destruct H1 as [E|H1].
    - injection E as -> ->. rewrite Nat.eqb_refl. reflexivity.
    - destruct (Nat.eqb_spec l l') as [->|E]; [|apply IH; assumption].
      exfalso. apply N1. apply (in_map fst) in H1. assumption. }
  rewrite E. assumption.
Qed.

Lemma mem_In (id : nat) l : existsb (Nat.eqb id) l = true <-> In id l.
Proof.
  rewrite existsb_exists. split.
  - intros (x & Hx & E). apply Nat.eqb_eq in E. subst x. assumption.
  - intros H. exists id. split; [assumption|apply Nat.eqb_refl].
Qed.

Lemma mem_nIn (id : nat) l : existsb (Nat.eqb id) l = false <-> ~ In id l.
Proof. rewrite <- mem_In. destruct (existsb (Nat.eqb id) l); intuition congruence. Qed.

Section Workflow.
Context {V : Type}.
Variable d0 : delivery V.
Implicit Types (w : wsrv V) (r : wrun V) (o : order V) (L : list (wevent V)) (e : wevent V).

(** ** Logs *)
Lemma received_app L M : received (L ++ M) = received L ++ received M.
Proof. apply flat_map_app. Qed.
Lemma begun_app L M : begun (L ++ M) = begun L ++ begun M.
Proof. apply flat_map_app. Qed.
Lemma outcomes_app L M : outcomes (L ++ M) = outcomes L ++ outcomes M.
Proof. apply flat_map_app. Qed.

Definition lane_is (k : option nat) (i : option instr) : bool :=
  match lane d0 i with Some k' => keqb k' k | None => false end.

Lemma lane_is_true k i : lane_is k i = true <-> lane d0 i = Some k.
Proof.
  unfold lane_is. destruct (lane d0 i) as [k'|]; [|split; congruence].
  destruct (keqb_spec k' k); split; congruence.
Qed.

Definition lane_ids (k : option nat) L : list nat :=
  flat_map (fun e => match e with
                     | WReq id _ _ i _ => if lane_is k i then [id] else []
                     | _ => []
                     end) L.

Lemma lane_ids_app k L M : lane_ids k (L ++ M) = lane_ids k L ++ lane_ids k M.
Proof. apply flat_map_app. Qed.

Lemma In_received id L : In id (received L) <-> exists n s i v, In (WReq id n s i v) L.
Proof.
  unfold received. rewrite in_flat_map. split.
  - intros (e & He & H). destruct e as [id' n s i v| | | | | | | | |]; cbn in H; try contradiction.
    destruct H as [<-|[]]. eauto.
  - intros (n & s & i & v & H). eexists. split; [eassumption|]. left. reflexivity.
Qed.

Lemma In_lane_ids k id L : In id (lane_ids k L) <->
  exists n s i v, In (WReq id n s i v) L /\ lane d0 i = Some k.
Proof.
  unfold lane_ids. rewrite in_flat_map. split.
  - intros (e & He & H). destruct e as [id' n s i v| | | | | | | | |]; cbn in H; try contradiction.
    destruct (lane_is k i) eqn:E; [|contradiction]. destruct H as [<-|[]].
    apply lane_is_true in E. eauto 7.
  - intros (n & s & i & v & H & E). eexists. split; [eassumption|]. apply lane_is_true in E. cbn.
    rewrite E. left. reflexivity.
Qed.

Lemma In_begun id L : In id (begun L) <-> exists v, In (WStart id v) L.
Proof.
  unfold begun. rewrite in_flat_map. split.
  - intros (e & He & H). destruct e as [|id' v| | | | | | | |]; cbn in H; try contradiction.
    destruct H as [<-|[]]. eauto.
  - intros (v & H). eexists. split; [eassumption|]. left. reflexivity.
Qed.

Lemma lane_ids_received k L id : In id (lane_ids k L) -> In id (received L).
Proof. rewrite In_lane_ids, In_received. intros (n & s & i & v & H & _). eauto. Qed.

(** A request is received once. *)
Lemma info_unique L id n s i (v : V) n' s' i' v' : NoDup (received L) ->
  In (WReq id n s i v) L -> In (WReq id n' s' i' v') L -> WReq id n s i v = WReq id n' s' i' v'.
Proof.
  induction L as [|e L IH]; intros Hn H1 H2; [destruct H1|].
  change (received (e :: L)) with (received ([e] ++ L)) in Hn. rewrite received_app in Hn.
  destruct (nodup_app _ _ Hn) as (_ & N2 & N3).
  assert (K : forall n s i v, In (WReq id n s i v) L -> In id (received L))
    by (intros; apply In_received; eauto).
  destruct H1 as [->|H1], H2 as [E|H2].
  - congruence.
  - exfalso. apply (N3 id); [left; reflexivity|]. eapply K. eassumption.
  - subst e. exfalso. apply (N3 id); [left; reflexivity|]. eapply K. eassumption.
  - apply (IH N2 H1 H2).
Qed.

Definition prog (k : option nat) L : list nat := among (lane_ids k L) (in_progress L).

Lemma In_prog k L id : In id (prog k L) <->
  In id (lane_ids k L) /\ In id (begun L) /\ ~ In id (outcomes L).
Proof.
  unfold prog, among, in_progress. rewrite !filter_In, mem_In, negb_true_iff, mem_nIn. tauto.
Qed.

(** Events other than beginnings do not add to what is in progress. *)
Lemma prog_quiet k L e : (forall id v, e <> WStart id v) ->
  (forall id n s i v, e = WReq id n s i v -> ~ In id (begun L)) ->
  length (prog k (L ++ [e])) <= length (prog k L).
Proof.
  intros H1 H2. unfold prog, among, in_progress.
  assert (E : begun (L ++ [e]) = begun L).
  { rewrite begun_app. destruct e; cbn; rewrite ?app_nil_r; try reflexivity. destruct (H1 id v eq_refl). }
  rewrite E.
  assert (F : forall (f g : nat -> bool) l, filter f (filter g l) = filter (fun x => g x && f x) l).
  { intros f g l. induction l as [|x l IH]; [reflexivity|]. cbn [filter].
    destruct (g x) eqn:G; cbn [filter andb]; [destruct (f x)|]; rewrite ?IH; reflexivity. }
  rewrite !F. apply filter_le. intros x Hx. rewrite !andb_true_iff, !negb_true_iff, !mem_nIn, !mem_In.
  rewrite outcomes_app, lane_ids_app, !in_app_iff. intros (A1 & [A2|A2]); [tauto|].
  exfalso. cbn in A2. destruct e as [id n s i v| | | | | | | | |]; cbn in A2; try contradiction.
  destruct (lane_is k i); [|contradiction]. destruct A2 as [<-|[]]. apply (H2 _ _ _ _ _ eq_refl Hx).
Qed.

(** ** The invariant *)

(** [x]: requests which have been received, or taken from their queue, and whose run has not
    begun yet. *)
Record WInv (base : nat) (x : list (order V)) w : Prop := {
  q_kind : same_kind d0 (wf_del w);
  q_keys : keys_ok (wf_del w);
  q_panic : ~ In WPanic (wf_log w);
  q_next : base <= wf_next w;
  q_recv : received (wf_log w) = seq base (wf_next w - base);
  q_ledger : Permutation (received (wf_log w))
      (map d_task x ++ map d_task (queued (wf_del w)) ++ map wr_id (wf_runs w) ++ outcomes (wf_log w));
  q_begun : forall id, In id (begun (wf_log w)) ->
      In id (map wr_id (wf_runs w)) \/ In id (outcomes (wf_log w));
  q_runs : forall r, In r (wf_runs w) -> In (wr_id r) (begun (wf_log w));
  q_fresh : forall o, In o (x ++ queued (wf_del w)) -> ~ In (d_task o) (begun (wf_log w));
  q_once : NoDup (begun (wf_log w));
  q_info_q : forall o, In o (x ++ queued (wf_del w)) ->
      In (WReq (d_task o) (d_source o) (d_session o) (d_instr o) (d_request o)) (wf_log w);
  q_info_r : forall r, In r (wf_runs w) ->
      exists v, In (WReq (wr_id r) (wr_node r) (wr_session r) (wr_instr r) v) (wf_log w);
  q_block : forall r, In r (wf_runs w) -> wr_block r = expected d0 (wr_instr r);
  q_lane : forall k o, In o (s_queue (serial_at (wf_del w) k)) -> lane d0 (d_instr o) = Some k;
  q_idle : forall k, s_delivering (serial_at (wf_del w) k) = None ->
      s_queue (serial_at (wf_del w) k) = [];
  q_act : forall k r, In r (wf_runs w) -> lane d0 (wr_instr r) = Some k ->
      s_delivering (serial_at (wf_del w) k)
      = Some (mk_active (wr_node r) (wr_session r) (wr_id r) (wr_instr r));
  q_order : forall k, subsequence
      (among (lane_ids k (wf_log w)) (begun (wf_log w)) ++
       map d_task (filter (fun o => lane_is k (d_instr o)) x) ++
       map d_task (s_queue (serial_at (wf_del w) k))) (lane_ids k (wf_log w));
  q_pfx : forall p q k, wf_log w = p ++ q -> length (prog k p) <= 1;
  q_ok : forall p e q, wf_log w = p ++ e :: q -> well_timed p e;
  q_first : forall p id v q k, wf_log w = p ++ WStart id v :: q -> In id (lane_ids k p) ->
      exists m, among (lane_ids k p) (pending p) = id :: m }.

Lemma winv_new base : (d0 = Serial serial_new \/ d0 = Parallel []) -> WInv base [] (wf_new base d0).
Proof.
  intros Hd. unfold wf_new. constructor; cbn [wf_del wf_runs wf_live wf_next wf_log map app received
    begun outcomes flat_map]; try (intros; contradiction).
  - apply kind_refl.
  - destruct Hd as [-> | ->]; cbn; [exact I|constructor].
  - intros [].
  - reflexivity.
  - replace (base - base) with 0 by lia. reflexivity.
  - destruct Hd as [-> | ->]; cbn; constructor.
  - intros o Ho [].
  - constructor.
  - destruct Hd as [-> | ->]; cbn; contradiction.
  - intros k o. destruct Hd as [-> | ->], k as [l|]; cbn; contradiction.
  - intros k. destruct Hd as [-> | ->], k as [l|]; reflexivity.
  - intros k. destruct Hd as [-> | ->], k as [l|]; constructor.
  - intros p q k E. symmetry in E. apply app_eq_nil in E. destruct E as [-> _]. cbn. lia.
  - intros p e q E. destruct p; discriminate.
  - intros p id v q k E. destruct p; discriminate.
Qed.

Lemma received_nodup base x w : WInv base x w -> NoDup (received (wf_log w)).
Proof. intros I. rewrite (q_recv _ _ _ I). apply seq_NoDup. Qed.

Lemma received_below base x w id : WInv base x w -> In id (received (wf_log w)) -> base <= id < wf_next w.
Proof.
  intros I. rewrite (q_recv _ _ _ I), in_seq. pose proof (q_next _ _ _ I). lia.
Qed.

Lemma ledger_nodup_w base x w : WInv base x w ->
  NoDup (map d_task x ++ map d_task (queued (wf_del w)) ++ map wr_id (wf_runs w) ++ outcomes (wf_log w)).
Proof.
  intros I. apply (Permutation_NoDup (q_ledger _ _ _ I)). apply (received_nodup _ _ _ I).
Qed.

Lemma begun_received base x w id : WInv base x w -> In id (begun (wf_log w)) -> In id (received (wf_log w)).
Proof.
  intros I H. apply (Permutation_in _ (Permutation_sym (q_ledger _ _ _ I))). rewrite !in_app_iff.
  destruct (q_begun _ _ _ I id H); tauto.
Qed.

Lemma runs_nodup base x w : WInv base x w -> NoDup (map wr_id (wf_runs w)).
Proof.
  intros I. pose proof (ledger_nodup_w _ _ _ I) as N.
  destruct (nodup_app _ _ N) as (_ & N2 & _). destruct (nodup_app _ _ N2) as (_ & N3 & _).
  destruct (nodup_app _ _ N3) as (N4 & _). assumption.
Qed.

Lemma nodup_map_inj {A B} (f : A -> B) l a b : NoDup (map f l) -> In a l -> In b l -> f a = f b -> a = b.
Proof.
  induction l as [|x l IH]; cbn [map]; intros H Ha Hb E; [destruct Ha|].
  inversion H as [|? ? H1 H2]; subst. destruct Ha as [->|Ha], Hb as [->|Hb].
  - reflexivity.
  - exfalso. apply H1. rewrite E. apply in_map. assumption.
  - exfalso. apply H1. rewrite <- E. apply in_map. assumption.
  - apply IH; assumption.
Qed.

(** At most one run in each lane. *)
Lemma one_run base x w k r r' : WInv base x w -> In r (wf_runs w) -> In r' (wf_runs w) ->
  lane d0 (wr_instr r) = Some k -> lane d0 (wr_instr r') = Some k -> r = r'.
Proof.
  intros I H H' E E'. pose proof (q_act _ _ _ I k r H E) as A. pose proof (q_act _ _ _ I k r' H' E') as A'.
  rewrite A in A'. injection A' as A1 A2 A3 A4.
  apply (nodup_map_inj wr_id (wf_runs w)); auto. apply (runs_nodup _ _ _ I).
Qed.

(** What is in progress in a lane is what runs there. *)
Lemma prog_runs base x w k id : WInv base x w -> In id (prog k (wf_log w)) <->
  exists r, In r (wf_runs w) /\ wr_id r = id /\ lane d0 (wr_instr r) = Some k.
Proof.
  intros I. rewrite In_prog. split.
  - intros (H1 & H2 & H3). destruct (q_begun _ _ _ I id H2) as [H|H]; [|contradiction].
    apply in_map_iff in H. destruct H as (r & E & Hr). exists r. split; [assumption|]. split; [assumption|].
    apply In_lane_ids in H1. destruct H1 as (n & s & i & v & H1 & El).
    destruct (q_info_r _ _ _ I r Hr) as (v' & H'). rewrite E in H'.
    pose proof (info_unique _ _ _ _ _ _ _ _ _ _ (received_nodup _ _ _ I) H1 H') as EE. congruence.
  - intros (r & Hr & <- & E). split; [|split].
    + apply In_lane_ids. destruct (q_info_r _ _ _ I r Hr) as (v & H). eauto 7.
    + apply (q_runs _ _ _ I r Hr).
    + intros Ho. pose proof (ledger_nodup_w _ _ _ I) as N. rewrite app_assoc in N.
      destruct (nodup_app _ _ N) as (_ & N2 & _). destruct (nodup_app _ _ N2) as (_ & _ & N3).
      apply (N3 (wr_id r)); [apply in_map; assumption|assumption].
Qed.

Lemma pfx_snoc L e : (forall p q k, L = p ++ q -> length (prog k p) <= 1) ->
  (forall k, length (prog k (L ++ [e])) <= 1) ->
  forall p q k, L ++ [e] = p ++ q -> length (prog k p) <= 1.
Proof.
  intros H1 H2 p q k E. destruct (rev_case q) as [->|(q' & y & ->)].
  - rewrite app_nil_r in E. subst p. apply H2.
  - rewrite app_assoc in E. apply app_inj_tail in E. destruct E as [E _]. apply (H1 p q' k E).
Qed.

Lemma pfx_quiet L e : (forall p q k, L = p ++ q -> length (prog k p) <= 1) ->
  (forall id v, e <> WStart id v) -> (forall id n s i v, e = WReq id n s i v -> ~ In id (begun L)) ->
  forall p q k, L ++ [e] = p ++ q -> length (prog k p) <= 1.
Proof.
  intros H1 H2 H3. apply pfx_snoc; [assumption|]. intros k.
  pose proof (prog_quiet k L e H2 H3). specialize (H1 L [] k). rewrite app_nil_r in H1.
  specialize (H1 eq_refl). lia.
Qed.

Lemma ok_snoc L e : (forall p e' q, L = p ++ e' :: q -> well_timed p e') -> well_timed L e ->
  forall p e' q, L ++ [e] = p ++ e' :: q -> well_timed p e'.
Proof.
  intros H1 H2 p e' q E. destruct (rev_case q) as [->|(q' & y & ->)].
  - apply app_inj_tail in E. destruct E as [<- <-]. assumption.
  - rewrite app_comm_cons, app_assoc in E. apply app_inj_tail in E. destruct E as [E _].
    apply (H1 _ _ _ E).
Qed.

Definition firsts L : Prop := forall p id (v : V) q k, L = p ++ WStart id v :: q -> In id (lane_ids k p) ->
  exists m, among (lane_ids k p) (pending p) = id :: m.

Lemma first_snoc L e : firsts L ->
  (forall id v k, e = WStart id v -> In id (lane_ids k L) ->
     exists m, among (lane_ids k L) (pending L) = id :: m) -> firsts (L ++ [e]).
Proof.
  intros H1 H2 p id v q k E. destruct (rev_case q) as [->|(q' & y & ->)].
  - apply app_inj_tail in E. destruct E as [<- E]. apply (H2 id v k E).
  - rewrite app_comm_cons, app_assoc in E. apply app_inj_tail in E. destruct E as [E _].
    apply (H1 _ _ _ _ _ E).
Qed.

Lemma first_quiet L e : firsts L -> (forall id v, e <> WStart id v) -> firsts (L ++ [e]).
Proof. intros H1 H2. apply first_snoc; [assumption|]. intros id v k E. destruct (H2 id v E). Qed.

Lemma In_pending L id : In id (pending L) <->
  In id (received L) /\ ~ In id (begun L) /\ ~ In id (outcomes L).
Proof.
  unfold pending. rewrite filter_In, negb_true_iff, mem_nIn, in_app_iff. tauto.
Qed.

Lemma In_progress L id : In id (in_progress L) <-> In id (begun L) /\ ~ In id (outcomes L).
Proof. unfold in_progress. rewrite filter_In, negb_true_iff, mem_nIn. tauto. Qed.

Lemma subseq_lane_ids k L : subsequence (lane_ids k L) (received L).
Proof.
  induction L as [|e L IH]; [constructor|]. destruct e; cbn; try assumption.
  destruct (lane_is k i); cbn; constructor; assumption.
Qed.

Lemma subseq_filter_eq (l m : list nat) (f : nat -> bool) : subsequence l m -> NoDup m ->
  (forall x, In x m -> (f x = true <-> In x l)) -> filter f m = l.
Proof.
  induction 1 as [|y l m H IH|y l m H IH]; intros N Hf.
  - reflexivity.
  - inversion N as [|? ? N1 N2]; subst. cbn [filter].
    assert (f y = false) as ->.
    { destruct (f y) eqn:E; [|reflexivity]. apply Hf in E; [|left; reflexivity].
      exfalso. apply N1. apply (subseq_In _ _ _ H E). }
    apply IH; [assumption|]. intros x Hx. apply Hf. right. assumption.
  - inversion N as [|? ? N1 N2]; subst. cbn [filter].
    assert (f y = true) as -> by (apply Hf; left; reflexivity). f_equal. apply IH; [assumption|].
    intros x Hx. rewrite (Hf x (or_intror Hx)). split; [intros [->|E]; [contradiction|assumption]|right; assumption].
Qed.

Lemma filter_andb {A} (f g : A -> bool) l : filter f (filter g l) = filter (fun x => g x && f x) l.
Proof.
  induction l as [|x l IH]; [reflexivity|]. cbn [filter].
  destruct (g x) eqn:G; cbn [filter andb]; [destruct (f x)|]; rewrite ?IH; reflexivity.
Qed.

(** What is pending in a lane is in hand or in its queue. *)
Lemma pending_lane base x w k : WInv base x w ->
  among (lane_ids k (wf_log w)) (pending (wf_log w))
  = map d_task (filter (fun o => lane_is k (d_instr o)) x ++ s_queue (serial_at (wf_del w) k)).
Proof.
  intros I. unfold among, pending. rewrite filter_andb. apply subseq_filter_eq.
  - eapply subseq_trans; [|apply (subseq_lane_ids k)].
    eapply subseq_trans; [|apply (q_order _ _ _ I k)]. rewrite <- map_app. apply subseq_app_l, subseq_refl.
  - apply (received_nodup _ _ _ I).
  - intros id Hid. rewrite andb_true_iff, negb_true_iff, mem_nIn, mem_In, in_app_iff. split.
    + intros (H1 & H2). apply (Permutation_in _ (q_ledger _ _ _ I)) in Hid. rewrite !in_app_iff in Hid.
      apply In_lane_ids in H2. destruct H2 as (n & s & i & v & H2 & El).
      assert (G : forall o, In o (x ++ queued (wf_del w)) -> d_task o = id -> lane d0 (d_instr o) = Some k).
      { intros o Ho <-. pose proof (q_info_q _ _ _ I o Ho) as H'.
        pose proof (info_unique _ _ _ _ _ _ _ _ _ _ (received_nodup _ _ _ I) H2 H'). congruence. }
      destruct Hid as [H|[H|[H|H]]].
      * apply in_map_iff in H. destruct H as (o & E & Ho). apply in_map_iff. exists o. split; [assumption|].
        apply in_or_app. left. apply filter_In. split; [assumption|]. apply lane_is_true. apply G; [|assumption].
        apply in_or_app. left. assumption.
      * apply in_map_iff in H. destruct H as (o & E & Ho). apply in_map_iff. exists o. split; [assumption|].
        apply in_or_app. right. destruct (queued_lane _ _ (q_keys _ _ _ I) Ho) as (k' & Ho').
        pose proof (q_lane _ _ _ I k' o Ho') as E'. rewrite (G o) in E'; [|apply in_or_app; right; assumption|assumption].
        injection E' as ->. assumption.
      * exfalso. apply H1. left. apply in_map_iff in H. destruct H as (r & <- & Hr). apply (q_runs _ _ _ I r Hr).
      * exfalso. tauto.
    + intros H. apply in_map_iff in H. destruct H as (o & <- & Ho).
      assert (Hx : In o (x ++ queued (wf_del w))).
      { rewrite in_app_iff in *. destruct Ho as [Ho|Ho]; [left|right; apply (queued_in _ k); assumption].
        apply filter_In in Ho. apply Ho. }
      assert (El : lane d0 (d_instr o) = Some k).
      { rewrite in_app_iff in Ho. destruct Ho as [Ho|Ho]; [|apply (q_lane _ _ _ I); assumption].
        apply filter_In in Ho. apply lane_is_true. apply Ho. }
      split; [|apply In_lane_ids; pose proof (q_info_q _ _ _ I o Hx); eauto 7].
      intros [H|H]; [apply (q_fresh _ _ _ I o Hx H)|].
      pose proof (ledger_nodup_w _ _ _ I) as N. rewrite app_assoc, <- map_app in N.
      destruct (nodup_app _ _ N) as (_ & _ & N3). apply (N3 (d_task o)); [apply in_map; assumption|].
      apply in_or_app. right. assumption.
Qed.

Lemma hand_pending base x w o : WInv base x w -> In o (x ++ queued (wf_del w)) ->
  In (d_task o) (pending (wf_log w)).
Proof.
  intros I Hx. apply In_pending. split; [|split].
  - apply In_received. pose proof (q_info_q _ _ _ I o Hx). eauto.
  - apply (q_fresh _ _ _ I o Hx).
  - intros H. pose proof (ledger_nodup_w _ _ _ I) as N. rewrite app_assoc, <- map_app in N.
    destruct (nodup_app _ _ N) as (_ & _ & N3). apply (N3 (d_task o)); [apply in_map; assumption|].
    apply in_or_app. right. assumption.
Qed.

Lemma run_in_progress base x w r : WInv base x w -> In r (wf_runs w) -> In (wr_id r) (in_progress (wf_log w)).
Proof.
  intros I Hr. apply In_progress. split; [apply (q_runs _ _ _ I r Hr)|].
  intros Ho. pose proof (ledger_nodup_w _ _ _ I) as N. rewrite app_assoc in N.
  destruct (nodup_app _ _ N) as (_ & N2 & _). destruct (nodup_app _ _ N2) as (_ & _ & N3).
  apply (N3 (wr_id r)); [apply in_map; assumption|assumption].
Qed.

Lemma in_progress_run base x w id : WInv base x w -> In id (in_progress (wf_log w)) ->
  exists r, In r (wf_runs w) /\ wr_id r = id.
Proof.
  intros I H. apply In_progress in H. destruct H as [H1 H2].
  destruct (q_begun _ _ _ I id H1) as [H|H]; [|contradiction]. apply in_map_iff in H. firstorder.
Qed.

(** ** The steps of the invariant *)

(** A request is received; its lane has nothing waiting. *)
Lemma winv_receive base w n s i (v : V) :
  WInv base [] w -> (forall k, lane d0 i = Some k -> s_queue (serial_at (wf_del w) k) = []) ->
  let id := wf_next w in
  WInv base [mk_order n s id v i]
    (mk_wsrv (wf_del w) (wf_runs w) (wf_live w ++ [(id, s)]) (S id) (wf_log w ++ [WReq id n s i v])).
Proof.
  intros I Hq id.
  assert (Hb : ~ In id (begun (wf_log w))).
  { intros H. apply (begun_received _ _ _ _ I), (received_below _ _ _ _ I) in H. unfold id in H. lia. }
  assert (Eb : begun (wf_log w ++ [WReq id n s i v]) = begun (wf_log w))
    by (rewrite begun_app; cbn; apply app_nil_r).
  assert (Eo : outcomes (wf_log w ++ [WReq id n s i v]) = outcomes (wf_log w))
    by (rewrite outcomes_app; cbn; apply app_nil_r).
  constructor; cbn [wf_del wf_runs wf_live wf_next wf_log]; rewrite ?Eb, ?Eo.
  - apply (q_kind _ _ _ I).
  - apply (q_keys _ _ _ I).
  - rewrite in_app_iff. intros [H|[H|[]]]; [apply (q_panic _ _ _ I H)|discriminate].
  - pose proof (q_next _ _ _ I). unfold id. lia.
  - rewrite received_app, (q_recv _ _ _ I). cbn [received flat_map app]. pose proof (q_next _ _ _ I).
    replace (S id - base) with (S (wf_next w - base)) by (unfold id; lia). rewrite seq_S. f_equal. f_equal.
    unfold id. lia.
  - rewrite received_app. cbn [received flat_map app map d_task]. rewrite Permutation_app_comm. cbn [app].
    constructor. apply (q_ledger _ _ _ I).
  - apply (q_begun _ _ _ I).
  - apply (q_runs _ _ _ I).
  - intros o [<-|H]; [exact Hb|]. apply (q_fresh _ _ _ I o H).
  - apply (q_once _ _ _ I).
  - intros o [<-|H]; apply in_or_app; [right; left; reflexivity|left]. apply (q_info_q _ _ _ I o H).
  - intros r Hr. destruct (q_info_r _ _ _ I r Hr) as (v' & H). exists v'. apply in_or_app. left. assumption.
  - apply (q_block _ _ _ I).
  - apply (q_lane _ _ _ I).
  - apply (q_idle _ _ _ I).
  - apply (q_act _ _ _ I).
  - intros k. pose proof (q_order _ _ _ I k) as S. cbn [filter map app] in S.
    assert (Ea : among (lane_ids k (wf_log w ++ [WReq id n s i v])) (begun (wf_log w))
                 = among (lane_ids k (wf_log w)) (begun (wf_log w))).
    { apply filter_same. intros y Hy. rewrite lane_ids_app, existsb_app. cbn.
      destruct (lane_is k i); cbn; [|apply orb_false_r].
      destruct (Nat.eqb_spec y id) as [E|E]; [subst y; contradiction|]. cbn. apply orb_false_r. }
    rewrite Ea, lane_ids_app. cbn [filter d_instr lane_ids flat_map].
    destruct (lane_is k i) eqn:El; cbn [map d_task app].
    + apply lane_is_true in El. rewrite (Hq k El) in *. cbn [map] in *. rewrite app_nil_r in S.
      apply subseq_app; [assumption|apply subseq_refl].
    + rewrite app_nil_r. assumption.
  - apply pfx_quiet; [apply (q_pfx _ _ _ I)|congruence|]. intros id' n' s' i' v' E. injection E as <- _ _ _ _. assumption.
  - apply ok_snoc; [apply (q_ok _ _ _ I)|]. intros H. apply (received_below _ _ _ _ I) in H. unfold id in H. lia.
  - apply first_quiet; [exact (q_first _ _ _ I)|discriminate].
Qed.

Lemma filter_lane_self k o : lane d0 (d_instr o) = Some k ->
  filter (fun o => lane_is k (d_instr o)) [o] = [o].
Proof. intros H. cbn. apply lane_is_true in H. rewrite H. reflexivity. Qed.

(** The queue of the lane of a request in hand becomes active for it. *)
Lemma winv_hold base w o k q : WInv base [o] w -> lane d0 (d_instr o) = Some k ->
  (forall r, In r (wf_runs w) -> lane d0 (wr_instr r) = Some k -> False) ->
  s_queue (serial_at (wf_del w) k) = q ->
  WInv base [o] (wset_del w (upd (wf_del w) k (mk_serial (Some (active_of o)) q))).
Proof.
  intros I El Hno Hq. set (d := wf_del w) in *.
  assert (Hv : valid d k = true) by (rewrite (kind_valid d0 d k (q_kind _ _ _ I)); apply (lane_valid _ _ _ El)).
  destruct (queued_upd d k (mk_serial (Some (active_of o)) q) Hv) as (rest & P1 & P2).
  rewrite Hq in P1. cbn [s_queue] in P2.
  assert (P : Permutation (queued d) (queued (upd d k (mk_serial (Some (active_of o)) q))))
    by (rewrite P1, P2; reflexivity).
  constructor; cbn [wset_del wf_del wf_runs wf_live wf_next wf_log].
  - eapply kind_trans; [apply (q_kind _ _ _ I)|apply upd_kind].
  - apply keys_upd. apply (q_keys _ _ _ I).
  - apply (q_panic _ _ _ I).
  - apply (q_next _ _ _ I).
  - apply (q_recv _ _ _ I).
  - rewrite (q_ledger _ _ _ I). fold d. rewrite P. reflexivity.
  - apply (q_begun _ _ _ I).
  - apply (q_runs _ _ _ I).
  - intros y Hy. apply (q_fresh _ _ _ I). rewrite in_app_iff in *. destruct Hy as [Hy|Hy]; [left; assumption|right].
    apply (Permutation_in _ (Permutation_sym P)). assumption.
  - apply (q_once _ _ _ I).
  - intros y Hy. apply (q_info_q _ _ _ I). rewrite in_app_iff in *. destruct Hy as [Hy|Hy]; [left; assumption|right].
    apply (Permutation_in _ (Permutation_sym P)). assumption.
  - apply (q_info_r _ _ _ I).
  - apply (q_block _ _ _ I).
  - intros k' y. destruct (odec k' k) as [->|E].
    + rewrite (serial_at_upd_eq d k _ Hv). cbn [s_queue]. intros Hy. apply (q_lane _ _ _ I). fold d. rewrite Hq. assumption.
    + rewrite serial_at_upd_neq by assumption. apply (q_lane _ _ _ I).
  - intros k'. destruct (odec k' k) as [->|E].
    + rewrite (serial_at_upd_eq d k _ Hv). discriminate.
    + rewrite serial_at_upd_neq by assumption. apply (q_idle _ _ _ I).
  - intros k' r Hr E'. destruct (odec k' k) as [->|E].
    + destruct (Hno r Hr E').
    + rewrite serial_at_upd_neq by assumption. apply (q_act _ _ _ I); assumption.
  - intros k'. pose proof (q_order _ _ _ I k') as S. fold d in S. destruct (odec k' k) as [->|E].
    + rewrite (serial_at_upd_eq d k _ Hv). cbn [s_queue]. rewrite Hq in S. assumption.
    + rewrite serial_at_upd_neq by assumption. assumption.
  - apply (q_pfx _ _ _ I).
  - apply (q_ok _ _ _ I).
  - apply (q_first _ _ _ I).
Qed.

(** The oldest request of a lane without a run is taken from its queue. *)
Lemma winv_pop base w o k q : WInv base [] w -> valid d0 k = true ->
  (forall r, In r (wf_runs w) -> lane d0 (wr_instr r) = Some k -> False) ->
  s_queue (serial_at (wf_del w) k) = o :: q ->
  WInv base [o] (wset_del w (upd (wf_del w) k (mk_serial (Some (active_of o)) q))) /\
  lane d0 (d_instr o) = Some k.
Proof.
  intros I Hv0 Hno Hq. set (d := wf_del w) in *.
  assert (Hv : valid d k = true) by (rewrite (kind_valid d0 d k (q_kind _ _ _ I)); assumption).
  assert (El : lane d0 (d_instr o) = Some k).
  { apply (q_lane _ _ _ I). fold d. rewrite Hq. left. reflexivity. }
  split; [|assumption].
  destruct (queued_upd d k (mk_serial (Some (active_of o)) q) Hv) as (rest & P1 & P2).
  rewrite Hq in P1. cbn [s_queue] in P2.
  assert (P : Permutation (queued d) (o :: queued (upd d k (mk_serial (Some (active_of o)) q))))
    by (rewrite P1, P2; reflexivity).
  constructor; cbn [wset_del wf_del wf_runs wf_live wf_next wf_log].
  - eapply kind_trans; [apply (q_kind _ _ _ I)|apply upd_kind].
  - apply keys_upd. apply (q_keys _ _ _ I).
  - apply (q_panic _ _ _ I).
  - apply (q_next _ _ _ I).
  - apply (q_recv _ _ _ I).
  - rewrite (q_ledger _ _ _ I). fold d. rewrite P. reflexivity.
  - apply (q_begun _ _ _ I).
  - apply (q_runs _ _ _ I).
  - intros y Hy. apply (q_fresh _ _ _ I). cbn [app]. apply (Permutation_in _ (Permutation_sym P)). assumption.
  - apply (q_once _ _ _ I).
  - intros y Hy. apply (q_info_q _ _ _ I). cbn [app]. apply (Permutation_in _ (Permutation_sym P)). assumption.
  - apply (q_info_r _ _ _ I).
  - apply (q_block _ _ _ I).
  - intros k' y. destruct (odec k' k) as [->|E].
    + rewrite (serial_at_upd_eq d k _ Hv). cbn [s_queue]. intros Hy. apply (q_lane _ _ _ I). fold d. rewrite Hq. right. assumption.
    + rewrite serial_at_upd_neq by assumption. apply (q_lane _ _ _ I).
  - intros k'. destruct (odec k' k) as [->|E].
    + rewrite (serial_at_upd_eq d k _ Hv). discriminate.
    + rewrite serial_at_upd_neq by assumption. apply (q_idle _ _ _ I).
  - intros k' r Hr E'. destruct (odec k' k) as [->|E].
    + destruct (Hno r Hr E').
    + rewrite serial_at_upd_neq by assumption. apply (q_act _ _ _ I); assumption.
  - intros k'. pose proof (q_order _ _ _ I k') as S. fold d in S. destruct (odec k' k) as [->|E].
    + rewrite (serial_at_upd_eq d k _ Hv), (filter_lane_self k o El). cbn [s_queue map app]. rewrite Hq in S. assumption.
    + rewrite serial_at_upd_neq by assumption. cbn [filter].
      destruct (lane_is k' (d_instr o)) eqn:E'; [apply lane_is_true in E'; congruence|]. assumption.
  - apply (q_pfx _ _ _ I).
  - apply (q_ok _ _ _ I).
  - apply (q_first _ _ _ I).
Qed.

(** A lane without a run and with nothing waiting becomes idle. *)
Lemma winv_pop_none base w k : WInv base [] w -> valid d0 k = true ->
  (forall r, In r (wf_runs w) -> lane d0 (wr_instr r) = Some k -> False) ->
  s_queue (serial_at (wf_del w) k) = [] ->
  WInv base [] (wset_del w (upd (wf_del w) k (mk_serial None []))).
Proof.
  intros I Hv0 Hno Hq. set (d := wf_del w) in *.
  assert (Hv : valid d k = true) by (rewrite (kind_valid d0 d k (q_kind _ _ _ I)); assumption).
  destruct (queued_upd d k (mk_serial None []) Hv) as (rest & P1 & P2).
  rewrite Hq in P1. cbn [s_queue] in P2.
  assert (P : Permutation (queued d) (queued (upd d k (mk_serial None []))))
    by (rewrite P1, P2; reflexivity).
  constructor; cbn [wset_del wf_del wf_runs wf_live wf_next wf_log].
  - eapply kind_trans; [apply (q_kind _ _ _ I)|apply upd_kind].
  - apply keys_upd. apply (q_keys _ _ _ I).
  - apply (q_panic _ _ _ I).
  - apply (q_next _ _ _ I).
  - apply (q_recv _ _ _ I).
  - rewrite (q_ledger _ _ _ I). fold d. rewrite P. reflexivity.
  - apply (q_begun _ _ _ I).
  - apply (q_runs _ _ _ I).
  - intros y Hy. apply (q_fresh _ _ _ I). cbn [app] in *. apply (Permutation_in _ (Permutation_sym P)). assumption.
  - apply (q_once _ _ _ I).
  - intros y Hy. apply (q_info_q _ _ _ I). cbn [app] in *. apply (Permutation_in _ (Permutation_sym P)). assumption.
  - apply (q_info_r _ _ _ I).
  - apply (q_block _ _ _ I).
  - intros k' y. destruct (odec k' k) as [->|E].
    + rewrite (serial_at_upd_eq d k _ Hv). intros [].
    + rewrite serial_at_upd_neq by assumption. apply (q_lane _ _ _ I).
  - intros k'. destruct (odec k' k) as [->|E].
    + rewrite (serial_at_upd_eq d k _ Hv). reflexivity.
    + rewrite serial_at_upd_neq by assumption. apply (q_idle _ _ _ I).
  - intros k' r Hr E'. destruct (odec k' k) as [->|E].
    + destruct (Hno r Hr E').
    + rewrite serial_at_upd_neq by assumption. apply (q_act _ _ _ I); assumption.
  - intros k'. pose proof (q_order _ _ _ I k') as S. fold d in S. destruct (odec k' k) as [->|E].
    + rewrite (serial_at_upd_eq d k _ Hv). rewrite Hq in S. assumption.
    + rewrite serial_at_upd_neq by assumption. assumption.
  - apply (q_pfx _ _ _ I).
  - apply (q_ok _ _ _ I).
  - apply (q_first _ _ _ I).
Qed.

(** The run of the request in hand begins. *)
Lemma winv_begin base w o b (v : V) : WInv base [o] w -> b = expected d0 (d_instr o) -> v = d_request o ->
  (forall k, lane d0 (d_instr o) = Some k ->
     s_delivering (serial_at (wf_del w) k) = Some (active_of o) /\
     forall r, In r (wf_runs w) -> lane d0 (wr_instr r) = Some k -> False) ->
  WInv base [] (wbegin w (d_task o) (d_source o) (d_session o) (d_instr o) b v).
Proof.
  intros I -> -> Hk.
  assert (Hb : ~ In (d_task o) (begun (wf_log w))) by (apply (q_fresh _ _ _ I); left; reflexivity).
  assert (Hi : In (WReq (d_task o) (d_source o) (d_session o) (d_instr o) (d_request o)) (wf_log w))
    by (apply (q_info_q _ _ _ I); left; reflexivity).
  assert (Hno : ~ In (d_task o) (outcomes (wf_log w))).
  { intros H. pose proof (ledger_nodup_w _ _ _ I) as N. inversion N as [|? ? N1 N2]; subst. apply N1.
    cbn [app]. rewrite !in_app_iff. tauto. }
  set (e := WStart (d_task o) (d_request o)).
  assert (Eb : begun (wf_log w ++ [e]) = begun (wf_log w) ++ [d_task o]) by (rewrite begun_app; reflexivity).
  assert (Eo : outcomes (wf_log w ++ [e]) = outcomes (wf_log w)) by (rewrite outcomes_app; cbn; apply app_nil_r).
  assert (Er : received (wf_log w ++ [e]) = received (wf_log w)) by (rewrite received_app; cbn; apply app_nil_r).
  assert (Elk : forall k, lane_ids k (wf_log w ++ [e]) = lane_ids k (wf_log w))
    by (intros k; rewrite lane_ids_app; cbn; apply app_nil_r).
  assert (Hlk : forall k, In (d_task o) (lane_ids k (wf_log w)) <-> lane d0 (d_instr o) = Some k).
  { intros k. rewrite In_lane_ids. split; [|eauto 7]. intros (n & s & i & v & H & E).
    pose proof (info_unique _ _ _ _ _ _ _ _ _ _ (received_nodup _ _ _ I) H Hi). congruence. }
  unfold wbegin. constructor; cbn [wsay wset_runs wf_del wf_runs wf_live wf_next wf_log]; fold e;
    rewrite ?Eb, ?Eo, ?Er.
  - apply (q_kind _ _ _ I).
  - apply (q_keys _ _ _ I).
  - rewrite in_app_iff. intros [H|[H|[]]]; [apply (q_panic _ _ _ I H)|discriminate].
  - apply (q_next _ _ _ I).
  - apply (q_recv _ _ _ I).
  - rewrite (q_ledger _ _ _ I). cbn [map app]. rewrite map_app. cbn [map wr_id].
    rewrite <- (app_assoc (map wr_id (wf_runs w))). rewrite !(app_assoc (map d_task (queued (wf_del w)))).
    cbn [app]. apply Permutation_middle.
  - intros id. rewrite map_app, !in_app_iff. cbn. intros [H|[<-|[]]]; [|tauto].
    destruct (q_begun _ _ _ I id H); tauto.
  - intros r. rewrite !in_app_iff. intros [H|[<-|[]]]; [left; apply (q_runs _ _ _ I r H)|right; left; reflexivity].
  - intros y Hy. cbn [app] in Hy. rewrite in_app_iff. intros [H|[H|[]]].
    + revert H. apply (q_fresh _ _ _ I). right. assumption.
    + pose proof (ledger_nodup_w _ _ _ I) as N. inversion N as [|? ? N1 N2]; subst. apply N1.
      cbn [app]. rewrite H, !in_app_iff. left. apply in_map. assumption.
  - apply (Permutation_NoDup (Permutation_cons_append _ _)). constructor; [assumption|apply (q_once _ _ _ I)].
  - intros y Hy. apply in_or_app. left. apply (q_info_q _ _ _ I). right. assumption.
  - intros r. rewrite in_app_iff. intros [H|[<-|[]]].
    + destruct (q_info_r _ _ _ I r H) as (v & H'). exists v. apply in_or_app. left. assumption.
    + exists (d_request o). apply in_or_app. left. assumption.
  - intros r. rewrite in_app_iff. intros [H|[<-|[]]]; [apply (q_block _ _ _ I r H)|reflexivity].
  - apply (q_lane _ _ _ I).
  - apply (q_idle _ _ _ I).
  - intros k r. rewrite in_app_iff. intros [H|[<-|[]]] E; [apply (q_act _ _ _ I k r H E)|].
    destruct (Hk k E) as [E' _]. rewrite E'. reflexivity.
  - intros k. pose proof (q_order _ _ _ I k) as S. rewrite Elk. unfold among in *. rewrite filter_app.
    cbn [filter map app] in *. destruct (lane_is k (d_instr o)) eqn:El.
    + apply lane_is_true in El. pose proof (proj2 (Hlk k) El) as Hm. apply mem_In in Hm. rewrite Hm.
      rewrite <- app_assoc. exact S.
    + assert (Hm : existsb (Nat.eqb (d_task o)) (lane_ids k (wf_log w)) = false).
      { apply mem_nIn. intros H. apply Hlk, lane_is_true in H. congruence. }
      rewrite Hm, app_nil_r. exact S.
  - apply pfx_snoc; [apply (q_pfx _ _ _ I)|]. intros k. unfold prog, among, in_progress.
    rewrite Elk, Eb, Eo, filter_app, filter_app. cbn [filter].
    assert (Hm : existsb (Nat.eqb (d_task o)) (outcomes (wf_log w)) = false) by (apply mem_nIn; assumption).
    rewrite Hm. cbn [negb filter]. rewrite app_length. fold (in_progress (wf_log w)).
    fold (among (lane_ids k (wf_log w)) (in_progress (wf_log w))). fold (prog k (wf_log w)).
    destruct (existsb (Nat.eqb (d_task o)) (lane_ids k (wf_log w))) eqn:E.
    + apply mem_In, Hlk in E. destruct (Hk k E) as [_ Hn].
      destruct (prog k (wf_log w)) as [|y l] eqn:Ep; [cbn; lia|]. exfalso.
      assert (Hy : In y (prog k (wf_log w))) by (rewrite Ep; left; reflexivity).
      apply (prog_runs _ _ _ _ _ I) in Hy. destruct Hy as (r & Hr & _ & E'). apply (Hn r Hr E').
    + cbn. pose proof (q_pfx _ _ _ I (wf_log w) [] k). rewrite app_nil_r in H. specialize (H eq_refl). lia.
  - apply ok_snoc; [apply (q_ok _ _ _ I)|]. split; [|eauto].
    apply (hand_pending _ _ _ o I). left. reflexivity.
  - apply first_snoc; [exact (q_first _ _ _ I)|]. intros id v k E H. injection E as <- <-.
    rewrite (pending_lane _ _ _ k I). apply Hlk in H. rewrite (filter_lane_self k o H). cbn [app map]. eauto.
Qed.

(** Events which neither receive nor begin a request. *)
Definition quiet e : Prop :=
  match e with WReq _ _ _ _ _ | WStart _ _ | WPanic => False | _ => True end.

Lemma quiet_logs L es : (forall e, In e es -> quiet e) ->
  received (L ++ es) = received L /\ begun (L ++ es) = begun L /\
  (forall k, lane_ids k (L ++ es) = lane_ids k L) /\
  (In WPanic (L ++ es) -> In WPanic L) /\
  (forall id v, In (WStart id v) (L ++ es) -> In (WStart id v) L).
Proof.
  intros H. rewrite received_app, begun_app.
  assert (E1 : received es = [] /\ begun es = [] /\ forall k, lane_ids k es = []).
  { induction es as [|e es IH]; [repeat split; reflexivity|].
    destruct (IH (fun e He => H e (or_intror He))) as (A & B & C). specialize (H e (or_introl eq_refl)).
    destruct e; cbn in H; try contradiction; repeat split; try assumption. }
  destruct E1 as (A & B & C). rewrite A, B, !app_nil_r. split; [reflexivity|]. split; [reflexivity|].
  split; [intros k; rewrite lane_ids_app, C, app_nil_r; reflexivity|].
  split; [|intros id v]; rewrite in_app_iff; intros [Hi|Hi]; auto; destruct (H _ Hi).
Qed.

Lemma pfx_quiets es : forall L, (forall p q k, L = p ++ q -> length (prog k p) <= 1) ->
  (forall e, In e es -> quiet e) -> forall p q k, L ++ es = p ++ q -> length (prog k p) <= 1.
Proof.
  induction es as [|e es IH]; intros L H1 H2.
  - rewrite app_nil_r. assumption.
  - replace (L ++ e :: es) with ((L ++ [e]) ++ es) by (rewrite <- app_assoc; reflexivity). apply IH.
    + pose proof (H2 e (or_introl eq_refl)) as Q.
      apply pfx_quiet; [assumption| |]; [intros id v ->|intros id n s i v ->]; destruct Q.
    + intros e' He'. apply H2. right. assumption.
Qed.

Lemma outcomes_quiet (ev : order V -> wevent V) drop : (forall o, outcome (ev o) = Some (d_task o)) ->
  outcomes (map ev drop) = map d_task drop.
Proof.
  intros H. induction drop as [|o l IH]; [reflexivity|]. cbn [map outcomes flat_map].
  rewrite H. cbn [app]. f_equal. exact IH.
Qed.

(** The request in hand is given up. *)
Lemma winv_drop base w o e : WInv base [o] w -> quiet e -> outcome e = Some (d_task o) -> well_timed (wf_log w) e ->
  WInv base [] (wsay w [e]).
Proof.
  intros I Q Eo Ht. destruct (quiet_logs (wf_log w) [e]) as (Er & Eb & El & Ep & Es).
  { intros e' [<-|[]]. assumption. }
  constructor; cbn [wsay wf_del wf_runs wf_live wf_next wf_log]; rewrite ?Er, ?Eb, ?outcomes_app;
    cbn [outcomes flat_map]; rewrite ?Eo; cbn [app].
  - apply (q_kind _ _ _ I).
  - apply (q_keys _ _ _ I).
  - intros H. apply (q_panic _ _ _ I), Ep, H.
  - apply (q_next _ _ _ I).
  - apply (q_recv _ _ _ I).
  - rewrite (q_ledger _ _ _ I). cbn [map app].
    rewrite !(app_assoc _ _ [d_task o]). apply Permutation_cons_append.
  - intros id H. rewrite in_app_iff. destruct (q_begun _ _ _ I id H); tauto.
  - apply (q_runs _ _ _ I).
  - intros y Hy. apply (q_fresh _ _ _ I). right. assumption.
  - apply (q_once _ _ _ I).
  - intros y Hy. apply in_or_app. left. apply (q_info_q _ _ _ I). right. assumption.
  - intros r Hr. destruct (q_info_r _ _ _ I r Hr) as (v & H). exists v. apply in_or_app. left. assumption.
  - apply (q_block _ _ _ I).
  - apply (q_lane _ _ _ I).
  - apply (q_idle _ _ _ I).
  - apply (q_act _ _ _ I).
  - intros k. rewrite El. cbn [filter map app]. eapply subseq_trans; [|apply (q_order _ _ _ I k)].
    apply subseq_app; [apply subseq_refl|]. apply subseq_app_l, subseq_refl.
  - apply pfx_quiets; [apply (q_pfx _ _ _ I)|]. intros e' [<-|[]]. assumption.
  - apply ok_snoc; [apply (q_ok _ _ _ I)|assumption].
  - apply first_quiet; [exact (q_first _ _ _ I)|]. intros id v ->. destruct Q.
Qed.


Lemma first_quiets es : forall L, firsts L -> (forall e, In e es -> quiet e) -> firsts (L ++ es).
Proof.
  induction es as [|e es IH]; intros L H1 H2.
  - rewrite app_nil_r. assumption.
  - replace (L ++ e :: es) with ((L ++ [e]) ++ es) by (rewrite <- app_assoc; reflexivity). apply IH.
    + pose proof (H2 e (or_introl eq_refl)) as Q. apply first_quiet; [assumption|]. intros id v ->. destruct Q.
    + intros e' He'. apply H2. right. assumption.
Qed.

Lemma ok_dismiss (ev : order V -> wevent V) drop : forall L,
  (forall p e q, L = p ++ e :: q -> well_timed p e) ->
  (forall o, In o drop -> In (d_task o) (pending L) /\
     In (WReq (d_task o) (d_source o) (d_session o) (d_instr o) (d_request o)) L /\
     (quiet (ev o) /\ outcome (ev o) = Some (d_task o)) /\
     forall p, In (d_task o) (pending p) ->
       In (WReq (d_task o) (d_source o) (d_session o) (d_instr o) (d_request o)) p -> well_timed p (ev o)) ->
  NoDup (map d_task drop) -> forall p e q, L ++ map ev drop = p ++ e :: q -> well_timed p e.
Proof.
  induction drop as [|o drop IH]; intros L H1 H2 N.
  - cbn [map]. rewrite app_nil_r. assumption.
  - cbn [map] in *. inversion N as [|? ? N1 N2]; subst.
    replace (L ++ ev o :: map ev drop) with ((L ++ [ev o]) ++ map ev drop) by (rewrite <- app_assoc; reflexivity).
    destruct (H2 o (or_introl eq_refl)) as (A1 & A2 & (A3 & A4) & A5). apply IH; [|clear A5|assumption].
    + apply ok_snoc; [assumption|]. apply A5; assumption.
    + intros o' Ho'. destruct (H2 o' (or_intror Ho')) as (B1 & B2 & B3 & B4).
      destruct (quiet_logs L [ev o]) as (Er & Eb & _); [intros e' [<-|[]]; assumption|].
      split; [|split; [apply in_or_app; left; assumption|split; assumption]].
      apply In_pending in B1. apply In_pending. rewrite Er, Eb, outcomes_app, in_app_iff. cbn [outcomes flat_map].
      rewrite A4. cbn. split; [tauto|]. split; [tauto|]. intros [H|[H|[]]]; [tauto|]. apply N1. rewrite H.
      apply in_map. assumption.
Qed.

(** Waiting requests are given up. *)
Lemma winv_dismiss base w d' drop ev : WInv base [] w -> same_kind (wf_del w) d' -> keys_ok d' ->
  (forall k, s_delivering (serial_at d' k) = s_delivering (serial_at (wf_del w) k) /\
             subsequence (s_queue (serial_at d' k)) (s_queue (serial_at (wf_del w) k))) ->
  Permutation (queued (wf_del w)) (drop ++ queued d') ->
  (forall o, quiet (ev o) /\ outcome (ev o) = Some (d_task o) /\
     forall p, In (d_task o) (pending p) ->
       In (WReq (d_task o) (d_source o) (d_session o) (d_instr o) (d_request o)) p -> well_timed p (ev o)) ->
  WInv base [] (wsay (wset_del w d') (map ev drop)).
Proof.
  intros I Hk Hkeys Hs P Hev. destruct (quiet_logs (wf_log w) (map ev drop)) as (Er & Eb & El & Ep & Es).
  { intros e' He. apply in_map_iff in He. destruct He as (o & <- & _). apply Hev. }
  assert (Eo : outcomes (wf_log w ++ map ev drop) = outcomes (wf_log w) ++ map d_task drop).
  { rewrite outcomes_app, outcomes_quiet; [reflexivity|]. intros o. apply Hev. }
  assert (Hin : forall o, In o (queued d') -> In o (queued (wf_del w))).
  { intros o Ho. apply (Permutation_in _ (Permutation_sym P)). apply in_or_app. right. assumption. }
  constructor; cbn [wsay wset_del wf_del wf_runs wf_live wf_next wf_log]; rewrite ?Er, ?Eb, ?Eo; cbn [app].
  - eapply kind_trans; [apply (q_kind _ _ _ I)|assumption].
  - assumption.
  - intros H. apply (q_panic _ _ _ I), Ep, H.
  - apply (q_next _ _ _ I).
  - apply (q_recv _ _ _ I).
  - rewrite (q_ledger _ _ _ I). cbn [map app]. rewrite P, map_app.
    rewrite !app_assoc. rewrite (Permutation_app_comm _ (map d_task drop)). rewrite !app_assoc. reflexivity.
  - intros id H. rewrite in_app_iff. destruct (q_begun _ _ _ I id H); tauto.
  - apply (q_runs _ _ _ I).
  - intros y Hy. apply (q_fresh _ _ _ I). apply Hin. assumption.
  - apply (q_once _ _ _ I).
  - intros y Hy. apply in_or_app. left. apply (q_info_q _ _ _ I). apply Hin. assumption.
  - intros r Hr. destruct (q_info_r _ _ _ I r Hr) as (v & H). exists v. apply in_or_app. left. assumption.
  - apply (q_block _ _ _ I).
  - intros k o Ho. apply (q_lane _ _ _ I). destruct (Hs k) as [_ S]. apply (subseq_In _ _ _ S Ho).
  - intros k Hd. destruct (Hs k) as [E S]. rewrite E in Hd. rewrite (q_idle _ _ _ I k Hd) in S.
    inversion S. reflexivity.
  - intros k r Hr E. destruct (Hs k) as [-> _]. apply (q_act _ _ _ I k r Hr E).
  - intros k. rewrite El. cbn [filter map app]. eapply subseq_trans; [|apply (q_order _ _ _ I k)].
    apply subseq_app; [apply subseq_refl|]. cbn [filter map app]. apply subseq_map. apply Hs.
  - apply pfx_quiets; [apply (q_pfx _ _ _ I)|]. intros e' He. apply in_map_iff in He. destruct He as (o & <- & _). apply Hev.
  - apply ok_dismiss; [apply (q_ok _ _ _ I)| |].
    + intros o Ho. assert (Hq : In o (queued (wf_del w))).
      { apply (Permutation_in _ (Permutation_sym P)). apply in_or_app. left. assumption. }
      split; [apply (hand_pending _ _ _ o I); assumption|]. split; [apply (q_info_q _ _ _ I o Hq)|].
      destruct (Hev o) as (E1 & E2 & E3). repeat split; assumption.
    + pose proof (ledger_nodup_w _ _ _ I) as N. cbn [map app] in N. rewrite P, map_app in N.
      destruct (nodup_app _ _ N) as (N1 & _ & _). destruct (nodup_app _ _ N1) as (N2 & _ & _). assumption.
  - apply first_quiets; [exact (q_first _ _ _ I)|]. intros e' He. apply in_map_iff in He. destruct He as (o & <- & _). apply Hev.
Qed.

Lemma filter_ids_perm (l : list (wrun V)) r : NoDup (map wr_id l) -> In r l ->
  Permutation (map wr_id l) (wr_id r :: map wr_id (filter (fun y => negb (Nat.eqb (wr_id y) (wr_id r))) l)).
Proof.
  induction l as [|y l IH]; cbn [map filter]; intros N H; [destruct H|]. inversion N as [|? ? N1 N2]; subst.
  destruct H as [->|H].
  - rewrite Nat.eqb_refl. cbn [negb]. apply perm_skip. rewrite (filter_same _ (fun _ => true)).
    + rewrite filter_true_w. reflexivity.
    + intros z Hz. destruct (Nat.eqb_spec (wr_id z) (wr_id r)) as [E|E]; [|reflexivity].
      exfalso. apply N1. rewrite <- E. apply in_map. assumption.
  - destruct (Nat.eqb_spec (wr_id y) (wr_id r)) as [E|E].
    + exfalso. apply N1. rewrite E. apply in_map. assumption.
    + cbn [negb map]. rewrite (IH N2 H) at 1. apply perm_swap.
Qed.

(** A run ends. *)
Lemma winv_end base w r e : WInv base [] w -> In r (wf_runs w) -> quiet e -> outcome e = Some (wr_id r) -> well_timed (wf_log w) e ->
  WInv base [] (wsay (wset_runs w (filter (fun y => negb (Nat.eqb (wr_id y) (wr_id r))) (wf_runs w))) [e]).
Proof.
  intros I Hr Q Eo Ht. destruct (quiet_logs (wf_log w) [e]) as (Er & Eb & El & Ep & Es).
  { intros e' [<-|[]]. assumption. }
  assert (P := filter_ids_perm _ r (runs_nodup _ _ _ I) Hr).
  assert (Hin : forall y, In y (filter (fun y => negb (Nat.eqb (wr_id y) (wr_id r))) (wf_runs w)) -> In y (wf_runs w))
    by (intros y Hy; apply filter_In in Hy; apply Hy).
  constructor; cbn [wsay wset_runs wf_del wf_runs wf_live wf_next wf_log]; rewrite ?Er, ?Eb, ?outcomes_app;
    cbn [outcomes flat_map]; rewrite ?Eo; cbn [app].
  - apply (q_kind _ _ _ I).
  - apply (q_keys _ _ _ I).
  - intros H. apply (q_panic _ _ _ I), Ep, H.
  - apply (q_next _ _ _ I).
  - apply (q_recv _ _ _ I).
  - rewrite (q_ledger _ _ _ I). cbn [map app]. rewrite P. apply Permutation_app_head. cbn [app].
    rewrite app_assoc. apply Permutation_cons_append.
  - intros id H. rewrite in_app_iff. destruct (q_begun _ _ _ I id H) as [H'|H']; [|tauto].
    apply (Permutation_in _ P) in H'. destruct H' as [H'|H']; [|tauto]. right. right. left. assumption.
  - intros y Hy. apply (q_runs _ _ _ I). auto.
  - intros y Hy. apply (q_fresh _ _ _ I). assumption.
  - apply (q_once _ _ _ I).
  - intros y Hy. apply in_or_app. left. apply (q_info_q _ _ _ I). assumption.
  - intros y Hy. destruct (q_info_r _ _ _ I y (Hin y Hy)) as (v & H). exists v. apply in_or_app. left. assumption.
  - intros y Hy. apply (q_block _ _ _ I). auto.
  - apply (q_lane _ _ _ I).
  - apply (q_idle _ _ _ I).
  - intros k y Hy. apply (q_act _ _ _ I). auto.
  - intros k. rewrite El. apply (q_order _ _ _ I).
  - apply pfx_quiets; [apply (q_pfx _ _ _ I)|]. intros e' [<-|[]]. assumption.
  - apply ok_snoc; [apply (q_ok _ _ _ I)|assumption].
  - apply first_quiet; [exact (q_first _ _ _ I)|]. intros id v ->. destruct Q.
Qed.

(** What does not change of a run. *)
Definition skel r := (wr_id r, wr_node r, wr_session r, wr_instr r, wr_block r).

Lemma winv_skel base x w rs : WInv base x w -> map skel rs = map skel (wf_runs w) ->
  WInv base x (wset_runs w rs).
Proof.
  intros I E.
  assert (Ei : map wr_id rs = map wr_id (wf_runs w)).
  { assert (K : forall l : list (wrun V), map wr_id l = map (fun p => fst (fst (fst (fst p)))) (map skel l))
      by (intros l; rewrite map_map; reflexivity). rewrite !K, E. reflexivity. }
  assert (Hin : forall y, In y rs -> exists y', In y' (wf_runs w) /\ skel y' = skel y).
  { intros y Hy. apply (in_map skel) in Hy. rewrite E in Hy. apply in_map_iff in Hy.
    destruct Hy as (y' & E' & Hy'). eauto. }
  constructor; cbn [wset_runs wf_del wf_runs wf_live wf_next wf_log]; rewrite ?Ei; try apply I.
  - intros y Hy. destruct (Hin y Hy) as (y' & Hy' & E'). injection E' as <- _ _ _ _. apply (q_runs _ _ _ I); assumption.
  - intros y Hy. destruct (Hin y Hy) as (y' & Hy' & E'). injection E' as <- <- <- <- _. apply (q_info_r _ _ _ I); assumption.
  - intros y Hy. destruct (Hin y Hy) as (y' & Hy' & E'). injection E' as _ _ _ <- <-. apply (q_block _ _ _ I); assumption.
  - intros k y Hy. destruct (Hin y Hy) as (y' & Hy' & E'). injection E' as <- <- <- <- _. apply (q_act _ _ _ I); assumption.
Qed.

Lemma winv_live base x w l : WInv base x w -> WInv base x (wset_live w l).
Proof. intros I. constructor; cbn [wset_live wf_del wf_runs wf_live wf_next wf_log]; apply I. Qed.

Lemma wswitched_skel r st f : skel (wswitched r st f) = skel r.
Proof. reflexivity. Qed.

Lemma wswitch_skel live sel f fi l : forall ok, map skel (wswitch live sel f fi ok l) = map skel l.
Proof.
  induction l as [|r l IH]; intros ok; [reflexivity|]. cbn [wswitch]. destruct (sel r).
  - destruct (f (wr_status r)) as [st hit]. cbn [map]. rewrite IH. reflexivity.
  - cbn [map]. rewrite IH. reflexivity.
Qed.

Lemma winv_cancel base w s c : WInv base [] w -> WInv base [] (wcancel w s c).
Proof. intros I. unfold wcancel. apply winv_skel; [assumption|apply wswitch_skel]. Qed.

Lemma winv_value base w id v : WInv base [] w -> WInv base [] (wvalue w id v).
Proof.
  intros I. unfold wvalue. destruct (wlives w id); [|assumption]. apply winv_skel; [assumption|].
  rewrite map_map. apply map_ext. intros r. destruct (Nat.eqb (wr_id r) id); [|reflexivity].
  destruct (wr_fin r); [reflexivity|]. destruct (to_finished (wr_status r)). reflexivity.
Qed.

(** A request joins the queue of its lane. *)
Lemma winv_enqueue base w n s i (v : V) k a :
  WInv base [] w -> lane d0 i = Some k -> s_delivering (serial_at (wf_del w) k) = Some a ->
  let id := wf_next w in
  let o := mk_order n s id v i in
  WInv base []
    (mk_wsrv (upd (wf_del w) k (mk_serial (Some a) (s_queue (serial_at (wf_del w) k) ++ [o])))
       (wf_runs w) (wf_live w ++ [(id, s)]) (S id) (wf_log w ++ [WReq id n s i v])).
Proof.
  intros I El Hd id o. set (d := wf_del w) in *.
  assert (Hv : valid d k = true) by (rewrite (kind_valid d0 d k (q_kind _ _ _ I)); apply (lane_valid _ _ _ El)).
  set (s' := mk_serial (Some a) (s_queue (serial_at d k) ++ [o])).
  destruct (queued_upd d k s' Hv) as (rest & P1 & P2). cbn [s' s_queue] in P2.
  assert (P : Permutation (o :: queued d) (queued (upd d k s'))).
  { rewrite P1, P2, <- app_assoc. cbn [app]. apply Permutation_middle. }
  assert (Hb : ~ In id (begun (wf_log w))).
  { intros H. apply (begun_received _ _ _ _ I), (received_below _ _ _ _ I) in H. unfold id in H. lia. }
  assert (Eb : begun (wf_log w ++ [WReq id n s i v]) = begun (wf_log w))
    by (rewrite begun_app; cbn; apply app_nil_r).
  assert (Eo : outcomes (wf_log w ++ [WReq id n s i v]) = outcomes (wf_log w))
    by (rewrite outcomes_app; cbn; apply app_nil_r).
  assert (Hin : forall y, In y (queued (upd d k s')) -> y = o \/ In y (queued d)).
  { intros y Hy. apply (Permutation_in _ (Permutation_sym P)) in Hy. destruct Hy; auto. }
  constructor; cbn [wf_del wf_runs wf_live wf_next wf_log]; rewrite ?Eb, ?Eo.
  - eapply kind_trans; [apply (q_kind _ _ _ I)|apply upd_kind].
  - apply keys_upd. apply (q_keys _ _ _ I).
  - rewrite in_app_iff. intros [H|[H|[]]]; [apply (q_panic _ _ _ I H)|discriminate].
  - pose proof (q_next _ _ _ I). unfold id. lia.
  - rewrite received_app, (q_recv _ _ _ I). cbn [received flat_map app]. pose proof (q_next _ _ _ I).
    replace (S id - base) with (S (wf_next w - base)) by (unfold id; lia). rewrite seq_S. f_equal. f_equal.
    unfold id. lia.
  - rewrite received_app. cbn [received flat_map app map]. rewrite Permutation_app_comm. cbn [app].
    fold d. rewrite <- P. cbn [map d_task o app]. constructor. apply (q_ledger _ _ _ I).
  - apply (q_begun _ _ _ I).
  - apply (q_runs _ _ _ I).
  - intros y Hy. destruct (Hin y Hy) as [->|H]; [exact Hb|]. apply (q_fresh _ _ _ I y H).
  - apply (q_once _ _ _ I).
  - intros y Hy. apply in_or_app. destruct (Hin y Hy) as [->|H]; [right; left; reflexivity|left].
    apply (q_info_q _ _ _ I y H).
  - intros r Hr. destruct (q_info_r _ _ _ I r Hr) as (v' & H). exists v'. apply in_or_app. left. assumption.
  - apply (q_block _ _ _ I).
  - intros k' y. destruct (odec k' k) as [->|E].
    + rewrite (serial_at_upd_eq d k _ Hv). cbn [s' s_queue]. rewrite in_app_iff. intros [Hy|[<-|[]]].
      * apply (q_lane _ _ _ I); assumption.
      * exact El.
    + rewrite serial_at_upd_neq by assumption. apply (q_lane _ _ _ I).
  - intros k'. destruct (odec k' k) as [->|E].
    + rewrite (serial_at_upd_eq d k _ Hv). discriminate.
    + rewrite serial_at_upd_neq by assumption. apply (q_idle _ _ _ I).
  - intros k' r Hr E'. destruct (odec k' k) as [->|E].
    + rewrite (serial_at_upd_eq d k _ Hv). cbn [s' s_delivering]. rewrite <- Hd. apply (q_act _ _ _ I); assumption.
    + rewrite serial_at_upd_neq by assumption. apply (q_act _ _ _ I); assumption.
  - intros k'. pose proof (q_order _ _ _ I k') as S. cbn [filter map app] in S. fold d in S.
    assert (Ea : among (lane_ids k' (wf_log w ++ [WReq id n s i v])) (begun (wf_log w))
                 = among (lane_ids k' (wf_log w)) (begun (wf_log w))).
    { apply filter_same. intros y Hy. rewrite lane_ids_app, existsb_app. cbn.
      destruct (lane_is k' i); cbn; [|apply orb_false_r].
      destruct (Nat.eqb_spec y id) as [E|E]; [subst y; contradiction|]. cbn. apply orb_false_r. }
    rewrite Ea, lane_ids_app. cbn [filter map app lane_ids flat_map].
    destruct (lane_is k' i) eqn:E'.
    + apply lane_is_true in E'. rewrite El in E'. injection E' as <-.
      rewrite (serial_at_upd_eq d k _ Hv). cbn [s' s_queue]. rewrite map_app, app_assoc.
      apply subseq_app; [assumption|apply subseq_refl].
    + rewrite serial_at_upd_neq, app_nil_r; [assumption|]. intros ->.
      apply lane_is_true in El. congruence.
  - apply pfx_quiet; [apply (q_pfx _ _ _ I)|congruence|]. intros id' n' s2 i' v' E. injection E as <- _ _ _ _. assumption.
  - apply ok_snoc; [apply (q_ok _ _ _ I)|]. intros H. apply (received_below _ _ _ _ I) in H. unfold id in H. lia.
  - apply first_quiet; [exact (q_first _ _ _ I)|discriminate].
Qed.

Lemma lset_lset l (s s' : serial V) ls : lset l s' (lset l s ls) = lset l s' ls.
Proof.
  induction ls as [|[l' x] ls IH]; cbn [lset].
  - rewrite Nat.eqb_refl. reflexivity.
  - destruct (Nat.eqb_spec l l') as [->|E]; cbn [lset].
    + rewrite Nat.eqb_refl. reflexivity.
    + rewrite IH. destruct (Nat.eqb_spec l l'); [congruence|reflexivity].
Qed.

Lemma upd_upd (d : delivery V) k s s' : upd (upd d k s) k s' = upd d k s'.
Proof. destruct d, k; cbn; try reflexivity. rewrite lset_lset. reflexivity. Qed.

Lemma winv_serve base w n s i (v : V) : WInv base [] w -> WInv base [] (wserve w n s i v).
Proof.
  intros I. unfold wserve. set (id := wf_next w). cbn [wf_del wf_runs wf_live wf_next wf_log].
  set (o := mk_order n s id v i).
  assert (Ek : forall j, lane (wf_del w) j = lane d0 j) by (intros j; apply kind_lane, I).
  destruct (lane d0 i) as [k|] eqn:Hl.
  - rewrite (insert_lane _ o k) by (rewrite Ek; exact Hl). unfold insert_serial_order.
    destruct (s_delivering (serial_at (wf_del w) k)) as [a|] eqn:Hd.
    + pose proof (winv_enqueue base w n s i v k a I Hl Hd) as J. cbv zeta in J. fold id in J. fold o in J.
      destruct i as [inc|]; cbn [d_instr o fst snd].
      * destruct (i_preempt inc) eqn:Hp; cbn [fst snd wsay wset_del wf_del wf_runs wf_live wf_next wf_log map].
        -- set (f := fun e : order V => should_discard inc (d_instr e)).
           set (q := s_queue (serial_at (wf_del w) k)) in *.
           assert (Hv : valid (wf_del w) k = true).
           { rewrite (kind_valid _ _ _ (q_kind _ _ _ I)). apply (lane_valid _ _ _ Hl). }
           set (d1 := upd (wf_del w) k (mk_serial (Some a) (q ++ [o]))) in *.
           set (s2 := mk_serial (Some a) (filter (fun c : order V => negb (f c)) q ++ [o])).
           assert (Hv1 : valid d1 k = true) by (unfold d1; rewrite (kind_valid _ _ _ (upd_kind _ _ _)); assumption).
           pose proof (winv_dismiss base _ (upd d1 k s2) (filter f q)
              (fun c => WDisp (d_task c) (d_source c) (d_session c) n s) J) as K.
           cbn [wf_del] in K.
           assert (K1 : WInv base [] (mk_wsrv (upd (wf_del w) k s2) (wf_runs w) (wf_live w ++ [(id, s)]) (S id)
             ((wf_log w ++ [WReq id n s (Some inc) v]) ++
               map (fun c => WDisp (st_task c) (st_source c) (st_session c) n s) (map stop_order (filter f q))))).
           { rewrite map_map. cbn [st_task st_source st_session stop_order].
             unfold wsay, wset_del in K. cbn [wf_del wf_runs wf_live wf_next wf_log] in K.
             replace (upd (wf_del w) k s2) with (upd d1 k s2) by apply upd_upd. apply K.
             - apply upd_kind.
             - apply keys_upd. apply (q_keys _ _ _ J).
             - intros k'. destruct (odec k' k) as [->|E].
               + rewrite (serial_at_upd_eq d1 k _ Hv1). unfold d1 at 1. rewrite (serial_at_upd_eq (wf_del w) k _ Hv).
                 split; [reflexivity|]. unfold d1. rewrite (serial_at_upd_eq (wf_del w) k _ Hv). cbn [s2 s_queue].
                 apply subseq_app; [apply subseq_filter|apply subseq_refl].
               + rewrite serial_at_upd_neq by assumption. split; [reflexivity|apply subseq_refl].
             - destruct (queued_upd d1 k s2 Hv1) as (rest & P1 & P2). rewrite P1, P2. unfold d1.
               rewrite (serial_at_upd_eq (wf_del w) k _ Hv). cbn [s2 s_queue].
               rewrite (filter_split_perm f q) at 1. rewrite <- !app_assoc. reflexivity.
             - intros c. split; [exact Logic.I|]. split; [reflexivity|]. intros p H1 H2. split; [assumption|]. eauto. }
           destruct (should_discard inc (a_instr a)); [apply winv_cancel|]; exact K1.
        -- unfold wsay, wset_del; cbn [wf_del wf_runs wf_live wf_next wf_log map]. rewrite app_nil_r. exact J.
      * unfold wsay, wset_del; cbn [wf_del wf_runs wf_live wf_next wf_log map]. rewrite app_nil_r. exact J.
    + assert (Hq := q_idle _ _ _ I k Hd). rewrite Hq. cbn [fst snd].
      pose proof (winv_receive base w n s i v I) as J. cbv zeta in J. fold id in J. fold o in J.
      assert (J' := J ltac:(intros k' E; rewrite Hl in E; injection E as <-; exact Hq)). clear J.
      assert (Hno : forall r, In r (wf_runs w) -> lane d0 (wr_instr r) = Some k -> False).
      { intros r Hr E. rewrite (q_act _ _ _ I k r Hr E) in Hd. discriminate. }
      pose proof (winv_hold base _ o k [] J' Hl) as H. cbn [wf_runs wf_del] in H. specialize (H Hno Hq).
      apply (winv_begin base _ o _ _ H).
      * exact (expected_immediate d0 i k Hl).
      * reflexivity.
      * intros k' E. cbn [d_instr o] in E. rewrite Hl in E. injection E as <-.
        cbn [wset_del wf_del wf_runs]. split; [|exact Hno]. rewrite serial_at_upd_eq; [reflexivity|].
        rewrite (kind_valid _ _ _ (q_kind _ _ _ I)). apply (lane_valid _ _ _ Hl).
  - rewrite insert_nolane by (rewrite Ek; exact Hl).
    pose proof (winv_receive base w n s i v I) as J. cbv zeta in J. fold id in J. fold o in J.
    assert (J' := J ltac:(intros k' E; congruence)).
    apply (winv_begin base _ o _ _ J').
    + symmetry. exact (lane_none_expected d0 i Hl).
    + reflexivity.
    + intros k' E. cbn [d_instr o] in E. congruence.
Qed.

Lemma winv_serve_next base fuel alive b : forall w, WInv base [] w -> known (wf_del w) b ->
  (forall r, In r (wf_runs w) -> lane d0 (wr_instr r) = Some (blane d0 b) -> False) ->
  length (s_queue (serial_at (wf_del w) (blane d0 b))) <= fuel ->
  WInv base [] (wserve_next fuel alive b w).
Proof.
  induction fuel as [|fuel IH]; intros w I Hk Hno Hf; cbn [wserve_next];
    rewrite (pop_lane _ _ Hk), (kind_blane _ _ b (q_kind _ _ _ I)); unfold pop_impl;
    assert (Hv : valid d0 (blane d0 b) = true)
      by (rewrite <- (kind_blane _ _ b (q_kind _ _ _ I)), <- (kind_valid _ _ _ (q_kind _ _ _ I)); apply known_valid; assumption);
    destruct (s_queue (serial_at (wf_del w) (blane d0 b))) as [|o q] eqn:Eq; cbn [fst snd].
  - apply winv_pop_none; assumption.
  - cbn in Hf. lia.
  - apply winv_pop_none; assumption.
  - destruct (winv_pop base w o (blane d0 b) q I Hv Hno Eq) as [J El].
    assert (Hv' : valid (wf_del w) (blane d0 b) = true) by (rewrite (kind_valid _ _ _ (q_kind _ _ _ I)); assumption).
    destruct (alive (d_source o)).
    + apply (winv_begin base _ o _ _ J).
      * apply (expected_immediate d0 _ _ El).
      * reflexivity.
      * intros k E. rewrite El in E. injection E as <-. cbn [wset_del wf_del wf_runs]. split; [|exact Hno].
        rewrite serial_at_upd_eq by assumption. reflexivity.
    + apply IH.
      * apply (winv_drop base _ o _ J); [exact Logic.I|reflexivity|].
        apply (hand_pending _ _ _ o J). left. reflexivity.
      * cbn [wsay wset_del wf_del]. apply known_upd. assumption.
      * exact Hno.
      * cbn [wsay wset_del wf_del]. rewrite serial_at_upd_eq by assumption. cbn [s_queue]. cbn in Hf. lia.
Qed.

Lemma act_known (d : delivery V) i b : expected d i = Some b ->
  s_delivering (serial_at d (blane d b)) <> None -> known d b.
Proof.
  destruct d as [s|ls], i as [i|]; cbn; try exact (fun _ _ => Logic.I); intros [= <-].
  cbn. intros H. exists (i_label i). split; [reflexivity|]. intros E. rewrite E in H. apply H. reflexivity.
Qed.

Lemma find_run (rs : list (wrun V)) id r : find (fun r => Nat.eqb (wr_id r) id) rs = Some r ->
  In r rs /\ wr_id r = id.
Proof.
  intros H. apply find_some in H. destruct H as [H E]. apply Nat.eqb_eq in E. auto.
Qed.

Lemma winv_final base g w id ex al : WInv base [] w -> WInv base [] (wfinal g w id ex al).
Proof.
  intros I. unfold wfinal. destruct (find _ (wf_runs w)) as [r|] eqn:Ef; [|assumption].
  destruct (find_run _ _ _ Ef) as [Hr <-].
  assert (G : forall e, quiet e -> outcome e = Some (wr_id r) -> well_timed (wf_log w) e ->
    WInv base [] (wdespawn_one (wunblock (wsay (wset_runs w
          (filter (fun y => negb (Nat.eqb (wr_id y) (wr_id r))) (wf_runs w))) [e]) al (wr_block r)) (wr_id r))).
  { intros e Q Eo Ht. unfold wdespawn_one. apply winv_live.
    pose proof (winv_end base w r e I Hr Q Eo Ht) as J. unfold wunblock.
    destruct (wr_block r) as [b|] eqn:Eb; [|exact J].
    rewrite (q_block _ _ _ I r Hr) in Eb.
    assert (El : lane d0 (wr_instr r) = Some (blane d0 b)).
    { destruct (lane d0 (wr_instr r)) as [k|] eqn:El.
      - destruct (lane_expected _ _ _ El) as (b' & E & <-). congruence.
      - rewrite (lane_none_expected _ _ El) in Eb. discriminate. }
    apply winv_serve_next; [exact J| | |].
    - cbn [wsay wset_runs wf_del]. apply (act_known _ (wr_instr r)).
      + rewrite (kind_expected _ _ _ (q_kind _ _ _ I)). assumption.
      + rewrite (kind_blane _ _ _ (q_kind _ _ _ I)), (q_act _ _ _ I _ r Hr El). discriminate.
    - cbn [wsay wset_runs wf_runs]. intros y Hy E. apply filter_In in Hy. destruct Hy as [Hy N].
      pose proof (one_run _ _ _ _ _ _ I Hr Hy El E) as ->. rewrite Nat.eqb_refl in N. discriminate.
    - cbn [wsay wset_runs wf_del]. apply lane_queue_length. }
  pose proof (run_in_progress _ _ _ r I Hr) as Hp. destruct (q_info_r _ _ _ I r Hr) as (v0 & Hi).
  destruct (wr_fin r) as [[v|c|]|]; [| | |assumption].
  - destruct (ex (wr_node r)).
    + apply G; [exact Logic.I|reflexivity|]. split; [assumption|eauto].
    + apply winv_end; [assumption|assumption|exact Logic.I|reflexivity|assumption].
  - apply G; destruct (wc_top g (wr_session r)); try reflexivity; try exact Logic.I; split; eauto.
  - apply G; [exact Logic.I|reflexivity|]. apply in_or_app. right. assumption.
Qed.

Lemma winv_clean base g w s : WInv base [] w -> WInv base [] (wclean g w s).
Proof.
  intros I. unfold wclean. apply winv_skel; [|apply wswitch_skel].
  apply (winv_dismiss base w _ _ (fun o => WCleaned (d_task o))); [assumption| | | | |].
  - apply cleanup_kind.
  - apply cleanup_keys, I.
  - intros k. rewrite cleanup_serial_at. unfold serial_cleanup. cbn [s_delivering s_queue].
    split; [reflexivity|apply subseq_filter].
  - rewrite cleanup_queued. rewrite (filter_split_perm (fun o => Nat.eqb (d_session o) s)) at 1. reflexivity.
  - intros o. split; [exact Logic.I|]. split; [reflexivity|]. intros p H _. apply in_or_app. left. assumption.
Qed.

Lemma winv_step base g w a : WInv base [] w -> WInv base [] (wstep g w a).
Proof.
  intros I. destruct a; cbn [wstep].
  - apply winv_serve; assumption.
  - apply winv_value; assumption.
  - apply winv_cancel; assumption.
  - apply winv_final; assumption.
  - apply winv_clean; assumption.
  - apply winv_live; assumption.
Qed.

Lemma winv_exec_from base g acts : forall w, WInv base [] w -> WInv base [] (wexec g w acts).
Proof.
  induction acts as [|a acts IH]; intros w I; [assumption|]. apply IH, winv_step, I.
Qed.

Lemma winv_exec base g acts : (d0 = Serial serial_new \/ d0 = Parallel []) ->
  WInv base [] (wexec g (wf_new base d0) acts).
Proof. intros H. apply winv_exec_from, winv_new, H. Qed.

End Workflow.
