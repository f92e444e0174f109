(** C48-C51: what a user of a series can rely on. *)
From Verif Require Import Base SeriesModel SeriesSpec SeriesProofs SeriesProofs2 SeriesProofs3.

Lemma ran_work {V} (l : list (event V)) : ran (work l) = ran l.
Proof. induction l as [|[] l IH]; cbn; auto. unfold ran, work in IH |- *. rewrite IH. reflexivity. Qed.
Lemma ran_app {V} (l l' : list (event V)) : ran (l ++ l') = ran l ++ ran l'.
Proof. apply flat_map_app. Qed.
Lemma ran_said {V} (rs : list V) : forall j v, ran (said j v rs) = seq j (length rs).
Proof. induction rs as [|r rs IH]; intros j v; [reflexivity|]. cbn. f_equal. apply IH. Qed.
Lemma ran_failed {V} (v : V) rs : ran (failed v rs) = seq 0 (S (length rs)).
Proof. unfold failed. rewrite ran_app, ran_said, seq_S. reflexivity. Qed.
Lemma failure_work {V} (l : list (event V)) : no_failure l -> no_failure (work l).
Proof. intros H j I. apply filter_In in I. apply (H j), I. Qed.
Lemma failure_failed {V} (v : V) rs : ~ no_failure (failed v rs).
Proof. intros H. apply (H (length rs)). unfold failed. apply in_or_app. right. right. left. reflexivity. Qed.
Lemma failure_said {V} (rs : list V) : forall j v i, ~ In (EResponded i None) (said j v rs).
Proof. induction rs as [|r rs IH]; intros j v i; cbn; [tauto|]. intros [E|[E|I]]; [discriminate..|exact (IH _ _ _ I)]. Qed.
Lemma not_kept calls m : locked calls = 0 -> ~ kept calls Unused m.
Proof.
  intros K0 [[-> [N|DN]]|(-> & P & _)]; [congruence| |lia]. pose proof (last_true_above (detached calls) (sessions calls) (sessions calls)) as H.
  unfold locked in K0. rewrite K0, DN in H. discriminate H; unfold sessions; lia.
Qed.
Lemma locked_all calls : detached calls (sessions calls) = true -> locked calls = sessions calls.
Proof. intros E. unfold locked. change (sessions calls) with (S (thens calls)) in *. cbn. rewrite E. reflexivity. Qed.
Lemma kept_locked calls m : kept calls Unused m -> m = locked calls /\ 0 < m.
Proof.
  intros [[-> [N|DN]]|(-> & P & _)]; [congruence| |auto]. rewrite (locked_all _ DN). unfold sessions. lia.
Qed.
Lemma kept_used calls t m : t <> Unused -> kept calls t m -> m = sessions calls.
Proof. intros N [[-> _]|(_ & _ & _ & E & _)]; [reflexivity|contradiction]. Qed.

Ltac cases I := destruct I as [SH LI LO|m rs K SH L1 L2 LI LO|m rs K SH L1 L2 LI LO|m jc l K SH L1 CA LI LO|rs K ET SH L1 LI LO|m l K L1 SH CA LI LO|rs K ET L1 SH LI LO|q G LI FA].

(** *** C48: a series whose end is not used *)

(** Without any [detach] nothing of it ever runs; once the flush collected the request, nothing of it is left. *)
Theorem C48_never_run {V} (v : V) calls acts :
  locked calls = 0 ->
  ran (s_log (run v calls Unused acts)) = [] /\ outcomes (s_log (run v calls Unused acts)) = [] /\
  (s_later (run v calls Unused acts) = [] -> gone (run v calls Unused acts)).
Proof.
  intros K0. pose proof (not_kept calls) as NK.
  assert (I : inv v calls Unused (run v calls Unused acts)) by apply inv_run.
  cases I; try (destruct (NK _ K0 K)).
  - rewrite LO. repeat split. intros E. destruct LI as (E' & _). rewrite E' in E. discriminate E.
  - destruct FA as [ET K1 DN [W O]|rs L K|rs L K]; try (destruct (NK _ K0 K)). rewrite <- ran_work, W, O. auto.
Qed.
Print Assumptions C48_never_run.

(** The full claim is that only the sessions before the last [detach] run. Proved: those and one more. *)
Theorem C48_dropped_partial {V} (v : V) calls acts j :
  In j (ran (s_log (run v calls Unused acts))) -> 0 < locked calls /\ j <= locked calls.
Proof.
  intros I. rewrite <- ran_work in I. assert (H : inv v calls Unused (run v calls Unused acts)) by apply inv_run.
  assert (CO : forall m i l s, kept calls Unused m -> cause v calls Unused m i s l -> In j (ran l) -> 0 < locked calls /\ j <= locked calls).
  { intros m i l s K CA IN. destruct (kept_locked _ _ K) as [EM P]. rewrite EM in P. split; [exact P|]. destruct CA as [rs L1 L2|rs L1 L2|rs ET].
    - rewrite ran_failed in IN. apply in_seq in IN. lia.
    - rewrite ran_said in IN. apply in_seq in IN. lia.
    - discriminate ET. }
  cases H.
  - rewrite LO in I. destruct I.
  - rewrite (proj1 LO), ran_said in I. apply in_seq in I. destruct (kept_locked _ _ K). lia.
  - rewrite (proj1 LO), ran_app, ran_said in I. destruct (kept_locked _ _ K). apply in_app_or in I. destruct I as [I|[<-|[]]]; [apply in_seq in I|]; lia.
  - rewrite (proj1 LO) in I. exact (CO _ _ _ _ K CA I).
  - rewrite (proj1 LO), ran_said in I. apply in_seq in I. destruct (kept_locked _ _ K). lia.
  - rewrite (proj1 LO) in I. exact (CO _ _ _ _ K CA I).
  - discriminate ET.
  - destruct FA as [_ _ _ [W _]|rs L K [W _] _|rs L K [W _] _]; rewrite W in I.
    + destruct I.
    + rewrite ran_said in I. apply in_seq in I. destruct (kept_locked _ _ K). lia.
    + rewrite ran_failed in I. apply in_seq in I. destruct (kept_locked _ _ K). lia.
Qed.
Print Assumptions C48_dropped_partial.

(** The session after the last [detach] does run, although its target is gone, for every such series and
    whatever the sessions respond. *)
Theorem C48_dropped_refuted {V} (v : V) calls (rs : list V) :
  0 < locked calls -> locked calls < sessions calls -> length rs = S (locked calls) ->
  exists acts, In (locked calls) (ran (s_log (run v calls Unused acts))).
Proof.
  intros P L LR. exists (ACollect :: feed 0 rs). unfold run. cbn [fold_left].
  assert (DN : detached calls (sessions calls) = false).
  { destruct (detached calls (sessions calls)) eqn:E; [|reflexivity]. rewrite (locked_all _ E) in L. lia. }
  destruct (feed_queued v calls Unused (locked calls) rs [] _ (collected_locked v calls Unused eq_refl DN P)) as [W _]; cbn [length]; [lia..|].
  rewrite <- ran_work. cbn [length] in W. rewrite W. cbn [app]. rewrite ran_said. apply in_seq. lia.
Qed.
Print Assumptions C48_dropped_refuted.

(** The sessions before the last [detach] do run unless one fails, each once, in order, and each gets what
    the one before responded. *)
Theorem C48_locked {V} (v : V) calls t acts :
  quiet (run v calls t acts) -> no_failure (s_log (run v calls t acts)) ->
  exists rs, work (s_log (run v calls t acts)) = said 0 v rs /\ match t with Unused => locked calls | _ => sessions calls end <= length rs.
Proof.
  intros (Q1 & Q2 & Q3 & Q4 & Q5) NF. apply failure_work in NF. assert (H : inv v calls t (run v calls t acts)) by apply inv_run.
  cases H; destruct LI as (A1 & A2 & A3 & A4 & A5); try congruence.
  - rewrite (proj1 LO) in *. destruct CA as [rs L2 L3|rs L2 L3|rs ET L2 L3 EM].
    + destruct (failure_failed _ _ NF).
    + exists rs. split; [reflexivity|]. destruct K as [[E _]|(E & _ & _ & -> & _)]; [lia|]. lia.
    + lia.
  - rewrite (proj1 LO). exists rs. rewrite ET. split; [reflexivity|lia].
  - destruct FA as [ET K0 _ [W _]|rs L K [W _] _|rs L K [W _] _]; rewrite W in *.
    + exists []. rewrite ET. split; [reflexivity|change (locked calls <= 0); lia].
    + exists rs. split; [reflexivity|]. destruct t; rewrite ?L; auto. unfold locked. apply last_true_le.
    + destruct (failure_failed _ _ NF).
Qed.
Print Assumptions C48_locked.

(** Three sessions with a [detach] after the first: the first two run, the third does not. *)
Example C48_case :
  let calls := [Detach; Then; Then] in
  let acts := ACollect :: feed 0 [11; 12] ++ [ACancel; AExecute; ACollect; ADespawn] in
  sessions calls = 3 /\ locked calls = 1 /\
  s_log (run 10 calls Unused acts) = [EUnused 3; ERan 0 10; EResponded 0 (Some 11); ERan 1 11; EResponded 1 (Some 12)] /\
  quiet (run 10 calls Unused acts).
Proof. vm_compute. repeat split. Qed.
Example C48_never_case :
  s_log (run 10 [Then; Then] Unused [ACollect; AExecute; ACollect]) = [EUnused 3] /\ s_later (run 10 [Then; Then] Unused [ACollect; AExecute; ACollect]) = [].
Proof. vm_compute. repeat split. Qed.

(** *** C49: dropping the promise *)

(** Dropping the promise, at any time and any number of times, does not change which sessions run and what they get. *)
Theorem C49_drop_refuted {V} (v : V) calls t acts :
  work (s_log (run v calls t acts)) = work (s_log (run v calls t (filter (fun a => negb (is_drop a)) acts))).
Proof.
  unfold run. symmetry. apply (a_work _ _ (drop_nothing acts (series v calls t) (series v calls t) ltac:(split; reflexivity))).
Qed.
Print Assumptions C49_drop_refuted.

(** In particular every session of a series without any [detach] runs after its promise was dropped. *)
Theorem C49_drop_all_refuted {V} (v : V) calls (rs : list V) :
  length rs = sessions calls -> exists acts, work (s_log (run v calls Take (ADropPromise :: ACollect :: acts))) = said 0 v rs.
Proof.
  intros L. exists (feed 0 rs). rewrite C49_drop_refuted. cbn [filter is_drop negb].
  replace (filter (fun a : action V => negb (is_drop a)) (feed 0 rs)) with (feed 0 rs).
  - unfold run. cbn [fold_left].
    destruct (feed_queued v calls Take (sessions calls) rs [] _ (collected v calls Take ltac:(left; discriminate))) as [W _]; cbn [length]; [lia..|exact W].
  - clear. generalize 0. induction rs as [|r rs IH]; intros j; [reflexivity|]. cbn. rewrite <- IH. reflexivity.
Qed.
Print Assumptions C49_drop_all_refuted.

Example C49_case :
  s_log (run 10 [Then] Take (ADropPromise :: ACollect :: feed 0 [11; 12])) = [ERan 0 10; EResponded 0 (Some 11); ERan 1 11; EResponded 1 (Some 12)].
Proof. vm_compute. reflexivity. Qed.

(** *** C50: order and outcome *)

(** The sessions run one after the other, each at most once, and each gets what the one before responded; after a
    failure none runs. *)
Theorem C50_order {V} (v : V) calls t acts :
  exists rs, length rs <= sessions calls /\
    (work (s_log (run v calls t acts)) = said 0 v rs \/
     work (s_log (run v calls t acts)) = said 0 v rs ++ [ERan (length rs) (latest v rs)] \/
     work (s_log (run v calls t acts)) = said 0 v rs ++ [ERan (length rs) (latest v rs); EResponded (length rs) None]).
Proof.
  assert (H : inv v calls t (run v calls t acts)) by apply inv_run.
  assert (CO : forall m i l s, kept calls t m -> cause v calls t m i s l -> exists rs, length rs <= sessions calls /\
    (l = said 0 v rs \/ l = said 0 v rs ++ [ERan (length rs) (latest v rs)] \/ l = said 0 v rs ++ [ERan (length rs) (latest v rs); EResponded (length rs) None])).
  { intros m i l s K CA. destruct CA as [rs L1 L2|rs L1 L2|rs ET L1 L2 L3]; exists rs; (split; [lia|]); auto. }
  cases H.
  - exists []. rewrite LO. split; [cbn; lia|auto].
  - exists rs. rewrite (proj1 LO). pose proof (kept_le _ _ _ K). split; [lia|auto].
  - exists rs. rewrite (proj1 LO). split; [lia|auto].
  - rewrite (proj1 LO). exact (CO _ _ _ _ K CA).
  - exists rs. rewrite (proj1 LO). split; [lia|auto].
  - rewrite (proj1 LO). exact (CO _ _ _ _ K CA).
  - exists rs. rewrite (proj1 LO). split; [lia|auto].
  - destruct FA as [ET K0 _ [W _]|rs L K [W _] _|rs L K [W _] _]; rewrite W; [exists []|exists rs|exists rs]; (split; [cbn; lia|]); auto.
Qed.
Print Assumptions C50_order.

(** A promise which was taken and not dropped gets, once nothing is left to do, the response of the last session or, if
    a session failed, a cancellation, and nothing else. *)
Theorem C50_take {V} (v : V) calls acts :
  quiet (run v calls Take acts) -> s_dropped (run v calls Take acts) = false ->
  exists rs,
    (length rs = sessions calls /\ work (s_log (run v calls Take acts)) = said 0 v rs /\ outcomes (s_log (run v calls Take acts)) = [EDelivered (latest v rs)]) \/
    (length rs < sessions calls /\ In (EResponded (length rs) None) (s_log (run v calls Take acts)) /\ outcomes (s_log (run v calls Take acts)) = [ECancelled]).
Proof.
  intros (Q1 & Q2 & Q3 & Q4 & Q5) ND. assert (H : inv v calls Take (run v calls Take acts)) by apply inv_run.
  cases H; destruct LI as (A1 & A2 & A3 & A4 & A5); try congruence.
  - rewrite (kept_used calls Take m) in L1 by (auto; discriminate). lia.
  - destruct FA as [ET K0 _ [W _]|rs L K [W _] O|rs L K [W _] O]; [discriminate ET| |]; exists rs.
    + left. destruct O as [O|[_ O]]; [auto|congruence].
    + right. split; [exact L|]. destruct O as [O|[_ O]]; [|congruence]. split; [|exact O].
      assert (I : In (EResponded (length rs) None) (work (s_log (run v calls Take acts)))) by (rewrite W; apply in_or_app; right; right; left; reflexivity).
      apply filter_In in I. apply I.
Qed.
Print Assumptions C50_take.

(** At most one thing comes out of a series, whatever happens, and only after all sessions responded or one failed. *)
Theorem C50_once {V} (v : V) calls t acts :
  length (outcomes (s_log (run v calls t acts))) <= 1.
Proof.
  assert (H : inv v calls t (run v calls t acts)) by apply inv_run.
  cases H; try (rewrite (proj2 LO); cbn; lia); [rewrite LO; cbn; lia|].
  destruct FA as [ET K0 _ [_ O]|rs L K _ O|rs L K _ O]; [rewrite O; cbn; lia| |].
  - destruct t; [rewrite O|destruct O as [O|[O _]]; rewrite O|destruct O as [O|[O _]]; rewrite O|rewrite (proj1 O)]; cbn; lia.
  - destruct t; [rewrite O|destruct O as [O|[O _]]; rewrite O|rewrite O|rewrite O]; cbn; lia.
Qed.
Print Assumptions C50_once.

(** The same for an entity which gets the response. *)
Theorem C50_store {V} (v : V) calls t acts :
  t = Store \/ t = Push ->
  quiet (run v calls t acts) -> s_receiver (run v calls t acts) = true -> no_failure (s_log (run v calls t acts)) ->
  exists rs, length rs = sessions calls /\ work (s_log (run v calls t acts)) = said 0 v rs /\
    outcomes (s_log (run v calls t acts)) = [match t with Store => EStored (latest v rs) | _ => EPushed (latest v rs) end].
Proof.
  intros T (Q1 & Q2 & Q3 & Q4 & Q5) ND NF. apply failure_work in NF. assert (H : inv v calls t (run v calls t acts)) by apply inv_run.
  assert (NU : t <> Unused) by (destruct T as [-> | ->]; discriminate).
  cases H; destruct LI as (A1 & A2 & A3 & A4 & A5); try congruence.
  - rewrite (kept_used calls t m) in L1 by auto. lia.
  - exists rs. rewrite (proj1 LO), (proj2 LO), ET. auto.
  - destruct FA as [ET K0 _ [W _]|rs L K [W _] O|rs L K [W _] O]; [congruence| |rewrite W in NF; destruct (failure_failed _ _ NF)]; exists rs.
    split; [exact L|]. split; [exact W|]. destruct T as [-> | ->]; [destruct O as [O|[_ O]]; [exact O|congruence]|destruct O; congruence].
Qed.
Print Assumptions C50_store.

Example C50_case :
  let s := run 10 [Then; Detach; Then] Take (ACollect :: feed 0 [11; 12; 13] ++ [AExecute]) in
  quiet s /\ s_dropped s = false /\ no_failure (s_log s) /\ outcomes (s_log s) = [EDelivered 13].
Proof. vm_compute. repeat split. intros j I. repeat (destruct I as [I|I]; [discriminate I|]). exact I. Qed.
Example C50_failed_case :
  let s := run 10 [Then; Detach; Then] Take (ACollect :: feed 0 [11] ++ [AExecute; ARespond 1 None; ACancel]) in
  quiet s /\ outcomes (s_log s) = [ECancelled] /\ s_log s = [ERan 0 10; EResponded 0 (Some 11); ERan 1 11; EResponded 1 None; ECancelled].
Proof. vm_compute. repeat split. Qed.

(** *** C51: a series leaves nothing behind *)

(** Proved for series which are taken or stored, which end in [detach], or which are not used at all. *)
Theorem C51_gone_partial {V} (v : V) calls t acts :
  match t with Take | Store => True | Push => False | Unused => detached calls (sessions calls) = true \/ locked calls = 0 end ->
  quiet (run v calls t acts) -> gone (run v calls t acts).
Proof.
  intros T (Q1 & Q2 & Q3 & Q4 & Q5). assert (H : inv v calls t (run v calls t acts)) by apply inv_run.
  cases H; destruct LI as (A1 & A2 & A3 & A4 & A5); try congruence; [exfalso|rewrite ET in T; destruct T].
  destruct K as [[E _]|(E & P & L & ET & DN)]; [lia|]. rewrite ET in T. destruct T; [congruence|lia].
Qed.
Print Assumptions C51_gone_partial.

(** A series which is pushed into an entity stays for ever, for every series and every run without failures. *)
Theorem C51_push_refuted {V} (v : V) calls acts :
  quiet (run v calls Push acts) -> s_receiver (run v calls Push acts) = true -> no_failure (s_log (run v calls Push acts)) ->
  forall e, e <= sessions calls -> s_cells (run v calls Push acts) e <> None.
Proof.
  intros (Q1 & Q2 & Q3 & Q4 & Q5) ND NF e L. apply failure_work in NF. assert (H : inv v calls Push (run v calls Push acts)) by apply inv_run.
  cases H; destruct LI as (A1 & A2 & A3 & A4 & A5); try congruence.
  - rewrite (kept_used calls Push m) in L1 by (auto; discriminate). lia.
  - rewrite (sh_cells _ _ _ _ _ _ SH), ecell_alive by exact L. discriminate.
  - destruct FA as [ET K0 _ [W _]|rs LR K [W _] O|rs LR K [W _] O]; [discriminate ET|destruct O; congruence|rewrite W in NF; destruct (failure_failed _ _ NF)].
Qed.
Print Assumptions C51_push_refuted.

(** So does the part before the last [detach] if what comes after it was dropped. *)
Theorem C51_detached_refuted {V} (v : V) calls acts :
  0 < locked calls -> locked calls < sessions calls ->
  forall e, e <= locked calls -> s_cells (run v calls Unused acts) e <> None.
Proof.
  intros P L e LE. assert (H : inv v calls Unused (run v calls Unused acts)) by apply inv_run.
  assert (ALIVE : forall m inp, kept calls Unused m -> shaped (sessions calls) (detached calls) Unused m inp (run v calls Unused acts) -> s_cells (run v calls Unused acts) e <> None).
  { intros m inp K SH. destruct (kept_locked _ _ K) as [-> _]. rewrite (sh_cells _ _ _ _ _ _ SH), ecell_alive by lia. discriminate. }
  cases H; try (eapply ALIVE; eassumption).
  - rewrite (sh_cells _ _ _ _ _ _ SH), ecell_alive by lia. discriminate.
  - destruct FA as [_ K0 _ _|rs LR K _ _|rs LR K _ _]; [lia| |]; destruct (kept_locked _ _ K); lia.
Qed.
Print Assumptions C51_detached_refuted.

Example C51_case :
  let s := run 10 [Then; Then; Detach] Unused (ACollect :: feed 0 [11; 12; 13] ++ [ADespawn]) in
  quiet s /\ no_failure (s_log s) /\ ran (s_log s) = [0; 1; 2] /\ s_cells s 3 = None /\ s_cells s 0 = None.
Proof. vm_compute. repeat split. intros j I. repeat (destruct I as [I|I]; [discriminate I|]). exact I. Qed.
Example C51_push_case :
  let s := run 10 [Then] Push (ACollect :: feed 0 [11; 12] ++ [AExecute; ACollect; ADespawn]) in
  quiet s /\ s_receiver s = true /\ no_failure (s_log s) /\ outcomes (s_log s) = [EPushed 12].
Proof. vm_compute. repeat split. intros j I. repeat (destruct I as [I|I]; [discriminate I|]). exact I. Qed.
