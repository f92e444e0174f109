(** More proofs about services: preemption, labels, cleanup of one node. *)
From Verif Require Import Base DeliveryModel DeliverySpec DeliveryProofs.

Section More.
Context {V : Type}.
Implicit Types (d : delivery V) (w : asrv V) (o : order V).

(** ** The identity of the request in progress *)

Definition Act w : Prop := forall k a, s_delivering (serial_at (as_del w) k) = Some a ->
  lane (as_del w) (a_instr a) = Some k /\ ~ In (a_task a) (map d_task (queued (as_del w))) /\
  a_task a < as_next w /\
  (forall t, In t (as_tasks w) -> t_id t = a_task a -> t_instr t = a_instr a).

Lemma act_tasks w w' : as_del w' = as_del w -> as_next w' = as_next w ->
  (forall t, In t (as_tasks w') -> exists t0, In t0 (as_tasks w) /\ t_id t = t_id t0 /\ t_instr t = t_instr t0) ->
  Act w -> Act w'.
Proof.
  intros Ed En Ht A k a H. rewrite Ed in *. destruct (A k a H) as (A1 & A2 & A3 & A4). rewrite En.
  repeat split; auto. intros t Hi E. destruct (Ht t Hi) as (t0 & H0 & E1 & E2). rewrite E2. apply A4; [assumption|congruence].
Qed.

Lemma map_task_in id m w t : In t (map_task id (with_mode m) (as_tasks w)) ->
  exists t0, In t0 (as_tasks w) /\ t_id t = t_id t0 /\ t_instr t = t_instr t0.
Proof.
  intros H. unfold map_task in H. apply in_map_iff in H. destruct H as (t0 & <- & H0). exists t0.
  destruct (Nat.eqb _ _); auto.
Qed.

Lemma filter_task_in id w t : In t (filter (fun t => negb (Nat.eqb (t_id t) id)) (as_tasks w)) ->
  exists t0, In t0 (as_tasks w) /\ t_id t = t_id t0 /\ t_instr t = t_instr t0.
Proof. intros H. apply filter_In in H. exists t. intuition. Qed.

Lemma same_task_in w t : In t (as_tasks w) ->
  exists t0, In t0 (as_tasks w) /\ t_id t = t_id t0 /\ t_instr t = t_instr t0.
Proof. intros H. exists t. auto. Qed.

Lemma act_stop w st (n s : entity) b : Act w -> Act (stop w st n s b).
Proof.
  intros A. unfold stop. destruct (find_task _ _) as [t|]; [destruct (t_mode t)|];
    try assumption; (eapply act_tasks; [| | |exact A]; try reflexivity); cbn [as_tasks set_tasks set_cancels set_unblock log_stopfail];
    intros t'; apply map_task_in || apply same_task_in.
Qed.

Lemma act_clean_task c w id : Act w -> Act (clean_task c w id).
Proof.
  intros A. unfold clean_task, cleanup_task. destruct (find_task _ _) as [t|]; [destruct (t_mode t)|];
    try assumption; cbn [as_tasks set_tasks]; try destruct (existsb _ _);
    (eapply act_tasks; [| | |exact A]; try reflexivity); cbn [as_tasks set_tasks set_cancels log_notified];
    intros t'; apply map_task_in || apply filter_task_in.
Qed.

Lemma act_fold c ids w : Act w -> Act (fold_left (clean_task c) ids w).
Proof. revert w. induction ids as [|id ids IH]; intros w A; cbn [fold_left]; auto using act_clean_task. Qed.

Lemma lane_queued_not w k : Inv w -> forall o q x, lane_of w k = o :: q -> In x (map d_task (queued (upd (as_del w) k (mk_serial (Some (active_of o)) q)))) ->
  In x (map d_task (queued (as_del w))) /\ x <> d_task o.
Proof.
  intros I o q x Hq Hx.
  destruct (valid (as_del w) k) eqn:Hv.
  2:{ unfold lane_of in Hq. destruct (as_del w), k; cbn in *; discriminate. }
  destruct (queued_upd (as_del w) k (mk_serial (Some (active_of o)) q) Hv) as (rest & H1 & H2).
  unfold lane_of in Hq. rewrite Hq in H1. cbn [s_queue app] in *.
  apply (Permutation_in _ (Permutation_map d_task H2)) in Hx.
  pose proof (ledger_nodup w I) as Hn. unfold whereabouts, waiting in Hn. apply nodup_app in Hn. destruct Hn as (Hn & _).
  apply (Permutation_NoDup (Permutation_map d_task H1)) in Hn. cbn [map] in Hn. inversion Hn as [|? ? Hn1 Hn2]; subst.
  split.
  - apply (Permutation_in _ (Permutation_sym (Permutation_map d_task H1))). right. assumption.
  - intros ->. contradiction.
Qed.

Lemma queued_lt w x : Inv w -> In x (map d_task (queued (as_del w))) -> x < as_next w.
Proof.
  intros I H. assert (Hi : In x (whereabouts w)) by (unfold whereabouts, waiting; apply in_or_app; left; assumption).
  apply (Permutation_in _ (Permutation_sym (v_ledger w I))) in Hi. rewrite (v_recv w I) in Hi. apply in_seq in Hi. lia.
Qed.

Lemma queued_no_task w t : Inv w -> In t (as_tasks w) -> ~ In (t_id t) (map d_task (queued (as_del w))).
Proof.
  intros I Ht H. pose proof (ledger_nodup w I) as Hn. unfold whereabouts, waiting in Hn.
  apply nodup_app in Hn. destruct Hn as (_ & _ & Hn). apply (Hn (t_id t)); [assumption|].
  apply in_or_app. left. apply tasks_in_working; assumption.
Qed.

Lemma task_lt w t : Inv w -> In t (as_tasks w) -> t_id t < as_next w.
Proof.
  intros I H. assert (Hi : In (t_id t) (whereabouts w)) by (apply working_in_whereabouts, tasks_in_working; assumption).
  apply (Permutation_in _ (Permutation_sym (v_ledger w I))) in Hi. rewrite (v_recv w I) in Hi. apply in_seq in Hi. lia.
Qed.

(** Popping: [w0] is the state before. *)
Lemma act_pop w b o q : Inv (owing w b) -> Act w -> lane_of w (blane (as_del w) b) = o :: q ->
  Act (set_del w (upd (as_del w) (blane (as_del w) b) (mk_serial (Some (active_of o)) q))) /\
  (forall t, In t (as_tasks w) -> t_id t <> d_task o) /\
  (forall k a, s_delivering (serial_at (as_del w) k) = Some a -> a_task a <> d_task o).
Proof.
  intros I A Hq. set (k := blane (as_del w) b) in *.
  assert (Hin : In o (queued (as_del w))) by (apply (queued_in _ k); unfold lane_of in Hq; rewrite Hq; left; reflexivity).
  assert (Hnt : forall t, In t (as_tasks w) -> t_id t <> d_task o).
  { intros t Ht E. apply (queued_no_task (owing w b) t I Ht). cbn [as_del owing set_unblock]. rewrite E. apply in_map. assumption. }
  split; [|split; [assumption|]].
  2:{ intros k' a Ha E. destruct (A k' a Ha) as (_ & A2 & _). apply A2. rewrite E. apply in_map. assumption. }
  assert (Hv : valid (as_del w) k = true).
  { apply known_valid. apply (v_known _ I). apply (Permutation_in _ (Permutation_sym (owing_blockers w b))). left. reflexivity. }
  intros k' a Ha. cbn [as_del set_del as_next as_tasks] in *.
  pose proof (upd_kind (as_del w) k (mk_serial (Some (active_of o)) q)) as Hkd.
  rewrite (kind_lane (as_del w)) by assumption.
  pose proof (lane_queued_not (owing w b) k I o q) as Hnot. cbn [as_del owing set_unblock lane_of] in Hnot.
  destruct (keqb_spec k' k) as [->|E].
  - rewrite serial_at_upd_eq in Ha by assumption. injection Ha as <-. cbn [active_of a_instr a_task].
    split; [|split; [|split]].
    + apply (v_lane _ I). cbn [as_del owing set_unblock]. unfold lane_of in Hq. rewrite Hq. left. reflexivity.
    + intros H. destruct (Hnot _ Hq H) as [_ H2]. congruence.
    + apply (queued_lt (owing w b)); [assumption|]. apply in_map. assumption.
    + intros t Ht Et. exfalso. apply (Hnt t Ht Et).
  - rewrite serial_at_upd_neq in Ha by assumption. destruct (A k' a Ha) as (A1 & A2 & A3 & A4).
    repeat split; auto. intros H. apply (Hnot _ Hq) in H. apply A2, H.
Qed.

Lemma act_serve_next fuel alive b w : Inv (owing w b) -> Act w -> 
  length (lane_of w (blane (as_del w) b)) <= fuel -> Act (serve_next fuel alive b w).
Proof.
  revert w. induction fuel as [|fuel IH]; intros w I A Hf.
  all: assert (Hk : known (as_del w) b)
    by (apply (v_known _ I); apply (Permutation_in _ (Permutation_sym (owing_blockers w b))); left; reflexivity).
  all: pose proof (known_valid _ _ Hk) as Hv.
  all: cbn [serve_next]; rewrite (pop_lane _ _ Hk); unfold pop_impl; unfold lane_of in Hf.
  all: destruct (s_queue (serial_at (as_del w) (blane (as_del w) b))) as [|o q] eqn:Eq; cbn [fst snd].
  1,3: intros k a Ha; cbn [as_del set_del as_next as_tasks] in *;
       pose proof (upd_kind (as_del w) (blane (as_del w) b) serial_new) as Hkd;
       rewrite (kind_lane (as_del w)) by assumption;
       destruct (keqb_spec k (blane (as_del w) b)) as [->|E];
       [change (mk_serial None []) with (@serial_new V) in Ha; rewrite serial_at_upd_eq in Ha by assumption; discriminate|];
       rewrite serial_at_upd_neq in Ha by assumption; destruct (A k a Ha) as (A1 & A2 & A3 & A4);
       repeat split; auto; intros H; apply A2;
       destruct (queued_upd (as_del w) (blane (as_del w) b) serial_new Hv) as (rest & H1 & H2);
       rewrite Eq in H1; cbn [app s_queue serial_new] in *;
       apply (Permutation_in _ (Permutation_map d_task H2)) in H;
       apply (Permutation_in _ (Permutation_sym (Permutation_map d_task H1))); assumption.
  - cbn in Hf. lia.
  - destruct (act_pop w b o q I A Eq) as (A' & Hnt & Hna). destruct (alive (d_source o)).
    + intros k a Ha. cbn [as_del start set_del as_next as_tasks] in *.
      destruct (A' k a Ha) as (A1 & A2 & A3 & A4). repeat split; auto.
      intros t Ht Et. apply in_app_or in Ht. destruct Ht as [Ht|[<-|[]]]; [apply A4; assumption|].
      cbn [t_id t_instr] in *.
      destruct (keqb_spec k (blane (as_del w) b)) as [->|E].
      * rewrite serial_at_upd_eq in Ha by assumption. injection Ha as <-. reflexivity.
      * rewrite serial_at_upd_neq in Ha by assumption. exfalso. apply (Hna k a Ha). congruence.
    + apply IH.
      * apply inv_pop_drop; assumption.
      * exact A'.
      * unfold lane_of. cbn [as_del log_dropped set_del].
        rewrite (kind_blane _ _ b (upd_kind (as_del w) (blane (as_del w) b) (mk_serial (Some (active_of o)) q))).
        rewrite serial_at_upd_eq by assumption. cbn [s_queue]. cbn in Hf. lia.
Qed.

Lemma act_serve w (n s : entity) i (v : V) : Inv w -> Act w -> Act (serve w n s i v).
Proof.
  intros I A. unfold serve. set (o := mk_order n s (as_next w) v i). cbn [as_del receive].
  assert (Hstart : forall k, lane (as_del w) i = Some k -> forall sr, s_queue sr = [] ->
    s_delivering sr = Some (active_of o) -> s_queue (serial_at (as_del w) k) = [] -> forall bl,
    Act (start (set_del (receive w) (upd (as_del w) k sr)) (as_next w) n s i bl)).
  { intros k Hl sr Hsq Hsd Hq bl k' a Ha. cbn [as_del start set_del receive as_next as_tasks] in *.
    pose proof (lane_valid _ _ _ Hl) as Hv.
    pose proof (upd_kind (as_del w) k sr) as Hkd. rewrite (kind_lane (as_del w)) by assumption.
    destruct (queued_upd (as_del w) k sr Hv) as (rest & H1 & H2). rewrite Hq in H1. rewrite Hsq in H2. cbn [app] in *.
    assert (Hqq : forall x, In x (map d_task (queued (upd (as_del w) k sr))) -> In x (map d_task (queued (as_del w)))).
    { intros x Hx. apply (Permutation_in _ (Permutation_map d_task H2)) in Hx.
      apply (Permutation_in _ (Permutation_sym (Permutation_map d_task H1))). assumption. }
    destruct (keqb_spec k' k) as [->|E].
    - rewrite serial_at_upd_eq in Ha by assumption. rewrite Hsd in Ha. injection Ha as <-. cbn [active_of o a_instr a_task d_instr d_task].
      repeat split; auto.
      + intros H. apply Hqq in H. apply (queued_lt w) in H; [lia|assumption].
      + intros t Ht Et. apply in_app_or in Ht. destruct Ht as [Ht|[<-|[]]]; [|reflexivity].
        apply (task_lt w) in Ht; [lia|assumption].
    - rewrite serial_at_upd_neq in Ha by assumption. destruct (A k' a Ha) as (A1 & A2 & A3 & A4).
      repeat split; auto.
      intros t Ht Et. apply in_app_or in Ht. destruct Ht as [Ht|[<-|[]]]; [auto|]. cbn in Et. lia. }
  assert (Hqueue : forall k a, lane (as_del w) i = Some k -> s_delivering (serial_at (as_del w) k) = Some a ->
    forall keep dl, (forall x, In x (map d_task keep) -> In x (map d_task (lane_of w k))) ->
    Act (log_disp (set_del (receive w) (upd (as_del w) k (mk_serial (Some a) (keep ++ [o])))) dl)).
  { intros k a Hl Hd keep dl Hkeep k' a' Ha. cbn [as_del log_disp set_del receive as_next as_tasks] in *.
    pose proof (lane_valid _ _ _ Hl) as Hv. set (sr := mk_serial (Some a) (keep ++ [o])) in *.
    pose proof (upd_kind (as_del w) k sr) as Hkd. rewrite (kind_lane (as_del w)) by assumption.
    destruct (queued_upd (as_del w) k sr Hv) as (rest & H1 & H2). cbn [s_queue sr] in H2.
    assert (Ha' : s_delivering (serial_at (as_del w) k') = Some a').
    { destruct (keqb_spec k' k) as [->|E].
      - rewrite serial_at_upd_eq in Ha by assumption. cbn in Ha. congruence.
      - rewrite serial_at_upd_neq in Ha by assumption. assumption. }
    destruct (A k' a' Ha') as (A1 & A2 & A3 & A4). repeat split; auto.
    intros H. apply (Permutation_in _ (Permutation_map d_task H2)) in H. rewrite !map_app, !in_app_iff in H.
    assert (Hor : In (a_task a') (map d_task (queued (as_del w))) \/ a_task a' = as_next w).
    { destruct H as [[H|[H|[]]]|H].
      - left. apply Hkeep in H. apply (Permutation_in _ (Permutation_sym (Permutation_map d_task H1))).
        rewrite map_app. apply in_or_app. left. assumption.
      - right. symmetry. exact H.
      - left. apply (Permutation_in _ (Permutation_sym (Permutation_map d_task H1))).
        rewrite map_app. apply in_or_app. right. assumption. }
    destruct Hor as [Hor|Hor]; [contradiction|lia]. }
  destruct (lane (as_del w) i) as [k|] eqn:Hl.
  - rewrite (insert_lane _ o k) by exact Hl. unfold insert_serial_order.
    destruct (s_delivering (serial_at (as_del w) k)) as [a|] eqn:Hd.
    + destruct i as [inc|]; cbn [d_instr o].
      * destruct (i_preempt inc) eqn:Hp; cbn [fst snd].
        -- assert (Aq := Hqueue k a eq_refl Hd (filter (fun e => negb (should_discard inc (d_instr e))) (s_queue (serial_at (as_del w) k)))).
           match goal with |- context [log_disp _ ?l] => specialize (Aq l) end.
           assert (Act _) as Aq' by (apply Aq; intros x Hx; apply in_map_iff in Hx; destruct Hx as (y & <- & Hy);
              apply in_map; apply filter_In in Hy; apply Hy).
           destruct (should_discard inc (a_instr a)); [|exact Aq']. apply act_stop. exact Aq'.
        -- apply (Hqueue k a eq_refl Hd). auto.
      * cbn [fst snd]. apply (Hqueue k a eq_refl Hd). auto.
    + rewrite (v_idle w I k Hd). cbn [fst snd]. apply (Hstart k eq_refl); auto. apply (v_idle w I k Hd).
  - rewrite insert_nolane by exact Hl. intros k a Ha. cbn [as_del start set_del receive as_next as_tasks] in *.
    destruct (A k a Ha) as (A1 & A2 & A3 & A4). repeat split; auto.
    intros t Ht Et. apply in_app_or in Ht. destruct Ht as [Ht|[<-|[]]]; [auto|]. cbn in Et. lia.
Qed.

Lemma act_step w e : Inv w -> Act w -> Act (step w e).
Proof.
  intros I A. destruct e as [n ss i v|id|k|alive|n ss c|id]; cbn [step].
  - apply act_serve; assumption.
  - unfold poll_ready, cleanup_task. destruct (find_task _ _) as [t|]; [|assumption].
    destruct (t_mode t); try assumption. destruct (t_block t);
      (eapply act_tasks; [| | |exact A]; try reflexivity); cbn [as_tasks set_tasks set_unblock log_done]; intros t'; apply filter_task_in.
  - unfold cancelled, cleanup_task. destruct (remove_nth _ _) as [[c cs]|]; [|assumption].
    destruct (c_cause c), (c_block c), (c_clean c); cbn [as_tasks set_tasks set_unblock set_cancels];
      try destruct (existsb _ _);
      (eapply act_tasks; [| | |exact A]; try reflexivity);
      cbn [as_tasks set_tasks set_unblock set_cancels log_notified log_disp log_cleaned]; intros t'; apply filter_task_in.
  - unfold unblock. destruct (as_unblock w) as [|b us] eqn:E; [assumption|]. apply act_serve_next.
    + unfold owing. cbn [as_unblock set_unblock].
      refine (inv_same w _ _ _ _ _ _ _ _ _ _ _ _ _ _ I); try reflexivity. cbn [as_unblock set_unblock]. congruence.
    + eapply act_tasks; [| | |exact A]; try reflexivity. intros t Ht; exact (same_task_in _ t Ht).
    + cbn [as_del set_unblock lane_of]. apply lane_queue_length.
  - unfold clean_node. set (w1 := log_cleaned _ _).
    assert (A1 : Act w1).
    { intros k a Ha. unfold w1 in *. cbn [as_del log_cleaned set_del as_next as_tasks] in *.
      rewrite cleanup_serial_at in Ha. cbn in Ha. destruct (A k a Ha) as (A1 & A2 & A3 & A4).
      rewrite (kind_lane (as_del w)) by apply cleanup_kind. repeat split; auto.
      rewrite cleanup_queued. intros H. apply A2. apply in_map_iff in H. destruct H as (y & <- & Hy).
      apply in_map. apply filter_In in Hy. apply Hy. }
    destruct (map t_id _) as [|x ids].
    + eapply act_tasks; [| | |exact A1]; try reflexivity. intros t Ht; exact (same_task_in _ t Ht).
    + apply act_fold. eapply act_tasks; [| | |exact A1]; try reflexivity. cbn [as_tasks set_tasks].
      intros t Ht. apply in_map_iff in Ht. destruct Ht as (t0 & <- & H0). exists t0. destruct (listed n ss t0); auto.
  - unfold despawn_task. destruct (find_task _ _) as [t|]; [|assumption].
    destruct (t_mode t); (eapply act_tasks; [| | |exact A]; try reflexivity);
      cbn [as_tasks set_tasks set_cancels]; intros t'; apply map_task_in.
Qed.

Lemma act_reachable w : reachable w -> Act w.
Proof.
  intros (w0 & es & Hf & ->).
  assert (I0 : Inv w0) by (destruct Hf as [-> | ->];
    [apply (inv_new (Serial serial_new)); [left|]; reflexivity|apply (inv_new (Parallel [])); [right|]; reflexivity]).
  assert (A0 : Act w0) by (intros k a H; destruct Hf as [-> | ->], k; cbn in H; discriminate).
  clear Hf. revert w0 I0 A0. unfold run. induction es as [|e es IH]; intros w0 I0 A0; cbn [fold_left]; [assumption|].
  apply IH; [apply inv_step|apply act_step]; assumption.
Qed.

(** ** Preemption *)

Lemma should_discard_spec inc p : should_discard inc p = true <-> gives_way inc p.
Proof.
  unfold gives_way. destruct p as [p|]; cbn.
  - rewrite andb_true_iff, Nat.eqb_eq, negb_true_iff. split.
    + intros [H1 H2]. exists p. auto.
    + intros (p' & [= <-] & H1 & H2). auto.
  - split; [discriminate|]. intros (p' & H & _). discriminate.
Qed.

Lemma stop_logs w st (n s : entity) b :
  as_disp (stop w st n s b) = as_disp w /\ as_del (stop w st n s b) = as_del w /\
  as_start (stop w st n s b) = as_start w.
Proof. unfold stop. destruct (find_task _ _) as [t|]; [destruct (t_mode t)|]; auto. Qed.

Lemma serve_preempt w (n s : entity) inc (v : V) k : Inv w -> lane (as_del w) (Some inc) = Some k ->
  i_preempt inc = true ->
  let w' := serve w n s (Some inc) v in
  exists kept dropped, separated (fun o => gives_way inc (d_instr o)) (lane_of w k) dropped kept /\
    as_disp w' = as_disp w ++ map (fun o => (d_task o, Supplanted n s)) dropped /\
    (forall k', k' <> k -> lane_of w' k' = lane_of w k') /\
    ((lane_of w' k = kept ++ [mk_order n s (as_next w) v (Some inc)] /\ as_start w' = as_start w)
     \/ (lane_of w' k = kept /\ as_start w' = as_start w ++ [as_next w] /\
         (as_stopfail w = [] -> weight w k = 0))).
Proof.
  intros I Hl Hp w'. unfold w', serve. set (o := mk_order n s (as_next w) v (Some inc)). cbn [as_del receive].
  pose proof (lane_valid _ _ _ Hl) as Hv. unfold lane_of.
  rewrite (insert_lane _ o k) by exact Hl. unfold insert_serial_order.
  destruct (s_delivering (serial_at (as_del w) k)) as [a|] eqn:Hd.
  - cbn [d_instr o]. rewrite Hp. cbn [fst snd].
    set (f := fun e : order V => should_discard inc (d_instr e)).
    exists (filter (fun e => negb (f e)) (s_queue (serial_at (as_del w) k))), (filter f (s_queue (serial_at (as_del w) k))).
    set (w1 := log_disp _ _).
    assert (E : forall w2, as_disp w2 = as_disp w1 /\ as_del w2 = as_del w1 /\ as_start w2 = as_start w1 ->
      as_disp w2 = as_disp w ++ map (fun o => (d_task o, Supplanted n s)) (filter f (s_queue (serial_at (as_del w) k))) /\
      (forall k', k' <> k -> s_queue (serial_at (as_del w2) k') = s_queue (serial_at (as_del w) k')) /\
      s_queue (serial_at (as_del w2) k) = filter (fun e => negb (f e)) (s_queue (serial_at (as_del w) k)) ++ [o] /\
      as_start w2 = as_start w).
    { intros w2 (E1 & E2 & E3). rewrite E1, E2, E3. unfold w1. cbn [as_disp as_del as_start log_disp set_del receive].
      rewrite map_map. repeat split.
      - intros k' Hne. rewrite serial_at_upd_neq by assumption. reflexivity.
      - rewrite serial_at_upd_eq by assumption. reflexivity. }
    split; [apply separated_filter; intros x; apply should_discard_spec|].
    assert (E' := E (if should_discard inc (a_instr a) then stop w1 (stop_active a) n s (Some (i_label inc)) else w1)).
    assert (Hpre : as_disp (if should_discard inc (a_instr a) then stop w1 (stop_active a) n s (Some (i_label inc)) else w1) = as_disp w1
       /\ as_del (if should_discard inc (a_instr a) then stop w1 (stop_active a) n s (Some (i_label inc)) else w1) = as_del w1
       /\ as_start (if should_discard inc (a_instr a) then stop w1 (stop_active a) n s (Some (i_label inc)) else w1) = as_start w1)
      by (destruct (should_discard inc (a_instr a)); [apply stop_logs|auto]).
    destruct (E' Hpre) as (Q1 & Q2 & Q3 & Q4).
    destruct (should_discard inc (a_instr a)); auto.
  - pose proof (v_idle w I k Hd) as Hq. rewrite Hq. cbn [fst snd]. exists [], []. split; [constructor|].
    cbn [as_disp as_del as_start start set_del receive map]. rewrite app_nil_r. split; [reflexivity|].
    split.
    + intros k' Hne. rewrite serial_at_upd_neq by assumption. reflexivity.
    + right. rewrite serial_at_upd_eq by assumption. split; [reflexivity|]. split; [reflexivity|].
      intros Hs. rewrite (v_exact w I Hs k), Hd. reflexivity.
Qed.

Lemma step_serial w e : is_serial w -> is_serial (step w e).
Proof.
  intros [s Hs]. pose proof (step_kind w e) as H. rewrite Hs in H. unfold is_serial.
  destruct (as_del (step w e)); [eexists; reflexivity|contradiction].
Qed.

Lemma step_parallel w e : is_parallel w -> is_parallel (step w e).
Proof.
  intros [s Hs]. pose proof (step_kind w e) as H. rewrite Hs in H. unfold is_parallel.
  destruct (as_del (step w e)); [contradiction|eexists; reflexivity].
Qed.

Lemma serial_preempt w (n s : entity) inc (v : V) : reachable w -> is_serial w -> i_preempt inc = true ->
  let w' := step w (Request n s (Some inc) v) in
  exists kept dropped, separated (fun o => gives_way inc (d_instr o)) (waiting w) dropped kept /\
    as_disp w' = as_disp w ++ map (fun o => (d_task o, Supplanted n s)) dropped /\
    ((waiting w' = kept ++ [mk_order n s (as_next w) v (Some inc)] /\ as_start w' = as_start w)
     \/ (waiting w' = kept /\ as_start w' = as_start w ++ [as_next w] /\
         (as_stopfail w = [] -> working w = []))).
Proof.
  intros Hr Hs Hp w'. pose proof (inv_reachable w Hr) as I.
  destruct (serve_preempt w n s inc v None I) as (kept & dropped & H1 & H2 & _ & H3); [destruct Hs as [x ->]; reflexivity|assumption|].
  exists kept, dropped. unfold lane_of in *.
  assert (Hs' : is_serial w') by (apply step_serial; assumption).
  change (serve w n s (Some inc) v) with w' in *.
  rewrite !serial_at_waiting in * by assumption. split; [assumption|]. split; [assumption|].
  destruct H3 as [H3|(H3 & H4 & H5)]; [left; assumption|right]. repeat split; auto.
  intros Hf. specialize (H5 Hf). pose proof (working_weight w I Hs) as Hw.
  destruct (working w); [reflexivity|]. cbn in Hw. lia.
Qed.

Lemma label_preempt w (n s : entity) inc (v : V) : reachable w -> is_parallel w -> i_preempt inc = true ->
  let w' := step w (Request n s (Some inc) v) in let l := i_label inc in
  exists kept dropped, separated (fun o => gives_way inc (d_instr o)) (waiting_on w l) dropped kept /\
    as_disp w' = as_disp w ++ map (fun o => (d_task o, Supplanted n s)) dropped /\
    (forall l', l' <> l -> waiting_on w' l' = waiting_on w l') /\
    ((waiting_on w' l = kept ++ [mk_order n s (as_next w) v (Some inc)] /\ as_start w' = as_start w)
     \/ (waiting_on w' l = kept /\ as_start w' = as_start w ++ [as_next w] /\
         (as_stopfail w = [] -> working_on w l = []))).
Proof.
  intros Hr Hs Hp w' l. pose proof (inv_reachable w Hr) as I.
  destruct (serve_preempt w n s inc v (Some l) I) as (kept & dropped & H1 & H2 & Ho & H3); [destruct Hs as [x ->]; reflexivity|assumption|].
  exists kept, dropped. unfold lane_of in *.
  assert (Hs' : is_parallel w') by (apply step_parallel; assumption).
  assert (I' : Inv w') by (apply inv_step; assumption).
  change (serve w n s (Some inc) v) with w' in *.
  rewrite !waiting_on_lane by assumption. split; [assumption|]. split; [assumption|]. split.
  - intros l' Hne. rewrite !waiting_on_lane by assumption. apply Ho. congruence.
  - destruct H3 as [H3|(H3 & H4 & H5)]; [left; assumption|right]. repeat split; auto.
    intros Hf. specialize (H5 Hf). pose proof (working_on_weight w l I Hs) as Hw.
    destruct (working_on w l); [reflexivity|]. cbn in Hw. lia.
Qed.

(** Requests which do not preempt discard nothing. *)
Lemma serve_gentle w (n s : entity) i (v : V) : reachable w ->
  (forall inc, i = Some inc -> i_preempt inc = false) ->
  let w' := step w (Request n s i v) in
  as_disp w' = as_disp w /\ as_cancels w' = as_cancels w /\
  (forall t, In t (as_tasks w) -> In t (as_tasks w')) /\
  (is_serial w -> (waiting w' = waiting w ++ [mk_order n s (as_next w) v i] /\ as_start w' = as_start w)
              \/ (waiting w' = waiting w /\ as_start w' = as_start w ++ [as_next w])).
Proof.
  intros Hr Hi w'. pose proof (inv_reachable w Hr) as I. unfold w'. cbn [step]. unfold serve.
  set (o := mk_order n s (as_next w) v i). cbn [as_del receive].
  destruct (lane (as_del w) i) as [k|] eqn:Hl.
  - rewrite (insert_lane _ o k) by exact Hl. pose proof (lane_valid _ _ _ Hl) as Hv. unfold insert_serial_order.
    destruct (s_delivering (serial_at (as_del w) k)) as [a|] eqn:Hd.
    + assert (Hq : forall lb,
         let w2 := log_disp (set_del (receive w) (upd (as_del w) k (mk_serial (Some a) (s_queue (serial_at (as_del w) k) ++ [o])))) [] in
         (lb : option nat) = lb ->
         as_disp w2 = as_disp w /\ as_cancels w2 = as_cancels w /\ (forall t, In t (as_tasks w) -> In t (as_tasks w2)) /\
         (is_serial w -> (waiting w2 = waiting w ++ [o] /\ as_start w2 = as_start w) \/
            (waiting w2 = waiting w /\ as_start w2 = as_start w ++ [as_next w]))).
      { intros lb w2 _. unfold w2, waiting. cbn [as_disp as_cancels as_tasks as_del as_start log_disp set_del receive].
        rewrite app_nil_r. repeat split; auto. intros [s0 Hs0]. left. rewrite Hs0 in *. cbn in Hl. injection Hl as <-.
        cbn. auto. }
      destruct i as [inc|]; cbn [d_instr o].
      * rewrite (Hi inc eq_refl). cbn [fst snd map]. apply (Hq None eq_refl).
      * cbn [fst snd map]. apply (Hq None eq_refl).
    + rewrite (v_idle w I k Hd). cbn [fst snd]. unfold waiting.
      cbn [as_disp as_cancels as_tasks as_del as_start start set_del receive]. repeat split; auto.
      * intros t Ht. apply in_or_app. left. assumption.
      * intros [s0 Hs0]. right. pose proof (v_idle w I k Hd) as Hq. rewrite Hs0 in *. cbn in Hl. injection Hl as <-.
        cbn in *. auto.
  - rewrite insert_nolane by exact Hl. unfold waiting.
    cbn [as_disp as_cancels as_tasks as_del as_start start set_del receive]. repeat split; auto.
    + intros t Ht. apply in_or_app. left. assumption.
Qed.

(** The requests in progress: exactly the right one is stopped. *)
Lemma serve_stops w (n s : entity) inc (v : V) t : reachable w -> as_stopfail w = [] -> i_preempt inc = true ->
  In t (as_tasks w) -> running t = true ->
  let w' := step w (Request n s (Some inc) v) in
  (gives_way inc (t_instr t) ->
     In (capture t None (Some (Supplanted n s))) (as_cancels w') /\
     (forall t', In t' (as_tasks w') -> t_id t' = t_id t -> running t' = false) /\
     as_cancels w' = as_cancels w ++ [capture t None (Some (Supplanted n s))]) /\
  (~ gives_way inc (t_instr t) -> In t (as_tasks w')).
Proof.
  intros Hr Hsf Hp Ht Hrun w'. pose proof (inv_reachable w Hr) as I. pose proof (act_reachable w Hr) as A.
  unfold w'. cbn [step]. unfold serve. set (o := mk_order n s (as_next w) v (Some inc)). cbn [as_del receive].
  destruct (lane (as_del w) (Some inc)) as [k|] eqn:Hl; [|destruct (as_del w); discriminate].
  rewrite (insert_lane _ o k) by exact Hl. unfold insert_serial_order.
  assert (Hgl : gives_way inc (t_instr t) -> s_delivering (serial_at (as_del w) k)
      = Some (mk_active (t_node t) (t_session t) (t_id t) (t_instr t))).
  { intros (p' & Ep & El & _). apply (v_ident w I Hsf k t Ht). rewrite (v_tblock w I t Ht Hrun). apply expected_holds.
    rewrite Ep. destruct (as_del w); cbn in *; congruence. }
  destruct (s_delivering (serial_at (as_del w) k)) as [a|] eqn:Hd.
  - cbn [d_instr o]. rewrite Hp. cbn [fst snd]. set (w1 := log_disp _ _).
    assert (Et1 : as_tasks w1 = as_tasks w) by reflexivity.
    assert (Ec1 : as_cancels w1 = as_cancels w) by reflexivity.
    split.
    + intros Hg. specialize (Hgl Hg). injection Hgl as ->. cbn [a_instr].
      assert (Hsd : should_discard inc (t_instr t) = true) by (apply should_discard_spec; assumption). rewrite Hsd.
      unfold stop. cbn [stop_active st_task a_task]. rewrite Et1, (find_task_in _ _ Ht (v_ids w I)).
      assert (Hm : t_mode t = TRun) by (unfold running in Hrun; destruct (t_mode t); congruence). rewrite Hm.
      cbn [as_cancels as_tasks set_cancels set_tasks]. rewrite Ec1. split; [apply in_or_app; right; left; reflexivity|]. split; [|reflexivity].
      intros t' Hi Eid. unfold map_task in Hi. apply in_map_iff in Hi. destruct Hi as (t0 & E0 & H0).
      destruct (Nat.eqb_spec (t_id t0) (t_id t)) as [E|E].
      * subst t'. reflexivity.
      * subst t'. congruence.
    + intros Hng. destruct (should_discard inc (a_instr a)) eqn:Hsd; [|rewrite Et1; assumption].
      assert (Hne : t_id t <> a_task a).
      { intros E. destruct (A k a Hd) as (_ & _ & _ & A4). rewrite <- (A4 t Ht E) in Hsd. apply should_discard_spec in Hsd. contradiction. }
      unfold stop. cbn [stop_active st_task]. rewrite Et1.
      destruct (find_task (as_tasks w) (a_task a)) as [t2|] eqn:E2; [|exact Ht].
      destruct (find_task_split _ _ _ E2 (v_ids w I)) as (x & y & Ets & Eid & Hm & _).
      assert (Hin : In t (map_task (t_id t2) (with_mode TStopping) (as_tasks w))).
      { unfold map_task. apply in_map_iff. exists t. split; [|assumption].
        destruct (Nat.eqb_spec (t_id t) (t_id t2)); congruence. }
      destruct (t_mode t2); auto.
  - rewrite (v_idle w I k Hd). cbn [fst snd as_cancels as_tasks start set_del receive]. split.
    + intros Hg. specialize (Hgl Hg). discriminate.
    + intros _. apply in_or_app. left. assumption.
Qed.

(** ** One label of a parallel service *)

Lemma qstep_lane ls l x : concerns l x = false \/ lget l ls <> None \/ (exists o, x = QInsert o) \/ (exists ss, x = QCleanup ss) ->
  forall d' a, qstep (Parallel ls) x = (d', a) ->
  exists ls', d' = Parallel ls' /\ (lget l ls <> None -> lget l ls' <> None) /\
  (concerns l x = false -> serial_at d' (Some l) = serial_at (Parallel ls) (Some l)) /\
  (concerns l x = true -> qstep (Serial (serial_at (Parallel ls) (Some l))) x = (Serial (serial_at d' (Some l)), a)).
Proof.
  intros Hx d' a. destruct x as [o|[l'|]|ss]; cbn [qstep concerns] in *.
  - unfold insert_new_order. destruct (d_instr o) as [i|] eqn:Ei; cbn [labelled].
    + destruct (insert_serial_order _ o) as [s' u] eqn:Es. intros [= <- <-]. eexists. split; [reflexivity|].
      destruct (Nat.eqb_spec (i_label i) l) as [El|El]; (split; [|split; [try discriminate|try discriminate]]).
      * intros _. rewrite <- El, lget_lset_eq. discriminate.
      * intros _. cbn [serial_at]. rewrite <- El, lget_lset_eq. rewrite Es. reflexivity.
      * rewrite lget_lset_neq by congruence. auto.
      * intros _. cbn [serial_at]. rewrite lget_lset_neq by congruence. reflexivity.
    + intros [= <- <-]. eexists. split; [reflexivity|]. split; [auto|]. split; [auto|discriminate].
  - cbn [pop_next]. destruct (Nat.eqb_spec l' l) as [El|El].
    + rewrite El. destruct (lget l ls) as [s|] eqn:E.
      * destruct (pop_impl s) as [s' oo] eqn:Ep. intros [= <- <-]. eexists. split; [reflexivity|].
        split; [intros _; rewrite lget_lset_eq; discriminate|]. split; [discriminate|]. intros _.
        cbn [serial_at]. rewrite E, lget_lset_eq, Ep. reflexivity.
      * destruct Hx as [Hx|[Hx|[[o Hx]|[ss Hx]]]]; discriminate || congruence.
    + destruct (lget l' ls) as [s|] eqn:E.
      * destruct (pop_impl s) as [s' oo] eqn:Ep. intros [= <- <-]. eexists. split; [reflexivity|].
        rewrite lget_lset_neq by congruence. split; [auto|]. split; [|discriminate]. intros _.
        cbn [serial_at]. rewrite lget_lset_neq by congruence. reflexivity.
      * intros [= <- <-]. eexists. split; [reflexivity|]. split; [auto|]. split; [auto|discriminate].
  - intros [= <- <-]. eexists. split; [reflexivity|]. split; [auto|]. split; [auto|discriminate].
  - intros [= <- <-]. eexists. split; [reflexivity|].
    rewrite (lget_map (fun s => serial_cleanup s ss)). split; [destruct (lget l ls); cbn; congruence|].
    split; [discriminate|]. intros _.
    cbn [delivery_cleanup serial_at]. rewrite (lget_map (fun s => serial_cleanup s ss)).
    destruct (lget l ls); reflexivity.
Qed.

Lemma qrun_lane l (xs : list (qop (V:=V))) : forall ls,
  lget l ls <> None ->
  snd (qrun (Serial (serial_at (Parallel ls) (Some l))) (filter (concerns l) xs))
  = filter (fun p => concerns l (fst p)) (snd (qrun (Parallel ls) xs)).
Proof.
  induction xs as [|x xs IH]; intros ls Hl; cbn [filter qrun]; [reflexivity|].
  destruct (qstep (Parallel ls) x) as [d' a] eqn:E.
  destruct (qstep_lane ls l x (or_intror (or_introl Hl)) d' a E) as (ls' & -> & H1 & H2 & H3).
  specialize (IH ls' (H1 Hl)). destruct (qrun (Parallel ls') xs) as [d2 log] eqn:E2. cbn [snd filter fst] in *.
  destruct (concerns l x) eqn:Ec.
  - cbn [qrun]. rewrite (H3 eq_refl).
    destruct (qrun (Serial (serial_at (Parallel ls') (Some l))) (filter (concerns l) xs)) as [d3 log3].
    cbn [snd] in *. congruence.
  - rewrite <- (H2 eq_refl). assumption.
Qed.

(** Before the first request of the label there is nothing to pop. *)
Lemma qrun_first l (pre : list (qop (V:=V))) o post : forall ls,
  lget l ls = None -> Forall (fun x => forall l', x = QPop (Some l') -> l' <> l) pre ->
  Forall (fun x => concerns l x = true -> exists ss, x = QCleanup ss) pre ->
  labelled l (d_instr o) = true ->
  snd (qrun (Serial serial_new) (filter (concerns l) (pre ++ QInsert o :: post)))
  = filter (fun p => concerns l (fst p)) (snd (qrun (Parallel ls) (pre ++ QInsert o :: post))).
Proof.
  induction pre as [|x pre IH]; intros ls Hl H1 H2 Ho; cbn [app].
  - cbn [filter qrun]. cbn [concerns]. rewrite Ho. cbn [qrun].
    destruct (qstep (Parallel ls) (QInsert o)) as [d' a] eqn:E.
    destruct (qstep_lane ls l (QInsert o) (or_intror (or_intror (or_introl (ex_intro _ o eq_refl)))) d' a E) as (ls' & -> & Q1 & Q2 & Q3).
    cbn [concerns] in Q3. specialize (Q3 Ho). cbn [serial_at] in Q3. rewrite Hl in Q3. rewrite Q3.
    assert (Hl' : lget l ls' <> None).
    { clear - E Ho. cbn in E. destruct (d_instr o) as [i|]; [|discriminate]. cbn in Ho. apply Nat.eqb_eq in Ho.
      destruct (insert_serial_order _ o). injection E as <- _. rewrite <- Ho, lget_lset_eq. discriminate. }
    pose proof (qrun_lane l post ls' Hl') as Hq. cbn [serial_at] in Hq.
    destruct (qrun (Parallel ls') post) as [d2 log] eqn:E2. cbn [snd filter fst concerns] in *. rewrite Ho.
    destruct (qrun (Serial match lget l ls' with Some s => s | None => serial_new end) (filter (concerns l) post)) as [d3 log3].
    cbn [snd] in *. congruence.
  - inversion H1 as [|? ? H1a H1b]; inversion H2 as [|? ? H2a H2b]; subst. cbn [filter].
    assert (Hx : concerns l x = false \/ lget l ls <> None \/ (exists o', x = QInsert o') \/ (exists ss, x = QCleanup ss)).
    { destruct (concerns l x) eqn:Ec; [|auto]. destruct (H2a eq_refl) as [ss ->]. eauto. }
    cbn [qrun]. destruct (qstep (Parallel ls) x) as [d' a] eqn:E.
    destruct (qstep_lane ls l x Hx d' a E) as (ls' & -> & Q1 & Q2 & Q3).
    assert (Hl' : lget l ls' = None).
    { destruct (concerns l x) eqn:Ec.
      - destruct (H2a eq_refl) as [ss ->]. cbn in E. injection E as <- _.
        rewrite (lget_map (fun s => serial_cleanup s ss)), Hl. reflexivity.
      - clear - E Ec Hl. destruct x as [o|[l'|]|ss]; cbn in E, Ec.
        + destruct (d_instr o) as [i|]; [|congruence]. cbn in Ec. apply Nat.eqb_neq in Ec.
          destruct (insert_serial_order _ o). injection E as <- _. rewrite lget_lset_neq by congruence. assumption.
        + apply Nat.eqb_neq in Ec. destruct (lget l' ls) eqn:E'; [|congruence].
          destruct (pop_impl s). injection E as <- _. rewrite lget_lset_neq by congruence. assumption.
        + congruence.
        + discriminate. }
    specialize (IH ls' Hl' H1b H2b Ho).
    destruct (qrun (Parallel ls') (pre ++ QInsert o :: post)) as [d2 log] eqn:E2. cbn [snd filter fst] in *.
    destruct (concerns l x) eqn:Ec.
    + destruct (H2a eq_refl) as [ss ->]. specialize (Q3 eq_refl). cbn [serial_at] in Q3. rewrite Hl, Hl' in Q3.
      cbn [qrun]. rewrite Q3.
      destruct (qrun (Serial serial_new) (filter (concerns l) (pre ++ QInsert o :: post))) as [d3 log3].
      cbn [snd] in *. congruence.
    + assumption.
Qed.

Lemma unlabelled_starts w (n s : entity) (v : V) : reachable w -> is_parallel w ->
  let w' := step w (Request n s None v) in
  as_start w' = as_start w ++ [as_next w] /\ as_del w' = as_del w /\
  as_tasks w' = as_tasks w ++ [mk_task (as_next w) n s None None TRun None] /\
  as_cancels w' = as_cancels w.
Proof. intros Hr [ls Hp] w'. unfold w'. cbn [step]. unfold serve. cbn [as_del receive]. rewrite Hp. cbn. repeat split; auto. Qed.

(** ** Cleaning one node *)

Lemma clean_others w (n s : entity) c :
  let w' := step w (Clean n s c) in
  filter (fun o => negb (Nat.eqb (d_session o) s)) (waiting w')
  = filter (fun o => negb (Nat.eqb (d_session o) s)) (waiting w) /\
  (forall o, In o (waiting w') <-> In o (waiting w) /\ d_session o <> s).
Proof.
  intros w'. assert (E : waiting w' = filter (fun o => negb (Nat.eqb (d_session o) s)) (waiting w)).
  { unfold w', waiting. cbn [step]. unfold clean_node. cbn [as_tasks log_cleaned set_del].
    destruct (map t_id _); [cbn [as_del log_notified log_cleaned set_del]|rewrite fold_clean_del; cbn [as_del set_tasks log_cleaned set_del]];
      apply cleanup_queued. }
  rewrite E. split.
  - generalize (waiting w). induction l as [|o q IH]; cbn [filter]; [reflexivity|].
    destruct (negb (Nat.eqb (d_session o) s)) eqn:Ho; cbn [filter]; rewrite ?Ho; congruence.
  - intros o. rewrite filter_In, negb_true_iff, Nat.eqb_neq. reflexivity.
Qed.

Lemma clean_other_tasks w (n s : entity) c t : reachable w -> In t (as_tasks w) -> listed n s t = false ->
  In t (as_tasks (step w (Clean n s c))).
Proof.
  intros Hr Ht Hl. pose proof (inv_reachable w Hr) as I. cbn [step]. unfold clean_node. set (w1 := log_cleaned _ _).
  assert (I1 : Inv w1) by (apply inv_clean_queue; assumption).
  destruct (map t_id (filter (listed n s) (as_tasks w1))) as [|i ids] eqn:E; [exact Ht|]. rewrite <- E.
  match goal with |- In t (as_tasks (fold_left _ _ ?x)) => set (w2 := x) end.
  assert (I2 : Inv w2) by (apply inv_mark; assumption).
  assert (Ht2 : In t (as_tasks w2)).
  { unfold w2. cbn [as_tasks set_tasks]. apply in_map_iff. exists t. rewrite Hl. split; [reflexivity|exact Ht]. }
  assert (Hni : ~ In (t_id t) (map t_id (filter (listed n s) (as_tasks w1)))).
  { intros H. apply in_map_iff in H. destruct H as (t2 & E2 & H2). apply filter_In in H2. destruct H2 as [H2 H3].
    assert (t2 = t).
    { pose proof (find_task_in _ _ H2 (v_ids w1 I1)) as F1. pose proof (find_task_in _ t Ht (v_ids w I)) as F2.
      rewrite E2 in F1. change (as_tasks w1) with (as_tasks w) in F1. congruence. }
    subst t2. congruence. }
  revert Hni. generalize (map t_id (filter (listed n s) (as_tasks w1))). clear E Ht.
  intros l. clearbody w2. revert w2 I2 Ht2. induction l as [|x l IH]; intros w2 I2 Ht2 Hni; cbn [fold_left]; [assumption|].
  apply IH.
  - apply inv_clean_task. assumption.
  - apply clean_task_other; [assumption|assumption|]. intros E. apply Hni. left. symmetry. assumption.
  - intros H. apply Hni. right. assumption.
Qed.

(** ** The node is told it is clean *)

(** A cancellation under way on behalf of the cleanup [c] of node [n]. *)
Definition for_clean (n : entity) (c : nat) (x : cancelling) : Prop := c_node x = n /\ c_clean x = Some c.

Definition Due w (n : entity) (c : nat) : Prop :=
  (forall t, In t (as_tasks w) -> t_node t = n -> t_clean t = Some c ->
     exists x, In x (as_cancels w) /\ c_task x = t_id t /\ for_clean n c x) /\
  (In (n, c) (as_notified w) \/ exists x, In x (as_cancels w) /\ for_clean n c x).

Lemma due_more w w' n c :
  (forall t, In t (as_tasks w') -> t_node t = n -> t_clean t = Some c ->
     exists t0, In t0 (as_tasks w) /\ t_id t0 = t_id t /\ t_node t0 = n /\ t_clean t0 = Some c) ->
  (forall x, In x (as_cancels w) -> In x (as_cancels w')) ->
  (forall x, In x (as_notified w) -> In x (as_notified w')) ->
  Due w n c -> Due w' n c.
Proof.
  intros Ht Hc Hn [D1 D2]. split.
  - intros t Hi E1 E2. destruct (Ht t Hi E1 E2) as (t0 & H0 & E & E3 & E4).
    destruct (D1 t0 H0 E3 E4) as (x & Hx & Ex & Hf). exists x. rewrite <- E. auto.
  - destruct D2 as [D2|(x & Hx & Hf)]; [left; auto|right; exists x; auto].
Qed.

Lemma due_same w w' n c : as_tasks w' = as_tasks w -> as_cancels w' = as_cancels w -> as_notified w' = as_notified w ->
  Due w n c -> Due w' n c.
Proof. intros E1 E2 E3. unfold Due. rewrite E1, E2, E3. auto. Qed.

Lemma map_task_due id m w t n c : In t (map_task id (with_mode m) (as_tasks w)) -> t_node t = n -> t_clean t = Some c ->
  exists t0, In t0 (as_tasks w) /\ t_id t0 = t_id t /\ t_node t0 = n /\ t_clean t0 = Some c.
Proof.
  intros H E1 E2. unfold map_task in H. apply in_map_iff in H. destruct H as (t0 & <- & H0). exists t0.
  destruct (Nat.eqb _ _); auto.
Qed.

Lemma filter_due (f : task -> bool) w t n c : In t (filter f (as_tasks w)) -> t_node t = n -> t_clean t = Some c ->
  exists t0, In t0 (as_tasks w) /\ t_id t0 = t_id t /\ t_node t0 = n /\ t_clean t0 = Some c.
Proof. intros H E1 E2. apply filter_In in H. exists t. intuition. Qed.

Lemma due_start w id n' s' i b n c : Due w n c -> Due (start w id n' s' i b) n c.
Proof.
  apply due_more; auto. cbn [as_tasks start]. intros t Hi E1 E2. apply in_app_or in Hi. destruct Hi as [Hi|[<-|[]]]; [|discriminate].
  exists t. auto.
Qed.

Lemma due_stop w st (n' s' : entity) b n c : Due w n c -> Due (stop w st n' s' b) n c.
Proof.
  unfold stop. destruct (find_task _ _) as [t|]; [destruct (t_mode t)|]; auto;
    try (apply due_same; [reflexivity..]); apply due_more; auto; cbn [as_tasks as_cancels set_tasks set_cancels].
  all: try (intros t' Hi; apply (map_task_due _ _ _ _ _ _ Hi)).
  intros x Hx. apply in_or_app. left. assumption.
Qed.

Lemma due_serve_next fuel alive b w n c : Due w n c -> Due (serve_next fuel alive b w) n c.
Proof.
  revert w. induction fuel as [|fuel IH]; intros w D; cbn [serve_next];
    destruct (pop_next (as_del w) b) as [[d [o|]]|]; try (apply (due_same w); [reflexivity..|assumption]);
    destruct (alive (d_source o)); try (apply due_start; apply (due_same w); [reflexivity..|assumption]);
    try apply IH; (apply (due_same w); [reflexivity..|assumption]).
Qed.

Lemma due_clean_task c' w id n c :
  c' <> c \/ (forall t, find_task (as_tasks w) id = Some t -> t_node t <> n) ->
  Due w n c -> Due (clean_task c' w id) n c.
Proof.
  intros Hne. unfold clean_task, cleanup_task. destruct (find_task _ _) as [t|] eqn:E; [destruct (t_mode t)|]; auto.
  - apply due_more; auto; cbn [as_tasks as_cancels set_tasks set_cancels].
    + intros t' Hi. apply (map_task_due _ _ _ _ _ _ Hi).
    + intros x Hx. apply in_or_app. left. assumption.
  - cbn [as_tasks set_tasks]. destruct (existsb _ _); apply due_more; auto; cbn [as_tasks as_cancels as_notified set_tasks log_notified].
    + intros t' Hi. apply (filter_due _ _ _ _ _ Hi).
    + intros t' Hi. apply (filter_due _ _ _ _ _ Hi).
    + intros x Hx. apply in_or_app. left. assumption.
Qed.

Lemma clean_task_node c' w id : forall t, In t (as_tasks (clean_task c' w id)) -> exists t0, In t0 (as_tasks w) /\ t_id t0 = t_id t /\ t_node t0 = t_node t.
Proof.
  intros t. unfold clean_task, cleanup_task. destruct (find_task _ _) as [t1|]; [destruct (t_mode t1)|]; try (exists t; auto; fail).
  - cbn [as_tasks set_cancels set_tasks]. unfold map_task. intros H. apply in_map_iff in H. destruct H as (t0 & <- & H0). exists t0.
    destruct (Nat.eqb _ _); auto.
  - cbn [as_tasks set_tasks]. destruct (existsb _ _); cbn [as_tasks set_tasks log_notified]; intros H; apply filter_In in H; exists t; intuition.
Qed.

Lemma due_fold c' ids n c : forall w,
  c' <> c \/ (forall t, In t (as_tasks w) -> In (t_id t) ids -> t_node t <> n) ->
  Due w n c -> Due (fold_left (clean_task c') ids w) n c.
Proof.
  induction ids as [|id ids IH]; intros w H D; cbn [fold_left]; [assumption|]. apply IH.
  - destruct H as [H|H]; [left; assumption|right]. intros t Ht Hi.
    apply clean_task_node in Ht. destruct Ht as (t0 & H0 & E1 & E2). rewrite <- E2. apply H; [assumption|].
    rewrite E1. right. assumption.
  - apply due_clean_task; [|assumption]. destruct H as [H|H]; [left; assumption|right].
    intros t E. unfold find_task in E. apply find_some in E. destruct E as [E1 E2]. apply Nat.eqb_eq in E2.
    apply H; [assumption|]. left. symmetry. assumption.
Qed.

Lemma due_cancelled w k n c : Due w n c -> Due (cancelled w k) n c.
Proof.
  intros [D1 D2]. unfold cancelled. destruct (remove_nth k (as_cancels w)) as [[x cs]|] eqn:E; [|split; assumption].
  destruct (remove_nth_split _ _ _ _ E) as (a & b & Ec & ->).
  set (ts := filter (fun t => negb (Nat.eqb (t_id t) (c_task x))) (as_tasks w)).
  set (w1 := match c_cause x with Some r => _ | None => _ end).
  assert (Et : as_tasks w1 = ts).
  { unfold w1, cleanup_task. destruct (c_cause x), (c_block x), (c_clean x); try reflexivity;
      cbn [as_tasks set_tasks set_unblock set_cancels]; destruct (existsb _ _); reflexivity. }
  assert (Ecc : as_cancels w1 = a ++ b).
  { unfold w1, cleanup_task. destruct (c_cause x), (c_block x), (c_clean x); try reflexivity;
      cbn [as_tasks set_tasks set_unblock set_cancels]; destruct (existsb _ _); reflexivity. }
  assert (En : as_notified w1 = as_notified w ++
     match c_clean x with
     | Some c0 => if existsb (fun t => Nat.eqb (t_node t) (c_node x) && same_clean c0 t) ts then [] else [(c_node x, c0)]
     | None => []
     end).
  { unfold w1, cleanup_task. destruct (c_cause x), (c_block x), (c_clean x);
      cbn [as_tasks set_tasks set_unblock set_cancels]; try (symmetry; apply app_nil_r);
      fold ts; destruct (existsb _ _); cbn; rewrite ?app_nil_r; reflexivity. }
  assert (Hkeep : forall y, In y (as_cancels w) -> y <> x -> In y (a ++ b)).
  { intros y Hy Hne. rewrite Ec in Hy. apply in_app_or in Hy. apply in_or_app. destruct Hy as [Hy|[Hy|Hy]]; [left; assumption|congruence|right; assumption]. }
  clearbody w1. unfold Due. rewrite Et, Ecc, En. 
  assert (D1' : forall t, In t ts -> t_node t = n -> t_clean t = Some c ->
     exists x0, In x0 (a ++ b) /\ c_task x0 = t_id t /\ for_clean n c x0).
  { intros t Ht H1 H2. unfold ts in Ht. apply filter_In in Ht. destruct Ht as [Ht Hne].
    apply negb_true_iff, Nat.eqb_neq in Hne. destruct (D1 t Ht H1 H2) as (y & Hy & Ey & Hf).
    exists y. split; [|auto]. apply Hkeep; [assumption|]. intros ->. congruence. }
  split; [assumption|]. destruct D2 as [D2|(y & Hy & Hf)].
  - left. apply in_or_app. left. assumption.
  - destruct (c_clean x) as [c0|] eqn:Ex.
    + destruct (Nat.eq_dec (c_node x) n) as [E1|E1]; [destruct (Nat.eq_dec c0 c) as [E2|E2]|].
      * subst c0. rewrite E1. match goal with |- context [existsb ?f ts] => destruct (existsb f ts) eqn:Ee end.
        -- right. apply existsb_exists in Ee. destruct Ee as (t & Ht & He). apply andb_true_iff in He.
           destruct He as [He1 He2]. apply Nat.eqb_eq in He1. unfold same_clean in He2.
           destruct (t_clean t) as [c1|] eqn:E3; [|discriminate]. apply Nat.eqb_eq in He2. subst c1.
           destruct (D1' t Ht) as (z & Hz & _ & Hfz); [congruence|assumption|]. exists z. auto.
        -- left. apply in_or_app. right. left. reflexivity.
      * right. exists y. split; [|assumption]. apply Hkeep; [assumption|]. intros ->. destruct Hf as [_ Hf]. congruence.
      * right. exists y. split; [|assumption]. apply Hkeep; [assumption|]. intros ->. destruct Hf as [Hf _]. congruence.
    + right. exists y. split; [|assumption]. apply Hkeep; [assumption|]. intros ->. destruct Hf as [_ Hf]. congruence.
Qed.


Lemma task_unique w t t' : Inv w -> In t (as_tasks w) -> In t' (as_tasks w) -> t_id t = t_id t' -> t = t'.
Proof.
  intros I H H' E. pose proof (find_task_in _ _ H (v_ids w I)) as F. pose proof (find_task_in _ _ H' (v_ids w I)) as F'.
  rewrite E in F. congruence.
Qed.

Lemma due_step w e n c : Inv w -> (forall s, e <> Clean n s c) -> Due w n c -> Due (step w e) n c.
Proof.
  intros I He D. destruct e as [n' ss i v|id|k|alive|n' ss c'|id]; cbn [step].
  - unfold serve. cbn [as_del receive]. destruct (insert_new_order _ _) as [d u].
    destruct u as [bl r|cn st l|]; [|destruct st as [st|]|].
    + apply due_start. apply (due_same w); [reflexivity..|assumption].
    + apply due_stop. apply (due_same w); [reflexivity..|assumption].
    + apply (due_same w); [reflexivity..|assumption].
    + apply (due_same w); [reflexivity..|assumption].
  - unfold poll_ready, cleanup_task. destruct (find_task _ _) as [t|]; [|assumption].
    destruct (t_mode t); try assumption. destruct (t_block t); apply (due_more w); auto;
      cbn [as_tasks set_tasks set_unblock log_done]; intros t' Hi; apply (filter_due _ _ _ _ _ Hi).
  - apply due_cancelled. assumption.
  - unfold unblock. destruct (as_unblock w) as [|b us]; [assumption|]. apply due_serve_next.
    apply (due_same w); [reflexivity..|assumption].
  - unfold clean_node. set (w1 := log_cleaned _ _).
    assert (D1 : Due w1 n c) by (apply (due_same w); [reflexivity..|assumption]).
    destruct (map t_id (filter (listed n' ss) (as_tasks w1))) as [|x ids] eqn:E.
    + apply (due_more w1); auto; cbn [as_tasks as_notified log_notified].
      * intros t Ht H1 H2. exists t. auto.
      * intros y Hy. apply in_or_app. left. assumption.
    + rewrite <- E. apply due_fold.
      * destruct (Nat.eq_dec c' c) as [->|Hc]; [right|left; assumption].
        assert (Hn : n' <> n) by (intros ->; apply (He ss); reflexivity).
        cbn [as_tasks set_tasks]. intros t Ht Hi Hnode. apply in_map_iff in Ht. destruct Ht as (t0 & Et & H0).
        assert (El : forall t, listed n' ss t = true -> t_node t = n').
        { intros t1 El. unfold listed in El. apply andb_true_iff in El. destruct El as [El _]. apply Nat.eqb_eq in El. assumption. }
        destruct (listed n' ss t0) eqn:El0.
        -- subst t. apply El in El0. cbn in Hnode. congruence.
        -- subst t. apply in_map_iff in Hi. destruct Hi as (t1 & E1 & H1). apply filter_In in H1. destruct H1 as [H1 H2].
           apply El in H2. rewrite (task_unique w t1 t0 I H1 H0 E1) in H2. congruence.
      * apply (due_more w1); auto. cbn [as_tasks set_tasks]. intros t Ht H1 H2. apply in_map_iff in Ht.
        destruct Ht as (t0 & Et & H0). exists t0. destruct (listed n' ss t0) eqn:El; [|subst; auto].
        subst t. cbn in H1, H2. unfold listed in El. apply andb_true_iff in El. destruct El as [El _]. apply Nat.eqb_eq in El.
        exfalso. apply (He ss). congruence.
  - unfold despawn_task. destruct (find_task _ _) as [t|]; [|assumption].
    destruct (t_mode t); apply (due_more w); auto; cbn [as_tasks as_cancels set_tasks set_cancels];
      try (intros t' Hi; apply (map_task_due _ _ _ _ _ _ Hi)); intros x Hx; apply in_or_app; left; assumption.
Qed.

Lemma due_run es n c : forall w, Inv w -> (forall s, ~ In (Clean n s c) es) -> Due w n c -> Due (run w es) n c.
Proof.
  unfold run. induction es as [|e es IH]; intros w I He D; cbn [fold_left]; [assumption|]. apply IH.
  - apply inv_step. assumption.
  - intros s H. apply (He s). right. assumption.
  - apply due_step; [assumption| |assumption]. intros s ->. apply (He s). left. reflexivity.
Qed.

(** The cleanup itself establishes [Due], when nothing of the node is already being stopped. *)
Definition Rem w (n : entity) c ids : Prop :=
  NoDup ids /\
  (forall id, In id ids -> exists t, In t (as_tasks w) /\ t_id t = id /\ t_node t = n /\ t_clean t = Some c /\
     (t_mode t = TRun \/ t_mode t = TCleaning)) /\
  (forall t, In t (as_tasks w) -> t_node t = n -> t_clean t = Some c -> In (t_id t) ids \/
     exists x, In x (as_cancels w) /\ c_task x = t_id t /\ for_clean n c x) /\
  (ids <> [] \/ In (n, c) (as_notified w) \/ exists x, In x (as_cancels w) /\ for_clean n c x).

Lemma rem_fold n c ids : forall w, Inv w -> Rem w n c ids -> Due (fold_left (clean_task c) ids w) n c.
Proof.
  induction ids as [|id ids IH]; intros w I (R1 & R2 & R3 & R4); cbn [fold_left].
  - split.
    + intros t Ht E1 E2. destruct (R3 t Ht E1 E2) as [[]|H]; exact H.
    + destruct R4 as [R4|R4]; [contradiction|exact R4].
  - apply IH; [apply inv_clean_task; assumption|].
    inversion R1 as [|? ? N1 N2]; subst.
    destruct (R2 id (or_introl eq_refl)) as (t & Ht & Eid & En & Ecl & Hm).
    assert (Hoth : forall t', In t' (as_tasks w) -> t_id t' <> id -> In t' (as_tasks (clean_task c w id)))
      by (intros; apply clean_task_other; assumption).
    unfold Rem. split; [assumption|].
    split.
    { intros id' Hi. destruct (R2 id' (or_intror Hi)) as (t' & Ht' & E'). exists t'. split; [|exact E'].
      apply Hoth; [assumption|]. destruct E' as [E' _]. intros E. apply N1. congruence. }
    unfold clean_task. rewrite <- Eid, (find_task_in _ _ Ht (v_ids w I)). destruct Hm as [Hm|Hm]; rewrite Hm.
    + cbn [as_tasks as_cancels as_notified set_tasks set_cancels].
      assert (Hf : for_clean n c (capture t (Some c) None)) by (split; [exact En|reflexivity]).
      split.
      * intros t' Ht' E1 E2. unfold map_task in Ht'. apply in_map_iff in Ht'. destruct Ht' as (t0 & Et & H0).
        destruct (Nat.eqb_spec (t_id t0) (t_id t)) as [E|E].
        -- right. exists (capture t (Some c) None). split; [apply in_or_app; right; left; reflexivity|].
           subst t'. split; [symmetry; exact E|assumption].
        -- subst t'. destruct (R3 t0 H0 E1 E2) as [[H|H]|(x & Hx & Ex)].
           ++ congruence.
           ++ left. assumption.
           ++ right. exists x. split; [apply in_or_app; left; assumption|assumption].
      * right. right. exists (capture t (Some c) None). split; [apply in_or_app; right; left; reflexivity|assumption].
    + unfold cleanup_task. cbn [as_tasks set_tasks].
      set (ts := filter (fun t0 => negb (Nat.eqb (t_id t0) (t_id t))) (as_tasks w)).
      assert (Hts : forall t', In t' ts -> t_node t' = n -> t_clean t' = Some c ->
        In (t_id t') ids \/ exists x, In x (as_cancels w) /\ c_task x = t_id t' /\ for_clean n c x).
      { intros t' Ht' E1 E2. unfold ts in Ht'. apply filter_In in Ht'. destruct Ht' as [Ht' Hne].
        apply negb_true_iff, Nat.eqb_neq in Hne. destruct (R3 t' Ht' E1 E2) as [[H|H]|H]; [congruence|auto|auto]. }
      destruct (existsb _ ts) eqn:Ee; cbn [as_tasks as_cancels as_notified set_tasks log_notified]; (split; [exact Hts|]).
      * apply existsb_exists in Ee. destruct Ee as (t' & Ht' & He). apply andb_true_iff in He. destruct He as [He1 He2].
        apply Nat.eqb_eq in He1. unfold same_clean in He2. destruct (t_clean t') as [c1|] eqn:E3; [|discriminate].
        apply Nat.eqb_eq in He2. subst c1. destruct (Hts t' Ht') as [H|(x & Hx & _ & Hf)]; [congruence|assumption| |].
        -- left. intros ->. destruct H.
        -- right. right. exists x. auto.
      * right. left. apply in_or_app. right. left. congruence.
Qed.

Lemma clean_due w (n s : entity) c : Inv w ->
  (forall t, In t (as_tasks w) -> t_node t = n -> t_clean t <> Some c) ->
  (forall t, In t (as_tasks w) -> t_node t = n -> t_session t = s -> t_mode t = TRun \/ t_mode t = TCleaning) ->
  Due (step w (Clean n s c)) n c.
Proof.
  intros I Hf Hm. cbn [step]. unfold clean_node. set (w1 := log_cleaned _ _).
  assert (I1 : Inv w1) by (apply inv_clean_queue; assumption).
  destruct (map t_id (filter (listed n s) (as_tasks w1))) as [|x ids] eqn:E.
  - split.
    + cbn [as_tasks log_notified]. intros t Ht E1 E2. exfalso. apply (Hf t Ht E1 E2).
    + left. cbn [as_notified log_notified]. apply in_or_app. right. left. reflexivity.
  - rewrite <- E. assert (Hne : map t_id (filter (listed n s) (as_tasks w1)) <> []) by (rewrite E; discriminate).
    assert (Hls : forall t, listed n s t = true <-> t_node t = n /\ t_session t = s).
    { intros t. unfold listed. rewrite andb_true_iff, !Nat.eqb_eq. reflexivity. }
    clear E x ids. apply rem_fold; [apply inv_mark; assumption|].
    change (as_tasks w1) with (as_tasks w) in *. split; [|split; [|split]].
    + pose proof (v_ids w I) as Hn. revert Hn. clear. induction (as_tasks w) as [|t q IH]; cbn [map filter]; intros Hn; [constructor|].
      inversion Hn as [|? ? H1 H2]; subst. destruct (listed n s t); auto. cbn [map]. constructor; auto.
      intros H. apply H1. apply in_map_iff in H. destruct H as (y & <- & Hy). apply in_map. apply filter_In in Hy. apply Hy.
    + cbn [as_tasks set_tasks]. intros id Hi. apply in_map_iff in Hi. destruct Hi as (t & <- & Ht). apply filter_In in Ht. destruct Ht as [Ht El].
      eexists. split; [apply in_map_iff; exists t; split; [reflexivity|exact Ht]|]. rewrite El. cbn [t_id t_node t_clean t_mode].
      apply Hls in El. destruct El as [El1 El2]. split; [reflexivity|]. split; [exact El1|]. split; [reflexivity|]. apply Hm; assumption.
    + cbn [as_tasks set_tasks]. intros t Ht E1 E2. left. apply in_map_iff in Ht. destruct Ht as (t0 & Et & H0).
      destruct (listed n s t0) eqn:El; subst t.
      * cbn [t_id]. apply in_map_iff. exists t0. split; [reflexivity|]. apply filter_In. auto.
      * exfalso. apply (Hf t0 H0 E1 E2).
    + left. assumption.
Qed.

Lemma clean_notice w (n s : entity) c es : reachable w ->
  (forall t, In t (as_tasks w) -> t_node t = n -> t_clean t <> Some c) ->
  (forall t, In t (as_tasks w) -> t_node t = n -> t_session t = s -> t_mode t = TRun \/ t_mode t = TCleaning) ->
  (forall s', ~ In (Clean n s' c) es) ->
  let w' := run (step w (Clean n s c)) es in
  In (n, c) (as_notified w') \/ exists x, In x (as_cancels w') /\ c_node x = n /\ c_clean x = Some c.
Proof.
  intros Hr Hf Hm He w'. pose proof (inv_reachable w Hr) as I.
  apply (due_run es n c (step w (Clean n s c))); [apply inv_step; assumption|assumption|].
  apply clean_due; assumption.
Qed.

(** ** Unblocking *)

Lemma serial_tokens w : reachable w -> is_serial w -> as_stopfail w = [] ->
  length (working w) + length (as_unblock w) <= 1.
Proof.
  intros Hr Hs Hf. pose proof (inv_reachable w Hr) as I. pose proof (v_exact w I Hf None) as He.
  pose proof (working_weight w I Hs). destruct (s_delivering _); lia.
Qed.

Lemma reported_once w : reachable w -> NoDup (map fst (as_disp w)).
Proof.
  intros H. destruct (one_whereabouts w H) as [_ Hn]. unfold whereabouts in Hn.
  apply nodup_app in Hn. destruct Hn as (_ & Hn & _). apply nodup_app in Hn. destruct Hn as (_ & Hn & _).
  apply nodup_app in Hn. destruct Hn as (_ & Hn & _). apply nodup_app in Hn. tauto.
Qed.

End More.
