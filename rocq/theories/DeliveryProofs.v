(** Proofs about services: an invariant of all histories of an asynchronous service. *)
From Verif Require Import Base DeliveryModel DeliverySpec.

(** ** Subsequences and separation *)
Section Lists.
Context {A : Type}.
Implicit Types l m q : list A.

Lemma subseq_refl l : subsequence l l.
Proof. induction l; [constructor|]. apply subseq_take; assumption. Qed.

Lemma subseq_app l m l' m' : subsequence l m -> subsequence l' m' -> subsequence (l ++ l') (m ++ m').
Proof.
  induction 1; intros H'; cbn [app]; [assumption|apply subseq_skip; auto|apply subseq_take; auto].
Qed.

Lemma subseq_app_l l m m' : subsequence l m' -> subsequence l (m ++ m').
Proof. intros H. induction m as [|x m IH]; cbn [app]; [assumption|]. constructor. assumption. Qed.

Lemma subseq_trans l m q : subsequence l m -> subsequence m q -> subsequence l q.
Proof.
  intros H1 H2. revert l H1. induction H2 as [|x m q H2 IH|x m q H2 IH]; intros l H1.
  - assumption.
  - constructor. apply IH; assumption.
  - inversion H1 as [|y a b H E1 E2|y a b H E1 E2]; subst;
      [apply subseq_skip|apply subseq_take]; apply IH; assumption.
Qed.

Lemma subseq_nil_l l : subsequence [] l.
Proof. induction l; constructor; assumption. Qed.

Lemma subseq_filter (f : A -> bool) l : subsequence (filter f l) l.
Proof. induction l as [|x l IH]; cbn [filter]; [constructor|]. destruct (f x); [apply subseq_take|apply subseq_skip]; assumption. Qed.

Lemma subseq_map {B} (f : A -> B) l m : subsequence l m -> subsequence (map f l) (map f m).
Proof. induction 1; cbn [map]; [constructor|apply subseq_skip; assumption|apply subseq_take; assumption]. Qed.

Lemma separated_filter (P : A -> Prop) (f : A -> bool) l :
  (forall x, f x = true <-> P x) -> separated P l (filter f l) (filter (fun x => negb (f x)) l).
Proof.
  intros HP. induction l as [|x l IH]; cbn [filter]; [constructor|].
  destruct (f x) eqn:E; cbn [negb]; constructor; try assumption.
  - apply HP; assumption.
  - intros H. apply HP in H. congruence.
Qed.

Lemma filter_split_perm (f : A -> bool) l :
  Permutation l (filter f l ++ filter (fun x => negb (f x)) l).
Proof.
  induction l as [|x l IH]; cbn [filter app]; [constructor|].
  destruct (f x); cbn [negb app].
  - constructor. assumption.
  - apply Permutation_cons_app. assumption.
Qed.

Lemma nodup_app l m : NoDup (l ++ m) -> NoDup l /\ NoDup m /\ forall x, In x l -> In x m -> False.
Proof.
  induction l as [|y l IH]; cbn [app]; intros H.
  - split; [constructor|]. split; [assumption|]. intros x [].
  - inversion H as [|? ? H1 H2]; subst. destruct (IH H2) as (A1 & A2 & A3).
    rewrite in_app_iff in H1. split; [constructor; tauto|]. split; [assumption|].
    intros x [->|Hx] Hm; [tauto|]. apply (A3 x); assumption.
Qed.

Lemma remove_nth_split k l x r :
  remove_nth k l = Some (x, r) -> exists a b, l = a ++ x :: b /\ r = a ++ b.
Proof.
  revert k r. induction l as [|y l IH]; intros [|k] r; cbn [remove_nth]; try discriminate.
  - intros [= -> ->]. exists [], r. split; reflexivity.
  - destruct (remove_nth k l) as [[z r']|] eqn:E; [|discriminate].
    intros [= -> <-]. destruct (IH _ _ E) as (a & b & -> & ->).
    exists (y :: a), b. split; reflexivity.
Qed.

Lemma remove_nth_at (a b : list A) x : remove_nth (length a) (a ++ x :: b) = Some (x, a ++ b).
Proof. induction a as [|y a IH]; cbn [length app remove_nth]; [reflexivity|]. rewrite IH. reflexivity. Qed.

End Lists.

(** ** Lanes: the queue of a serial service, or of one label *)
Section Lanes.
Context {V : Type}.
Implicit Types (d : delivery V) (s : serial V) (w : asrv V) (o : order V) (ls : list (nat * serial V)).

Lemma lget_lset_eq l s ls : lget l (lset l s ls) = Some s.
Proof.
  induction ls as [|[l' s'] ls IH]; cbn [lset lget]; [rewrite Nat.eqb_refl; reflexivity|].
  destruct (Nat.eqb_spec l l') as [->|E]; cbn [lget].
  - rewrite Nat.eqb_refl. reflexivity.
  - destruct (Nat.eqb_spec l l'); [contradiction|]. assumption.
Qed.

Lemma lget_lset_neq l l' s ls : l' <> l -> lget l' (lset l s ls) = lget l' ls.
Proof.
  intros H. induction ls as [|[l2 s2] ls IH]; cbn [lset lget].
  - destruct (Nat.eqb_spec l' l); [contradiction|reflexivity].
  - destruct (Nat.eqb_spec l l2) as [->|E]; cbn [lget].
    + destruct (Nat.eqb_spec l' l2); [contradiction|reflexivity].
    + destruct (Nat.eqb_spec l' l2); [reflexivity|]. assumption.
Qed.

Lemma lset_keys l s ls : forall k, In k (map fst (lset l s ls)) <-> k = l \/ In k (map fst ls).
Proof.
  intros k. induction ls as [|[l' s'] ls IH]; cbn [lset map fst In].
  - intuition congruence.
  - destruct (Nat.eqb_spec l l') as [->|E]; cbn [map fst In].
    + intuition congruence.
    + rewrite IH. intuition congruence.
Qed.

Lemma lset_nodup l s ls : NoDup (map fst ls) -> NoDup (map fst (lset l s ls)).
Proof.
  induction ls as [|[l' s'] ls IH]; cbn [lset map fst]; intros H.
  - constructor; [intros []|constructor].
  - inversion H as [|? ? H1 H2]; subst. destruct (Nat.eqb_spec l l') as [->|E]; cbn [map fst].
    + constructor; assumption.
    + constructor; [|auto]. rewrite lset_keys. intros [E'|E']; [congruence|contradiction].
Qed.

Definition keys_ok d : Prop := match d with Serial _ => True | Parallel ls => NoDup (map fst ls) end.

(** Lanes are named [None] (the queue of a serial service) and [Some l]. *)
Definition valid d (k : option nat) : bool :=
  match d, k with Serial _, None => true | Parallel _, Some _ => true | _, _ => false end.

Definition serial_at d (k : option nat) : serial V :=
  match d, k with
  | Serial s, None => s
  | Parallel ls, Some l => match lget l ls with Some s => s | None => serial_new end
  | _, _ => serial_new
  end.

Definition upd d (k : option nat) s : delivery V :=
  match d, k with
  | Serial _, None => Serial s
  | Parallel ls, Some l => Parallel (lset l s ls)
  | _, _ => d
  end.

Definition lane d (i : option instr) : option (option nat) :=
  match d, i with
  | Serial _, _ => Some None
  | Parallel _, Some i => Some (Some (i_label i))
  | Parallel _, None => None
  end.

Definition expected d (i : option instr) : option (option nat) :=
  match d, i with
  | Serial _, i => Some (option_map i_label i)
  | Parallel _, Some i => Some (Some (i_label i))
  | Parallel _, None => None
  end.

Definition blane d (b : option nat) : option nat := match d with Serial _ => None | Parallel _ => b end.

Definition same_kind d d' : Prop :=
  match d, d' with Serial _, Serial _ => True | Parallel _, Parallel _ => True | _, _ => False end.

Definition known d (b : option nat) : Prop :=
  match d with Serial _ => True | Parallel ls => exists l, b = Some l /\ lget l ls <> None end.

Definition keqb (k k' : option nat) : bool :=
  match k, k' with
  | None, None => true
  | Some l, Some l' => Nat.eqb l l'
  | _, _ => false
  end.

Lemma keqb_spec k k' : reflect (k = k') (keqb k k').
Proof.
  destruct k as [l|], k' as [l'|]; cbn; try (constructor; congruence).
  destruct (Nat.eqb_spec l l'); constructor; congruence.
Qed.

Lemma keqb_refl k : keqb k k = true.
Proof. destruct (keqb_spec k k); congruence. Qed.

Definition holds d (k : option nat) (b : option (option nat)) : bool :=
  match b with Some b => keqb (blane d b) k | None => false end.

Definition hcount d k (bs : list (option (option nat))) : nat := length (filter (holds d k) bs).

Definition blockers w : list (option (option nat)) :=
  map t_block (as_tasks w) ++ map c_block (as_cancels w) ++ map Some (as_unblock w).

Definition weight w k : nat := hcount (as_del w) k (blockers w).

Lemma serial_at_upd_eq d k s : valid d k = true -> serial_at (upd d k s) k = s.
Proof.
  destruct d as [s'|ls], k as [l|]; cbn; try discriminate; intros _; [reflexivity|].
  rewrite lget_lset_eq. reflexivity.
Qed.

Lemma serial_at_upd_neq d k k' s : k' <> k -> serial_at (upd d k s) k' = serial_at d k'.
Proof.
  destruct d as [s'|ls], k as [l|], k' as [l'|]; cbn; try reflexivity; try congruence.
  intros H. rewrite lget_lset_neq by congruence. reflexivity.
Qed.

Lemma upd_kind d k s : same_kind d (upd d k s).
Proof. destruct d, k; cbn; exact I. Qed.

Lemma kind_refl d : same_kind d d.
Proof. destruct d; exact I. Qed.

Lemma kind_trans d1 d2 d3 : same_kind d1 d2 -> same_kind d2 d3 -> same_kind d1 d3.
Proof. destruct d1, d2, d3; cbn; auto; contradiction. Qed.

Lemma kind_blane d d' b : same_kind d d' -> blane d' b = blane d b.
Proof. destruct d, d'; cbn; auto; contradiction. Qed.

Lemma kind_expected d d' i : same_kind d d' -> expected d' i = expected d i.
Proof. destruct d, d', i; cbn; auto; contradiction. Qed.

Lemma kind_lane d d' i : same_kind d d' -> lane d' i = lane d i.
Proof. destruct d, d', i; cbn; auto; contradiction. Qed.

Lemma kind_valid d d' k : same_kind d d' -> valid d' k = valid d k.
Proof. destruct d, d', k; cbn; auto; contradiction. Qed.

Lemma kind_holds d d' k b : same_kind d d' -> holds d' k b = holds d k b.
Proof. intros H. destruct b as [b|]; cbn; [|reflexivity]. rewrite (kind_blane d d') by assumption. reflexivity. Qed.

Lemma kind_hcount d d' k bs : same_kind d d' -> hcount d' k bs = hcount d k bs.
Proof.
  intros H. unfold hcount. induction bs as [|b bs IH]; [reflexivity|]. cbn [filter].
  rewrite (kind_holds d d') by assumption. destruct (holds d k b); cbn [length]; auto.
Qed.

Lemma lane_valid d i k : lane d i = Some k -> valid d k = true.
Proof. destruct d, i; cbn; intros [= <-]; reflexivity. Qed.

Lemma lane_expected d i k : lane d i = Some k ->
  exists b, expected d i = Some b /\ blane d b = k.
Proof. destruct d, i; cbn; intros [= <-]; eexists; split; reflexivity. Qed.

Lemma lane_none_expected d i : lane d i = None -> expected d i = None.
Proof. destruct d, i; cbn; congruence. Qed.

Lemma expected_holds d i k : holds d k (expected d i) = true <-> lane d i = Some k.
Proof.
  unfold holds. destruct d as [s|ls], i as [i|]; cbn.
  - destruct k; cbn; split; congruence.
  - destruct k; cbn; split; congruence.
  - destruct k as [l|]; cbn; [|split; congruence].
    destruct (Nat.eqb_spec (i_label i) l); split; congruence.
  - split; congruence.
Qed.

Lemma insert_lane d o k : lane d (d_instr o) = Some k ->
  insert_new_order d o
  = (upd d k (fst (insert_serial_order (serial_at d k) o)), snd (insert_serial_order (serial_at d k) o)).
Proof.
  unfold insert_new_order. destruct d as [s|ls]; cbn [lane].
  - intros [= <-]. cbn [upd serial_at]. destruct (insert_serial_order s o); reflexivity.
  - destruct (d_instr o) as [i|]; [|discriminate]. intros [= <-]. cbn [upd serial_at].
    destruct (insert_serial_order _ o); reflexivity.
Qed.

Lemma insert_nolane d o : lane d (d_instr o) = None ->
  insert_new_order d o = (d, Immediate None (d_request o)).
Proof. unfold insert_new_order. destruct d as [s|ls]; cbn; [discriminate|]. destruct (d_instr o); congruence. Qed.

Lemma pop_lane d b : known d b ->
  pop_next d b = Some (upd d (blane d b) (fst (pop_impl (serial_at d (blane d b)))),
                       snd (pop_impl (serial_at d (blane d b)))).
Proof.
  destruct d as [s|ls]; cbn [known blane upd serial_at pop_next].
  - intros _. destruct (pop_impl s); reflexivity.
  - intros (l & -> & H). destruct (lget l ls) as [s|]; [|congruence].
    destruct (pop_impl s); reflexivity.
Qed.

Lemma known_upd d k s b : known d b -> known (upd d k s) b.
Proof.
  destruct d as [s'|ls]; cbn; [destruct k; cbn; auto|]. intros (l & -> & H). destruct k as [l'|]; cbn.
  - exists l. split; [reflexivity|]. destruct (Nat.eq_dec l l') as [->|E].
    + rewrite lget_lset_eq. discriminate.
    + rewrite lget_lset_neq by assumption. assumption.
  - exists l. auto.
Qed.

Lemma known_new d i k b s : lane d i = Some k -> expected d i = Some b -> known (upd d k s) b.
Proof.
  destruct d as [s'|ls], i as [i|]; cbn; intros [= <-] [= <-]; cbn; auto.
  exists (i_label i). split; [reflexivity|]. rewrite lget_lset_eq. discriminate.
Qed.

Lemma known_valid d b : known d b -> valid d (blane d b) = true.
Proof. destruct d; cbn; [reflexivity|]. intros (l & -> & _). reflexivity. Qed.

Lemma keys_upd d k s : keys_ok d -> keys_ok (upd d k s).
Proof. destruct d, k; cbn; auto. apply lset_nodup. Qed.

Lemma lset_queued l s ls :
  exists rest, Permutation (queued (Parallel ls))
                 (s_queue (match lget l ls with Some s => s | None => serial_new end) ++ rest) /\
               Permutation (queued (Parallel (lset l s ls))) (s_queue s ++ rest).
Proof.
  induction ls as [|[l' s'] ls IH]; cbn [lset lget].
  - exists []. cbn. split; constructor || rewrite app_nil_r; apply Permutation_refl.
  - destruct (Nat.eqb_spec l l') as [->|E].
    + exists (queued (Parallel ls)). cbn. split; apply Permutation_refl.
    + destruct IH as (rest & H1 & H2). exists (s_queue s' ++ rest). cbn [queued flat_map snd] in *. split.
      * rewrite H1. apply Permutation_app_swap_app.
      * rewrite H2. apply Permutation_app_swap_app.
Qed.

Lemma queued_upd d k s : valid d k = true ->
  exists rest, Permutation (queued d) (s_queue (serial_at d k) ++ rest) /\
               Permutation (queued (upd d k s)) (s_queue s ++ rest).
Proof.
  destruct d as [s'|ls], k as [l|]; cbn [valid]; try discriminate; intros _.
  - exists []. cbn. rewrite !app_nil_r. split; apply Permutation_refl.
  - apply (lset_queued l s ls).
Qed.

Lemma queued_in d k o : In o (s_queue (serial_at d k)) -> In o (queued d).
Proof.
  destruct (valid d k) eqn:E.
  - destruct (queued_upd d k serial_new E) as (rest & H & _). intros Hi.
    apply (Permutation_in _ (Permutation_sym H)). apply in_or_app. left. assumption.
  - destruct d, k; cbn in *; discriminate || contradiction.
Qed.

Lemma cleanup_kind d ss : same_kind d (delivery_cleanup d ss).
Proof. destruct d; exact I. Qed.

Lemma lget_map (f : serial V -> serial V) l ls :
  lget l (map (fun p => (fst p, f (snd p))) ls) = option_map f (lget l ls).
Proof.
  induction ls as [|[l' s'] ls IH]; cbn [map lget fst snd]; [reflexivity|].
  destruct (Nat.eqb l l'); [reflexivity|assumption].
Qed.

Lemma cleanup_serial_at d ss k : serial_at (delivery_cleanup d ss) k = serial_cleanup (serial_at d k) ss.
Proof.
  destruct d as [s|ls], k as [l|]; cbn [delivery_cleanup serial_at]; try reflexivity.
  rewrite (lget_map (fun s => serial_cleanup s ss)). destruct (lget l ls); reflexivity.
Qed.

Lemma cleanup_known d ss b : known d b -> known (delivery_cleanup d ss) b.
Proof.
  destruct d as [s|ls]; cbn; [auto|]. intros (l & -> & H). exists l. split; [reflexivity|].
  rewrite (lget_map (fun s => serial_cleanup s ss)). destruct (lget l ls); cbn; congruence.
Qed.

Lemma cleanup_keys d ss : keys_ok d -> keys_ok (delivery_cleanup d ss).
Proof. destruct d as [s|ls]; cbn; [auto|]. rewrite map_map. cbn. auto. Qed.

Lemma cleanup_queued d ss :
  queued (delivery_cleanup d ss) = filter (fun o => negb (Nat.eqb (d_session o) ss)) (queued d).
Proof.
  destruct d as [s|ls]; cbn [delivery_cleanup queued]; [reflexivity|].
  induction ls as [|[l s] ls IH]; cbn [map flat_map fst snd]; [reflexivity|].
  rewrite filter_app, IH. reflexivity.
Qed.

(** ** The invariant *)
Record Inv w : Prop := {
  v_panic : as_panic w = false;
  v_recv : as_recv w = seq 0 (as_next w);
  v_ledger : Permutation (as_recv w) (whereabouts w);
  v_ids : NoDup (map t_id (as_tasks w));
  v_closing : forall t, In t (as_tasks w) -> running t = false ->
      In (t_id t) (map c_task (as_cancels w)) /\ t_block t = None;
  v_tblock : forall t, In t (as_tasks w) -> running t = true ->
      t_block t = expected (as_del w) (t_instr t);
  v_cblock : forall c, In c (as_cancels w) -> c_block c = expected (as_del w) (c_instr c);
  v_known : forall b, In (Some b) (blockers w) -> known (as_del w) b;
  v_keys : keys_ok (as_del w);
  v_lane : forall k o, In o (s_queue (serial_at (as_del w) k)) -> lane (as_del w) (d_instr o) = Some k;
  v_idle : forall k, s_delivering (serial_at (as_del w) k) = None ->
      s_queue (serial_at (as_del w) k) = [];
  v_busy : forall k, s_delivering (serial_at (as_del w) k) <> None -> weight w k >= 1;
  v_exact : as_stopfail w = [] -> forall k,
      weight w k = match s_delivering (serial_at (as_del w) k) with Some _ => 1 | None => 0 end;
  v_ident : as_stopfail w = [] -> forall k t, In t (as_tasks w) ->
      holds (as_del w) k (t_block t) = true ->
      s_delivering (serial_at (as_del w) k)
      = Some (mk_active (t_node t) (t_session t) (t_id t) (t_instr t));
  v_order : forall s, as_del w = Serial s ->
      subsequence (as_start w ++ map d_task (s_queue s)) (as_recv w) }.

Lemma inv_new d w : (d = Serial serial_new \/ d = Parallel []) -> w = asrv_new d -> Inv w.
Proof.
  intros Hd ->. destruct Hd as [-> | ->]; constructor; cbn; try reflexivity; try contradiction;
    try discriminate; auto; try constructor; try (intros [l|]; cbn; intros; contradiction || reflexivity).
  - intros _ [l|]; reflexivity.
  - intros s [= <-]. cbn. constructor.
  - intros _ [l|]; reflexivity.
Qed.

Lemma hcount_app d k a b : hcount d k (a ++ b) = hcount d k a + hcount d k b.
Proof. unfold hcount. rewrite filter_app, app_length. reflexivity. Qed.

Lemma hcount_perm d k a b : Permutation a b -> hcount d k a = hcount d k b.
Proof.
  intros H. unfold hcount. induction H; cbn [filter]; auto.
  - destruct (holds d k x); cbn [length]; auto.
  - destruct (holds d k x), (holds d k y); reflexivity.
  - congruence.
Qed.

Lemma hcount_cons d k b bs : hcount d k (b :: bs) = (if holds d k b then 1 else 0) + hcount d k bs.
Proof. unfold hcount. cbn [filter]. destruct (holds d k b); reflexivity. Qed.

Lemma hcount_in d k b bs : In b bs -> holds d k b = true -> hcount d k bs >= 1.
Proof.
  intros Hi Hb. induction bs as [|x bs IH]; [destruct Hi|]. rewrite hcount_cons.
  destruct Hi as [->|Hi]; [rewrite Hb; lia|]. specialize (IH Hi). lia.
Qed.

Lemma hcount_zero d k b bs : hcount d k bs = 0 -> In b bs -> holds d k b = false.
Proof.
  intros H Hi. destruct (holds d k b) eqn:E; [|reflexivity].
  pose proof (hcount_in d k b bs Hi E). lia.
Qed.

Lemma hcount_pos d k bs : hcount d k bs >= 1 -> exists b, In b bs /\ holds d k b = true.
Proof.
  induction bs as [|x bs IH]; [cbn; lia|]. rewrite hcount_cons. destruct (holds d k x) eqn:E.
  - intros _. exists x. split; [left; reflexivity|assumption].
  - intros H. destruct IH as (b & Hb & Hh); [lia|]. exists b. split; [right|]; assumption.
Qed.

(** Splitting the task list at a task. *)
Lemma find_task_split ts id t : find_task ts id = Some t -> NoDup (map t_id ts) ->
  exists a b, ts = a ++ t :: b /\ t_id t = id /\
    (forall f, map_task id f ts = a ++ f t :: b) /\
    filter (fun t => negb (Nat.eqb (t_id t) id)) ts = a ++ b.
Proof.
  unfold find_task. induction ts as [|x ts IH]; cbn [find]; [discriminate|].
  destruct (Nat.eqb_spec (t_id x) id) as [E|E].
  - intros [= ->] Hn. inversion Hn as [|? ? Hx Hn']; subst. exists [], ts. split; [reflexivity|].
    split; [reflexivity|].
    assert (Ho : forall y, In y ts -> Nat.eqb (t_id y) (t_id t) = false).
    { intros y Hy. apply Nat.eqb_neq. intros Ey. apply Hx. rewrite <- Ey. apply in_map. assumption. }
    split.
    + intros f. unfold map_task. cbn [map app]. rewrite Nat.eqb_refl. f_equal.
      rewrite <- (map_id ts) at 2. apply map_ext_in. intros y Hy. rewrite Ho by assumption. reflexivity.
    + cbn [filter app]. rewrite Nat.eqb_refl. cbn [negb].
      clear IH Hx Hn Hn'. induction ts as [|y ts IH]; cbn [filter]; [reflexivity|].
      rewrite (Ho y) by (left; reflexivity). cbn [negb]. f_equal. apply IH.
      intros z Hz. apply Ho. right. assumption.
  - intros Hf Hn. inversion Hn as [|? ? Hx Hn']; subst.
    destruct (IH Hf Hn') as (a & b & -> & Ht & Hm & Hfl). exists (x :: a), b.
    split; [reflexivity|]. split; [assumption|]. split.
    + intros f. unfold map_task. cbn [map app]. destruct (Nat.eqb_spec (t_id x) id); [contradiction|].
      f_equal. apply Hm.
    + cbn [filter app]. destruct (Nat.eqb_spec (t_id x) id); [contradiction|]. cbn [negb]. f_equal. assumption.
Qed.

Lemma find_task_none ts id : find_task ts id = None -> ~ In id (map t_id ts).
Proof.
  unfold find_task. intros H Hi. apply in_map_iff in Hi. destruct Hi as (t & <- & Ht).
  apply (find_none _ _ H) in Ht. rewrite Nat.eqb_refl in Ht. discriminate.
Qed.

Lemma find_task_in ts t : In t ts -> NoDup (map t_id ts) -> find_task ts (t_id t) = Some t.
Proof.
  unfold find_task. induction ts as [|x ts IH]; intros Hi Hn; [destruct Hi|].
  inversion Hn as [|? ? Hx Hn']; subst. cbn [find]. destruct Hi as [->|Hi].
  - rewrite Nat.eqb_refl. reflexivity.
  - destruct (Nat.eqb_spec (t_id x) (t_id t)) as [E|E]; [|auto].
    exfalso. apply Hx. rewrite E. apply in_map. assumption.
Qed.


(** ** Each operation keeps the invariant *)

(** A running task starts being cancelled. *)
Lemma inv_capture w t m cl ca : Inv w -> In t (as_tasks w) -> running t = true -> m <> TRun ->
  Inv (set_cancels (set_tasks w (map_task (t_id t) (with_mode m) (as_tasks w)))
         (as_cancels w ++ [capture t cl ca])).
Proof.
  intros I Ht Hr Hm. pose proof (v_ids w I) as Hids.
  destruct (find_task_split _ _ _ (find_task_in _ _ Ht Hids) Hids) as (a & b & Ets & _ & Hmap & _).
  assert (Hr' : running (with_mode m t) = false) by (destruct m; [congruence|reflexivity..]).
  pose proof (v_tblock w I t Ht Hr) as Hb.
  assert (Hbl : Permutation (blockers (set_cancels (set_tasks w (map_task (t_id t) (with_mode m) (as_tasks w)))
         (as_cancels w ++ [capture t cl ca]))) (None :: blockers w)).
  { unfold blockers. cbn [as_tasks as_cancels as_unblock set_cancels set_tasks].
    rewrite Hmap, Ets, !map_app. cbn [map app t_block with_mode capture c_block].
    rewrite <- !app_assoc.
    transitivity (None :: map t_block a ++ map t_block b ++ map c_block (as_cancels w) ++
                    t_block t :: map Some (as_unblock w)).
    { apply Permutation_sym, Permutation_cons_app. apply Permutation_refl. }
    constructor. apply Permutation_app_head. cbn [app].
    change (t_block t :: map t_block b ++ map c_block (as_cancels w) ++ map Some (as_unblock w))
      with ([t_block t] ++ map t_block b ++ map c_block (as_cancels w) ++ map Some (as_unblock w)).
    change (t_block t :: map Some (as_unblock w)) with ([t_block t] ++ map Some (as_unblock w)). perm. }
  assert (Hw : forall k, weight (set_cancels (set_tasks w (map_task (t_id t) (with_mode m) (as_tasks w)))
         (as_cancels w ++ [capture t cl ca])) k = weight w k).
  { intros k. unfold weight. rewrite (hcount_perm _ _ _ _ Hbl). cbn [as_del set_cancels set_tasks].
    rewrite hcount_cons. reflexivity. }
  destruct I as [I1 I2 I3 I4 I5 I6 I7 I8 I9 I10 I11 I12 I13 I14 I15].
  constructor; try (intros; rewrite Hw); cbn [as_panic as_recv as_next as_del as_tasks as_cancels as_stopfail
    as_start set_cancels set_tasks]; auto.
  - rewrite I3. unfold whereabouts, waiting, working.
    cbn [as_del as_tasks as_cancels as_done as_disp as_cleaned as_dropped set_cancels set_tasks].
    rewrite Hmap, Ets, !filter_app, !map_app. cbn [filter]. rewrite Hr, Hr'. cbn [map capture c_task].
    apply Permutation_app_head. rewrite <- !app_assoc. apply Permutation_app_head.
    change (t_id t :: map t_id (filter running b)) with ([t_id t] ++ map t_id (filter running b)).
    perm.
  - rewrite Hmap. rewrite Ets in Hids. rewrite map_app in *. exact Hids.
  - intros t' Ht' Hr2. rewrite Hmap in Ht'. rewrite map_app, in_app_iff.
    apply in_app_or in Ht'. destruct Ht' as [Ht'|[<-|Ht']].
    + destruct (I5 t') as [H1 H2]; auto. rewrite Ets. apply in_or_app. left. assumption.
    + cbn. auto.
    + destruct (I5 t') as [H1 H2]; auto. rewrite Ets. apply in_or_app. right. right. assumption.
  - intros t' Ht' Hr2. rewrite Hmap in Ht'. apply in_app_or in Ht'. destruct Ht' as [Ht'|[<-|Ht']].
    + apply I6; [|assumption]. rewrite Ets. apply in_or_app. left. assumption.
    + congruence.
    + apply I6; [|assumption]. rewrite Ets. apply in_or_app. right. right. assumption.
  - intros c Hc. apply in_app_or in Hc. destruct Hc as [Hc|[<-|[]]]; [auto|]. exact Hb.
  - intros b' Hb'. apply I8. apply (Permutation_in _ Hbl) in Hb'. destruct Hb' as [Hb'|Hb']; [discriminate|assumption].
  - intros Hs k t' Ht' Hh. rewrite Hmap in Ht'. apply (I14 Hs k); [|assumption].
    rewrite Ets. apply in_or_app. apply in_app_or in Ht'. destruct Ht' as [Ht'|[<-|Ht']].
    + left; assumption.
    + discriminate.
    + right. right. assumption.
Qed.

(** Only bookkeeping changes. *)
Lemma inv_same w w' :
  as_panic w' = as_panic w -> as_recv w' = as_recv w -> as_next w' = as_next w ->
  as_del w' = as_del w -> as_unblock w' = as_unblock w -> as_cancels w' = as_cancels w ->
  as_start w' = as_start w -> as_done w' = as_done w -> as_disp w' = as_disp w ->
  as_cleaned w' = as_cleaned w -> as_dropped w' = as_dropped w -> as_stopfail w' = as_stopfail w ->
  map (fun t => (t_id t, t_node t, t_session t, t_instr t, t_block t, running t)) (as_tasks w')
  = map (fun t => (t_id t, t_node t, t_session t, t_instr t, t_block t, running t)) (as_tasks w) ->
  Inv w -> Inv w'.
Proof.
  intros E1 E2 E3 E4 E5 E6 E7 E8 E9 E10 E11 E12 Ets I.
  assert (Hin : forall t, In t (as_tasks w') -> exists t0, In t0 (as_tasks w) /\ t_id t = t_id t0 /\
    t_node t = t_node t0 /\ t_session t = t_session t0 /\ t_instr t = t_instr t0 /\
    t_block t = t_block t0 /\ running t = running t0).
  { intros t Ht.
    assert (H : In (t_id t, t_node t, t_session t, t_instr t, t_block t, running t)
              (map (fun t => (t_id t, t_node t, t_session t, t_instr t, t_block t, running t)) (as_tasks w))).
    { rewrite <- Ets. apply (in_map (fun t => (t_id t, t_node t, t_session t, t_instr t, t_block t, running t))). assumption. }
    apply in_map_iff in H. destruct H as (t0 & H & H0). injection H as H1 H2 H3 H4 H5 H6. exists t0.
    repeat split; auto. }
  assert (Hmid : map t_id (as_tasks w') = map t_id (as_tasks w)).
  { apply (f_equal (map (fun p => match p with (i,_,_,_,_,_) => i end))) in Ets.
    rewrite !map_map in Ets. exact Ets. }
  assert (Hmb : map t_block (as_tasks w') = map t_block (as_tasks w)).
  { apply (f_equal (map (fun p => match p with (_,_,_,_,b,_) => b end))) in Ets.
    rewrite !map_map in Ets. exact Ets. }
  assert (Hmr : map t_id (filter running (as_tasks w')) = map t_id (filter running (as_tasks w))).
  { clear Hin Hmid Hmb I. revert Ets. generalize (as_tasks w). induction (as_tasks w') as [|t ts IH]; intros [|t' ts'];
      cbn [map filter]; try discriminate; [reflexivity|].
    intros H. assert (Hc : (t_id t, t_node t, t_session t, t_instr t, t_block t, running t) =
      (t_id t', t_node t', t_session t', t_instr t', t_block t', running t')) by congruence.
    injection Hc as H1 _ _ _ _ H6. rewrite H6.
    assert (Ht : map (fun t => (t_id t, t_node t, t_session t, t_instr t, t_block t, running t)) ts =
      map (fun t => (t_id t, t_node t, t_session t, t_instr t, t_block t, running t)) ts') by congruence.
    specialize (IH _ Ht). destruct (running t'); cbn [map]; congruence. }
  assert (Hbl : blockers w' = blockers w) by (unfold blockers; congruence).
  assert (Hw : forall k, weight w' k = weight w k) by (intros k; unfold weight; congruence).
  destruct I as [I1 I2 I3 I4 I5 I6 I7 I8 I9 I10 I11 I12 I13 I14 I15].
  constructor; rewrite ?Hbl, ?E1, ?E2, ?E3, ?E4, ?E6, ?E7, ?E12, ?Hmid; auto.
  - unfold whereabouts, waiting, working in *. rewrite E4, E6, E8, E9, E10, E11, Hmr. assumption.
  - intros t Ht Hr. destruct (Hin t Ht) as (t0 & H0 & Q1 & Q2 & Q3 & Q4 & Q5 & Q6).
    rewrite Q1, Q5. apply I5; congruence.
  - intros t Ht Hr. destruct (Hin t Ht) as (t0 & H0 & Q1 & Q2 & Q3 & Q4 & Q5 & Q6).
    rewrite Q5, Q4. apply I6; congruence.
  - intros k' H'. rewrite Hw. apply I12; assumption.
  - intros Hs k'. rewrite Hw. apply I13; assumption.
  - intros Hs k t Ht Hh. destruct (Hin t Ht) as (t0 & H0 & Q1 & Q2 & Q3 & Q4 & Q5 & Q6).
    rewrite Q1, Q2, Q3, Q4. apply I14; congruence.
Qed.

Lemma inv_mode w id m : Inv w -> m <> TRun ->
  (forall t, find_task (as_tasks w) id = Some t -> running t = false) ->
  Inv (set_tasks w (map_task id (with_mode m) (as_tasks w))).
Proof.
  intros I Hm Hf. destruct (find_task (as_tasks w) id) as [t|] eqn:E.
  - specialize (Hf t eq_refl). pose proof (v_ids w I) as Hids.
    destruct (find_task_split _ _ _ E Hids) as (a & b & Ets & Eid & Hmap & _).
    assert (Hb : t_block t = None).
    { apply (v_closing w I); [|assumption]. rewrite Ets. apply in_or_app. right. left. reflexivity. }
    refine (inv_same w _ _ _ _ _ _ _ _ _ _ _ _ _ _ I); try reflexivity.
    cbn [as_tasks set_tasks]. rewrite Hmap, Ets, !map_app. cbn [map with_mode t_id t_node t_session t_instr t_block].
    f_equal. f_equal. rewrite Hb, Hf. repeat f_equal. destruct m; [congruence|reflexivity..].
  - refine (inv_same w _ _ _ _ _ _ _ _ _ _ _ _ _ _ I); try reflexivity.
    cbn [as_tasks set_tasks]. f_equal. unfold map_task. rewrite <- map_id. apply map_ext_in. intros t Ht.
    destruct (Nat.eqb_spec (t_id t) id) as [E'|]; [|reflexivity].
    apply find_task_none in E. exfalso. apply E. rewrite <- E'. apply in_map. assumption.
Qed.

(** A task which is no longer running leaves the list of its node. *)
Lemma inv_unlist w id : Inv w ->
  (forall t, find_task (as_tasks w) id = Some t -> running t = false) ->
  Inv (set_tasks w (filter (fun t => negb (Nat.eqb (t_id t) id)) (as_tasks w))).
Proof.
  intros I Hf. destruct (find_task (as_tasks w) id) as [t|] eqn:E.
  - specialize (Hf t eq_refl). pose proof (v_ids w I) as Hids.
    destruct (find_task_split _ _ _ E Hids) as (a & b & Ets & Eid & _ & Hfil).
    assert (Hin : In t (as_tasks w)) by (rewrite Ets; apply in_or_app; right; left; reflexivity).
    assert (Hb : t_block t = None) by (apply (v_closing w I); assumption).
    assert (Hsub : forall t', In t' (a ++ b) -> In t' (as_tasks w)).
    { intros t' H. rewrite Ets. apply in_app_or in H. apply in_or_app. destruct H; [left|right; right]; assumption. }
    assert (Hbl : Permutation (blockers w) (None :: blockers (set_tasks w (a ++ b)))).
    { unfold blockers. cbn [as_tasks set_tasks as_cancels as_unblock]. rewrite Ets, !map_app. cbn [map].
      rewrite Hb, <- !app_assoc. apply Permutation_sym, Permutation_cons_app. apply Permutation_refl. }
    assert (Hw : forall k, weight (set_tasks w (a ++ b)) k = weight w k).
    { intros k. unfold weight. rewrite (hcount_perm _ _ _ _ Hbl). reflexivity. }
    rewrite Hfil.
    destruct I as [I1 I2 I3 I4 I5 I6 I7 I8 I9 I10 I11 I12 I13 I14 I15].
    constructor; try (intros; rewrite Hw);
      cbn [as_panic as_recv as_next as_del as_tasks as_cancels as_stopfail as_start set_tasks]; auto.
    + rewrite I3. unfold whereabouts, waiting, working.
      cbn [as_del as_tasks as_cancels as_done as_disp as_cleaned as_dropped set_tasks].
      rewrite Ets, !filter_app. cbn [filter]. rewrite Hf. apply Permutation_refl.
    + rewrite Ets, map_app in Hids. cbn [map] in Hids. rewrite map_app.
      apply NoDup_remove_1 in Hids. assumption.
    + intros b' Hb'. apply I8. apply (Permutation_in _ (Permutation_sym Hbl)). right. assumption.
  - refine (inv_same w _ _ _ _ _ _ _ _ _ _ _ _ _ _ I); try reflexivity.
    cbn [as_tasks set_tasks]. f_equal. apply find_task_none in E.
    assert (H : forall t, In t (as_tasks w) -> negb (Nat.eqb (t_id t) id) = true).
    { intros t Ht. apply negb_true_iff, Nat.eqb_neq. intros E'. apply E. rewrite <- E'. apply in_map. assumption. }
    revert H. generalize (as_tasks w). induction l as [|x l IH]; intros H; cbn [filter]; [reflexivity|].
    rewrite (H x) by (left; reflexivity). f_equal. apply IH. intros t Ht. apply H. right. assumption.
Qed.

Lemma inv_notified w l : Inv w -> Inv (log_notified w l).
Proof. intros I. refine (inv_same w _ _ _ _ _ _ _ _ _ _ _ _ _ _ I); reflexivity. Qed.

(** A spurious unblocking after a failure to stop. *)
Lemma inv_stopfail w id b : Inv w -> known (as_del w) b ->
  Inv (set_unblock (log_stopfail w id) (as_unblock w ++ [b])).
Proof.
  intros [I1 I2 I3 I4 I5 I6 I7 I8 I9 I10 I11 I12 I13 I14 I15] Hk.
  assert (Hbl : blockers (set_unblock (log_stopfail w id) (as_unblock w ++ [b])) = blockers w ++ [Some b]).
  { unfold blockers. cbn [as_tasks as_cancels as_unblock set_unblock log_stopfail]. rewrite map_app, !app_assoc. reflexivity. }
  constructor;
    cbn [as_panic as_recv as_next as_del as_tasks as_cancels as_stopfail as_start set_unblock log_stopfail]; auto.
  - intros b'. rewrite Hbl, in_app_iff. intros [H|[[= <-]|[]]]; auto.
  - intros k H. unfold weight. rewrite Hbl. cbn [as_del set_unblock log_stopfail]. rewrite hcount_app.
    specialize (I12 k H). unfold weight in I12. lia.
  - intros H. destruct (as_stopfail w); discriminate.
  - intros H. destruct (as_stopfail w); discriminate.
Qed.

(** A running task finishes. *)
Lemma inv_done w t : Inv w -> In t (as_tasks w) -> running t = true ->
  Inv (cleanup_task (log_done w (t_id t)) (t_id t) (t_node t) (t_block t) None).
Proof.
  intros I Ht Hr. pose proof (v_ids w I) as Hids.
  destruct (find_task_split _ _ _ (find_task_in _ _ Ht Hids) Hids) as (a & b & Ets & _ & _ & Hfil).
  set (w' := cleanup_task _ _ _ _ _).
  assert (Et : as_tasks w' = a ++ b).
  { unfold w', cleanup_task. destruct (t_block t); cbn [as_tasks set_tasks set_unblock log_done]; assumption. }
  assert (Hsub : forall t', In t' (a ++ b) -> In t' (as_tasks w)).
  { intros t' H. rewrite Ets. apply in_app_or in H. apply in_or_app. destruct H; [left|right; right]; assumption. }
  assert (Hbl : Permutation (blockers w) (match t_block t with Some _ => [] | None => [None] end ++ blockers w')).
  { unfold blockers. rewrite Et. unfold w', cleanup_task.
    destruct (t_block t) as [l|] eqn:E; cbn [as_cancels as_unblock set_tasks set_unblock log_done];
      rewrite Ets, !map_app; cbn [map]; rewrite E.
    - change (Some l :: map t_block b) with ([Some l] ++ map t_block b).
      change ([] ++ (map t_block a ++ map t_block b) ++ map c_block (as_cancels w) ++ map Some (as_unblock w) ++ [Some l])
        with ((map t_block a ++ map t_block b) ++ map c_block (as_cancels w) ++ map Some (as_unblock w) ++ [Some l]).
      perm.
    - cbn [app]. rewrite <- !app_assoc. apply Permutation_sym, Permutation_cons_app. apply Permutation_refl. }
  assert (Ed : as_del w' = as_del w) by (unfold w', cleanup_task; destruct (t_block t); reflexivity).
  assert (Hw : forall k, weight w' k = weight w k).
  { intros k. unfold weight. rewrite (hcount_perm _ _ _ _ Hbl), Ed, hcount_app. destruct (t_block t); reflexivity. }
  assert (Ec : as_cancels w' = as_cancels w) by (unfold w', cleanup_task; destruct (t_block t); reflexivity).
  assert (Es : as_stopfail w' = as_stopfail w) by (unfold w', cleanup_task; destruct (t_block t); reflexivity).
  assert (Er : as_recv w' = as_recv w /\ as_next w' = as_next w /\ as_panic w' = as_panic w /\
    as_start w' = as_start w /\ as_done w' = as_done w ++ [t_id t] /\ as_disp w' = as_disp w /\
    as_cleaned w' = as_cleaned w /\ as_dropped w' = as_dropped w)
    by (unfold w', cleanup_task; destruct (t_block t); repeat split; reflexivity).
  destruct Er as (Er & En & Ep & Est & Edn & Edi & Ecl & Edr).
  destruct I as [I1 I2 I3 I4 I5 I6 I7 I8 I9 I10 I11 I12 I13 I14 I15].
  constructor; rewrite ?Ed, ?Ec, ?Es, ?Er, ?En, ?Ep, ?Est, ?Et; auto.
  - rewrite I3. unfold whereabouts, waiting, working. rewrite Ed, Et, Ec, Edn, Edi, Ecl, Edr.
    rewrite Ets, !filter_app, !map_app. cbn [filter]. rewrite Hr. cbn [map].
    apply Permutation_app_head. rewrite <- !app_assoc. apply Permutation_app_head.
    change (t_id t :: map t_id (filter running b)) with ([t_id t] ++ map t_id (filter running b)).
    perm.
  - rewrite Ets, map_app in Hids. cbn [map] in Hids. rewrite map_app. apply NoDup_remove_1 in Hids. assumption.
  - intros b' Hb'. apply I8. apply (Permutation_in _ (Permutation_sym Hbl)). apply in_or_app. right. assumption.
  - intros k' H'. rewrite Hw. apply I12; assumption.
  - intros Hs k'. rewrite Hw. apply I13; assumption.
Qed.

(** A cancellation completes. *)
Lemma inv_cancelled w k : Inv w -> Inv (cancelled w k).
Proof.
  intros I. unfold cancelled. destruct (remove_nth k (as_cancels w)) as [[c cs]|] eqn:E; [|assumption].
  destruct (remove_nth_split _ _ _ _ E) as (a & b & Ecs & ->). clear E.
  set (w1 := match c_cause c with Some r => _ | None => _ end).
  pose proof (v_ids w I) as Hids. pose proof (v_ledger w I) as Hled.
  assert (Hnd : NoDup (whereabouts w)).
  { apply (Permutation_NoDup Hled). rewrite (v_recv w I). apply seq_NoDup. }
  assert (Hnorun : forall t, In t (as_tasks w) -> t_id t = c_task c -> running t = false).
  { intros t Ht Eid. destruct (running t) eqn:Er; [|reflexivity]. exfalso.
    unfold whereabouts in Hnd. apply nodup_app in Hnd. destruct Hnd as (_ & Hnd & _).
    apply nodup_app in Hnd. destruct Hnd as (Hnd & _ & _).
    unfold working in Hnd. apply nodup_app in Hnd. destruct Hnd as (_ & _ & Hnd).
    apply (Hnd (c_task c)).
    - rewrite <- Eid. apply in_map. apply filter_In. split; assumption.
    - rewrite Ecs. apply in_map. apply in_or_app. right. left. reflexivity. }
  set (ts := filter (fun t => negb (Nat.eqb (t_id t) (c_task c))) (as_tasks w)).
  assert (Et : as_tasks w1 = ts).
  { unfold w1, cleanup_task. destruct (c_cause c), (c_block c), (c_clean c); try reflexivity;
      cbn [as_tasks set_tasks set_unblock set_cancels]; destruct (existsb _ _); reflexivity. }
  assert (Eother : as_del w1 = as_del w /\ as_recv w1 = as_recv w /\ as_next w1 = as_next w /\
    as_panic w1 = as_panic w /\ as_start w1 = as_start w /\ as_done w1 = as_done w /\
    as_dropped w1 = as_dropped w /\ as_stopfail w1 = as_stopfail w /\ as_cancels w1 = a ++ b /\
    as_unblock w1 = as_unblock w ++ match c_block c with Some l => [l] | None => [] end /\
    Permutation (map fst (as_disp w1) ++ as_cleaned w1) (c_task c :: map fst (as_disp w) ++ as_cleaned w)).
  { unfold w1, cleanup_task.
    destruct (c_cause c) as [r|], (c_block c), (c_clean c);
      repeat match goal with |- context [existsb ?f ?l] => destruct (existsb f l) end;
      cbn [as_del as_recv as_next as_panic as_start as_done as_dropped as_stopfail as_cancels as_unblock
           as_disp as_cleaned log_disp log_cleaned log_notified set_tasks set_unblock set_cancels];
      rewrite ?app_nil_r; repeat split; rewrite ?map_app; cbn [map fst];
      rewrite <- ?app_assoc; cbn [app].
    all: try (apply Permutation_sym, Permutation_cons_app; apply Permutation_refl).
    all: rewrite app_assoc; apply Permutation_sym, Permutation_cons_append. }
  destruct Eother as (Ed & Er & En & Ep & Est & Edn & Edr & Es & Ec & Eu & Hlog).
  assert (Hsub : forall t', In t' ts -> In t' (as_tasks w) /\ t_id t' <> c_task c).
  { intros t' H. apply filter_In in H. destruct H as [H1 H2]. split; [assumption|].
    apply negb_true_iff, Nat.eqb_neq in H2. assumption. }
  assert (Hrun : filter running ts = filter running (as_tasks w)).
  { unfold ts. clear - Hnorun. induction (as_tasks w) as [|t l IH]; [reflexivity|]. cbn [filter].
    assert (IH' := IH (fun t' H => Hnorun t' (or_intror H))).
    destruct (Nat.eqb_spec (t_id t) (c_task c)) as [E'|E']; cbn [negb filter].
    - rewrite (Hnorun t (or_introl eq_refl) E'). exact IH'.
    - destruct (running t); [f_equal|]; exact IH'. }
  assert (Hblk : exists n, Permutation (map t_block (as_tasks w)) (repeat None n ++ map t_block ts)).
  { unfold ts. pose proof (v_closing w I) as Hcl. clear - Hnorun Hcl.
    induction (as_tasks w) as [|t l IH]; [exists 0; constructor|].
    destruct IH as (n & IH).
    { intros t' H. apply Hnorun. right; assumption. }
    { intros t' H. apply Hcl. right; assumption. }
    cbn [filter map]. destruct (Nat.eqb_spec (t_id t) (c_task c)) as [E'|E']; cbn [negb map].
    - exists (S n). destruct (Hcl t (or_introl eq_refl) (Hnorun t (or_introl eq_refl) E')) as [_ ->].
      cbn [repeat app]. constructor. assumption.
    - exists n. apply Permutation_cons_app. assumption. }
  destruct Hblk as (n & Hblk).
  assert (Hbl : Permutation (blockers w) ((repeat None n ++ match c_block c with Some _ => [] | None => [None] end)
      ++ blockers w1)).
  { unfold blockers. rewrite Et, Ec, Eu, Hblk, Ecs, !map_app. cbn [map]. destruct (c_block c) as [l|]; cbn [map].
    - change (Some l :: map c_block b) with ([Some l] ++ map c_block b). rewrite app_nil_r. perm.
    - change (None :: map c_block b) with ([None] ++ map c_block b). rewrite app_nil_r. perm. }
  assert (Hnone : forall d k m, hcount d k (repeat None m) = 0).
  { intros d k0 m. induction m as [|m IH]; cbn [repeat]; [reflexivity|]. rewrite hcount_cons. exact IH. }
  assert (Hw : forall k, weight w1 k = weight w k).
  { intros k'. unfold weight. rewrite (hcount_perm _ _ _ _ Hbl), Ed, !hcount_app, Hnone.
    destruct (c_block c); reflexivity. }
  clearbody w1. 
  destruct I as [I1 I2 I3 I4 I5 I6 I7 I8 I9 I10 I11 I12 I13 I14 I15].
  constructor; rewrite ?Ed, ?Ec, ?Es, ?Er, ?En, ?Ep, ?Est, ?Et; auto.
  - rewrite I3. unfold whereabouts, waiting, working. rewrite Ed, Et, Ec, Edn, Edr, Hrun, Ecs, !map_app.
    cbn [map]. apply Permutation_app_head. rewrite <- !app_assoc. apply Permutation_app_head.
    change (c_task c :: map c_task b) with ([c_task c] ++ map c_task b).
    change (c_task c :: map fst (as_disp w) ++ as_cleaned w)
      with ([c_task c] ++ map fst (as_disp w) ++ as_cleaned w) in Hlog.
    rewrite <- !app_assoc. apply Permutation_app_head.
    transitivity (map c_task b ++ as_done w ++ ([c_task c] ++ map fst (as_disp w) ++ as_cleaned w) ++ as_dropped w);
      [perm|].
    apply Permutation_app_head, Permutation_app_head. rewrite (app_assoc (map fst (as_disp w1))).
    apply Permutation_app_tail. apply Permutation_sym. exact Hlog.
  - unfold ts. clear - Hids. induction (as_tasks w) as [|t l IH]; [constructor|]. inversion Hids; subst.
    cbn [filter]. destruct (negb _); [|auto]. cbn [map]. constructor; [|auto].
    intros H. apply H1. apply in_map_iff in H. destruct H as (x & <- & Hx). apply in_map.
    apply filter_In in Hx. apply Hx.
  - intros t Ht Hr. apply Hsub in Ht. destruct Ht as [Ht Hne]. destruct (I5 t Ht Hr) as [H1 H2].
    split; [|assumption]. revert H1. rewrite Ecs, !map_app, !in_app_iff. cbn [map In]. intuition congruence.
  - intros t Ht Hr. apply I6; [|assumption]. apply Hsub; assumption.
  - intros c' Hc'. apply I7. rewrite Ecs. apply in_or_app. apply in_app_or in Hc'.
    destruct Hc'; [left|right; right]; assumption.
  - intros b' Hb'. apply I8. apply (Permutation_in _ (Permutation_sym Hbl)). apply in_or_app. right. assumption.
  - intros k' H'. rewrite Hw. apply I12; assumption.
  - intros Hs k'. rewrite Hw. apply I13; assumption.
  - intros Hs k' t' Ht'. apply (I14 Hs k'). apply Hsub; assumption.
Qed.

(** ** Receiving and starting requests *)

Lemma ledger_fresh w : Inv w -> ~ In (as_next w) (whereabouts w).
Proof.
  intros I H. apply (Permutation_in _ (Permutation_sym (v_ledger w I))) in H.
  rewrite (v_recv w I) in H. apply in_seq in H. lia.
Qed.

Lemma ledger_nodup w : Inv w -> NoDup (whereabouts w).
Proof. intros I. apply (Permutation_NoDup (v_ledger w I)). rewrite (v_recv w I). apply seq_NoDup. Qed.

Lemma tasks_in_working w t : Inv w -> In t (as_tasks w) -> In (t_id t) (working w).
Proof.
  intros I Ht. unfold working. apply in_or_app. destruct (running t) eqn:E.
  - left. apply in_map. apply filter_In. split; assumption.
  - right. apply (v_closing w I); assumption.
Qed.

Lemma working_in_whereabouts w x : In x (working w) -> In x (whereabouts w).
Proof. intros H. unfold whereabouts. rewrite !in_app_iff. tauto. Qed.

Lemma expected_immediate d i k : lane d i = Some k -> Some (option_map i_label i) = expected d i.
Proof. destruct d, i; cbn; congruence. Qed.

Lemma seq_snoc n : seq 0 n ++ [n] = seq 0 (S n).
Proof. rewrite seq_S. reflexivity. Qed.

Lemma inv_immediate w (n s : entity) i (v : V) k : Inv w -> lane (as_del w) i = Some k ->
  s_delivering (serial_at (as_del w) k) = None ->
  Inv (start (set_del (receive w) (upd (as_del w) k
         (mk_serial (Some (active_of (mk_order n s (as_next w) v i))) []))) (as_next w) n s i
         (Some (option_map i_label i))).
Proof.
  intros I Hl Hd. pose proof (v_idle w I k Hd) as Hq. pose proof (lane_valid _ _ _ Hl) as Hv.
  set (id := as_next w). set (sr := mk_serial (Some (active_of (mk_order n s id v i))) []).
  pose proof (upd_kind (as_del w) k sr) as Hkd.
  destruct (lane_expected _ _ _ Hl) as (b & Hb & Hbk).
  pose proof (ledger_fresh w I) as Hfr.
  rewrite (expected_immediate _ _ _ Hl).
  set (w' := start _ _ _ _ _ _).
  assert (Hbl : Permutation (blockers w') (Some b :: blockers w)).
  { unfold blockers, w'. cbn [as_tasks as_cancels as_unblock start set_del receive]. rewrite map_app.
    cbn [map t_block]. rewrite Hb, <- app_assoc. apply Permutation_sym, Permutation_cons_app. apply Permutation_refl. }
  assert (Hw : forall k', weight w' k' = (if keqb k k' then 1 else 0) + weight w k').
  { intros k'. unfold weight. rewrite (hcount_perm _ _ _ _ Hbl).
    change (as_del w') with (upd (as_del w) k sr).
    rewrite (kind_hcount (as_del w)) by assumption. rewrite hcount_cons. cbn [holds]. rewrite Hbk. reflexivity. }
  destruct (queued_upd (as_del w) k sr Hv) as (rest & Hq1 & Hq2). rewrite Hq in Hq1. cbn [app] in Hq1.
  cbn [s_queue sr app] in Hq2.
  destruct I as [I1 I2 I3 I4 I5 I6 I7 I8 I9 I10 I11 I12 I13 I14 I15].
  constructor; unfold w'; cbn [as_panic as_recv as_next as_del as_tasks as_cancels as_stopfail as_start
      start set_del receive]; auto.
  - rewrite I2. apply seq_snoc.
  - unfold whereabouts, waiting, working.
    cbn [as_del as_tasks as_cancels as_done as_disp as_cleaned as_dropped start set_del receive].
    rewrite filter_app, map_app. cbn [filter running t_mode map t_id].
    rewrite I3. unfold whereabouts, waiting, working. fold id.
    rewrite (Permutation_map d_task Hq1), (Permutation_map d_task Hq2). perm.
  - rewrite map_app. cbn [map t_id]. apply NoDup_app_comm_snoc; [assumption|].
    intros Hi. apply Hfr. apply in_map_iff in Hi. destruct Hi as (t & Et & Ht).
    unfold id in Et. rewrite <- Et. apply working_in_whereabouts. unfold working. apply in_or_app. destruct (running t) eqn:E.
    + left. apply in_map, filter_In. split; assumption.
    + right. apply I5; assumption.
  - intros t Ht Hr. apply in_app_or in Ht. destruct Ht as [Ht|[<-|[]]]; [auto|discriminate].
  - intros t Ht Hr. rewrite (kind_expected (as_del w)) by assumption.
    apply in_app_or in Ht. destruct Ht as [Ht|[<-|[]]]; [auto|]. reflexivity.
  - intros c Hc. rewrite (kind_expected (as_del w)) by assumption. auto.
  - intros b' Hb'. apply (Permutation_in _ Hbl) in Hb'. destruct Hb' as [[= <-]|Hb'].
    + apply (known_new _ i); assumption.
    + apply known_upd. auto.
  - apply keys_upd; assumption.
  - intros k' o. rewrite (kind_lane (as_del w)) by assumption. destruct (keqb_spec k' k) as [->|E].
    + rewrite serial_at_upd_eq by assumption. intros [].
    + rewrite serial_at_upd_neq by assumption. apply I10.
  - intros k'. destruct (keqb_spec k' k) as [->|E].
    + rewrite serial_at_upd_eq by assumption. discriminate.
    + rewrite serial_at_upd_neq by assumption. apply I11.
  - intros k' H'. fold w'. rewrite Hw. destruct (keqb_spec k k') as [->|E]; [lia|].
    rewrite serial_at_upd_neq in H' by congruence. apply I12; assumption.
  - intros Hs k'. fold w'. rewrite Hw. rewrite (I13 Hs). destruct (keqb_spec k k') as [->|E].
    + rewrite serial_at_upd_eq by assumption. rewrite Hd. reflexivity.
    + rewrite serial_at_upd_neq by congruence. reflexivity.
  - intros Hs k' t Ht. rewrite (kind_holds (as_del w)) by assumption. intros Hh.
    apply in_app_or in Ht. destruct Ht as [Ht|[<-|[]]].
    + destruct (keqb_spec k' k) as [->|E].
      * rewrite (I14 Hs k t Ht Hh) in Hd. discriminate.
      * rewrite serial_at_upd_neq by assumption. apply I14; assumption.
    + cbn [t_block] in Hh. apply expected_holds in Hh. rewrite Hl in Hh. injection Hh as <-.
      rewrite serial_at_upd_eq by assumption. reflexivity.
  - intros sr' Hsr. destruct (as_del w) as [s0|ls]; cbn [lane] in Hl; [|destruct k; discriminate].
    injection Hl as <-. injection Hsr as <-. cbn [s_queue sr map]. rewrite app_nil_r.
    apply subseq_app; [|apply subseq_refl].
    specialize (I15 s0 eq_refl). cbn [serial_at] in Hq. rewrite Hq in I15. cbn [map] in I15.
    rewrite app_nil_r in I15. assumption.
Qed.

Lemma inv_unlabelled w (n s : entity) i : Inv w -> lane (as_del w) i = None ->
  Inv (start (set_del (receive w) (as_del w)) (as_next w) n s i None).
Proof.
  intros I Hl. set (id := as_next w). pose proof (ledger_fresh w I) as Hfr.
  set (w' := start _ _ _ _ _ _).
  assert (Hbl : Permutation (blockers w') (None :: blockers w)).
  { unfold blockers, w'. cbn [as_tasks as_cancels as_unblock start set_del receive]. rewrite map_app.
    cbn [map t_block]. rewrite <- app_assoc. apply Permutation_sym, Permutation_cons_app. apply Permutation_refl. }
  assert (Hw : forall k', weight w' k' = weight w k').
  { intros k'. unfold weight. rewrite (hcount_perm _ _ _ _ Hbl). reflexivity. }
  destruct I as [I1 I2 I3 I4 I5 I6 I7 I8 I9 I10 I11 I12 I13 I14 I15].
  constructor; unfold w'; cbn [as_panic as_recv as_next as_del as_tasks as_cancels as_stopfail as_start
      start set_del receive]; auto.
  - rewrite I2. apply seq_snoc.
  - unfold whereabouts, waiting, working.
    cbn [as_del as_tasks as_cancels as_done as_disp as_cleaned as_dropped start set_del receive].
    rewrite filter_app, map_app. cbn [filter running t_mode map t_id].
    rewrite I3. unfold whereabouts, waiting, working. fold id. perm.
  - rewrite map_app. cbn [map t_id]. apply NoDup_app_comm_snoc; [assumption|].
    intros Hi. apply Hfr. apply in_map_iff in Hi. destruct Hi as (t & Et & Ht).
    unfold id in Et. rewrite <- Et. apply working_in_whereabouts. unfold working. apply in_or_app. destruct (running t) eqn:E.
    + left. apply in_map, filter_In. split; assumption.
    + right. apply I5; assumption.
  - intros t Ht Hr. apply in_app_or in Ht. destruct Ht as [Ht|[<-|[]]]; [auto|discriminate].
  - intros t Ht Hr. apply in_app_or in Ht. destruct Ht as [Ht|[<-|[]]]; [auto|].
    cbn. symmetry. apply lane_none_expected. assumption.
  - intros b' Hb'. apply (Permutation_in _ Hbl) in Hb'. destruct Hb' as [Hb'|Hb']; [discriminate|auto].
  - intros k' H'. fold w'. rewrite Hw. apply I12; assumption.
  - intros Hs k'. fold w'. rewrite Hw. apply I13; assumption.
  - intros Hs k' t Ht Hh. apply in_app_or in Ht. destruct Ht as [Ht|[<-|[]]]; [apply I14; assumption|discriminate].
  - intros sr' Hsr. rewrite Hsr in Hl. discriminate.
Qed.

Lemma inv_queue w (n s : entity) i (v : V) k a keep drop (c : cause) : Inv w -> lane (as_del w) i = Some k ->
  s_delivering (serial_at (as_del w) k) = Some a ->
  Permutation (s_queue (serial_at (as_del w) k)) (drop ++ keep) ->
  subsequence keep (s_queue (serial_at (as_del w) k)) ->
  Inv (log_disp (set_del (receive w) (upd (as_del w) k
         (mk_serial (Some a) (keep ++ [mk_order n s (as_next w) v i]))))
         (map (fun o => (d_task o, c)) drop)).
Proof.
  intros I Hl Hd Hp Hsub. pose proof (lane_valid _ _ _ Hl) as Hv.
  set (id := as_next w). set (sr := mk_serial (Some a) _).
  pose proof (upd_kind (as_del w) k sr) as Hkd.
  set (w' := log_disp _ _).
  assert (Hw : forall k', weight w' k' = weight w k').
  { intros k'. unfold weight. change (as_del w') with (upd (as_del w) k sr).
    rewrite (kind_hcount (as_del w)) by assumption. reflexivity. }
  destruct (queued_upd (as_del w) k sr Hv) as (rest & Hq1 & Hq2). rewrite Hp in Hq1.
  cbn [s_queue sr] in Hq2.
  destruct I as [I1 I2 I3 I4 I5 I6 I7 I8 I9 I10 I11 I12 I13 I14 I15].
  assert (Hdel : forall k', s_delivering (serial_at (upd (as_del w) k sr) k') = s_delivering (serial_at (as_del w) k')).
  { intros k'. destruct (keqb_spec k' k) as [->|E].
    + rewrite serial_at_upd_eq by assumption. rewrite Hd. reflexivity.
    + rewrite serial_at_upd_neq by assumption. reflexivity. }
  constructor; unfold w'; cbn [as_panic as_recv as_next as_del as_tasks as_cancels as_stopfail as_start
      log_disp set_del receive]; auto.
  - rewrite I2. apply seq_snoc.
  - unfold whereabouts, waiting, working.
    cbn [as_del as_tasks as_cancels as_done as_disp as_cleaned as_dropped log_disp set_del receive].
    rewrite I3. unfold whereabouts, waiting, working. fold id.
    rewrite (Permutation_map d_task Hq1), (Permutation_map d_task Hq2), !map_app, !map_map. cbn [map fst d_task].
    change (map (fun x : order V => d_task x) drop) with (map d_task drop). perm.
  - intros t Ht Hr. rewrite (kind_expected (as_del w)) by assumption. auto.
  - intros c' Hc. rewrite (kind_expected (as_del w)) by assumption. auto.
  - intros b' Hb'. apply known_upd. auto.
  - apply keys_upd; assumption.
  - intros k' o. rewrite (kind_lane (as_del w)) by assumption. destruct (keqb_spec k' k) as [->|E].
    + rewrite serial_at_upd_eq by assumption. cbn [s_queue sr]. intros Hi. apply in_app_or in Hi.
      destruct Hi as [Hi|[<-|[]]]; [|assumption]. apply I10.
      apply (Permutation_in _ (Permutation_sym Hp)). apply in_or_app. right. assumption.
    + rewrite serial_at_upd_neq by assumption. apply I10.
  - intros k'. rewrite Hdel. destruct (keqb_spec k' k) as [->|E].
    + rewrite Hd. discriminate.
    + rewrite serial_at_upd_neq by assumption. apply I11.
  - intros k'. rewrite Hdel. fold w'. rewrite Hw. apply I12.
  - intros Hs k'. rewrite Hdel. fold w'. rewrite Hw. apply I13; assumption.
  - intros Hs k' t Ht. rewrite (kind_holds (as_del w)), Hdel by assumption. apply I14; assumption.
  - intros sr' Hsr. destruct (as_del w) as [s0|ls]; cbn [lane] in Hl; [|destruct k; discriminate].
    injection Hl as <-. injection Hsr as <-. cbn [s_queue sr]. rewrite map_app, app_assoc. cbn [map d_task].
    apply subseq_app; [|apply subseq_refl].
    specialize (I15 s0 eq_refl). cbn [serial_at] in *. refine (subseq_trans _ _ _ _ I15).
    apply subseq_app; [apply subseq_refl|]. apply subseq_map. assumption.
Qed.

(** ** Taking the next request *)

(** [owing w b]: the blocker [b] has been taken from the roster and is being served. *)
Definition owing w (b : option nat) : asrv V := set_unblock w (b :: as_unblock w).

Lemma owing_blockers w b : Permutation (blockers (owing w b)) (Some b :: blockers w).
Proof.
  unfold blockers, owing. cbn [as_tasks as_cancels as_unblock set_unblock map].
  rewrite !app_assoc. apply Permutation_sym, Permutation_middle.
Qed.

Lemma owing_weight w b k : weight (owing w b) k = (if keqb (blane (as_del w) b) k then 1 else 0) + weight w k.
Proof.
  unfold weight. rewrite (hcount_perm _ _ _ _ (owing_blockers w b)). cbn [as_del owing set_unblock].
  rewrite hcount_cons. reflexivity.
Qed.

Lemma inv_pop_none w b : Inv (owing w b) ->
  s_queue (serial_at (as_del w) (blane (as_del w) b)) = [] ->
  Inv (set_del w (upd (as_del w) (blane (as_del w) b) serial_new)).
Proof.
  intros I Hq. remember (blane (as_del w) b) as k eqn:Ek.
  assert (Hk : known (as_del w) b).
  { apply (v_known _ I). apply (Permutation_in _ (Permutation_sym (owing_blockers w b))). left. reflexivity. }
  pose proof (known_valid _ _ Hk) as Hv. rewrite <- Ek in Hv.
  pose proof (upd_kind (as_del w) k serial_new) as Hkd.
  pose proof (owing_weight w b) as How. rewrite <- Ek in How.
  set (w' := set_del _ _).
  assert (Hw : forall k', weight w' k' = weight w k').
  { intros k'. unfold weight. change (as_del w') with (upd (as_del w) k serial_new).
    rewrite (kind_hcount (as_del w)) by assumption. reflexivity. }
  destruct (queued_upd (as_del w) k serial_new Hv) as (rest & Hq1 & Hq2). rewrite Hq in Hq1.
  cbn [s_queue serial_new app] in *.
  destruct I as [I1 I2 I3 I4 I5 I6 I7 I8 I9 I10 I11 I12 I13 I14 I15].
  cbn [owing as_panic as_recv as_next as_del as_tasks as_cancels as_stopfail as_start set_unblock] in *.
  constructor; unfold w'; cbn [as_panic as_recv as_next as_del as_tasks as_cancels as_stopfail as_start
      set_del]; auto.
  - unfold whereabouts, waiting, working in *.
    cbn [as_del as_tasks as_cancels as_done as_disp as_cleaned as_dropped set_del set_unblock owing] in *.
    rewrite I3. rewrite (Permutation_map d_task Hq1), (Permutation_map d_task Hq2). apply Permutation_refl.
  - intros t Ht Hr. rewrite (kind_expected (as_del w)) by assumption. auto.
  - intros c' Hc. rewrite (kind_expected (as_del w)) by assumption. auto.
  - intros b' Hb'. apply known_upd. apply I8.
    apply (Permutation_in _ (Permutation_sym (owing_blockers w b))). right. assumption.
  - apply keys_upd; assumption.
  - intros k' o. rewrite (kind_lane (as_del w)) by assumption. destruct (keqb_spec k' k) as [->|E].
    + rewrite serial_at_upd_eq by assumption. intros [].
    + rewrite serial_at_upd_neq by assumption. apply I10.
  - intros k'. destruct (keqb_spec k' k) as [->|E].
    + rewrite serial_at_upd_eq by assumption. reflexivity.
    + rewrite serial_at_upd_neq by assumption. apply I11.
  - intros k' H'. fold w'. rewrite Hw. destruct (keqb_spec k' k) as [->|E].
    + rewrite serial_at_upd_eq in H' by assumption. cbn in H'. congruence.
    + rewrite serial_at_upd_neq in H' by assumption. specialize (I12 k' H'). rewrite How in I12.
      destruct (keqb_spec k k'); [congruence|]. lia.
  - intros Hs k'. fold w'. rewrite Hw. specialize (I13 Hs k'). rewrite How in I13.
    destruct (keqb_spec k k') as [E|E]; [subst k'|].
    + rewrite serial_at_upd_eq by assumption. cbn. destruct (s_delivering (serial_at (as_del w) k)); lia.
    + rewrite serial_at_upd_neq by congruence. lia.
  - intros Hs k' t Ht. rewrite (kind_holds (as_del w)) by assumption. intros Hh. destruct (keqb_spec k' k) as [->|E].
    + exfalso. specialize (I13 Hs k). rewrite How, keqb_refl in I13.
      assert (Hpos : weight w k >= 1).
      { apply (hcount_in _ _ (t_block t)); [|assumption]. unfold blockers. apply in_or_app. left. apply in_map. assumption. }
      destruct (s_delivering (serial_at (as_del w) k)); lia.
    + rewrite serial_at_upd_neq by assumption. apply I14; assumption.
  - intros sr' Hsr. rewrite Ek in Hsr, Hq. destruct (as_del w) as [s0|ls]; cbn [blane upd] in Hsr.
    + injection Hsr as <-. cbn [s_queue serial_new]. specialize (I15 s0 eq_refl).
      cbn [blane serial_at] in Hq. rewrite Hq in I15. assumption.
    + destruct b; discriminate.
Qed.

Lemma inv_pop_drop w b o q : Inv (owing w b) ->
  s_queue (serial_at (as_del w) (blane (as_del w) b)) = o :: q ->
  Inv (owing (log_dropped (set_del w (upd (as_del w) (blane (as_del w) b) (mk_serial (Some (active_of o)) q)))
         [d_task o]) b).
Proof.
  intros I Hq. remember (blane (as_del w) b) as k eqn:Ek. set (sr := mk_serial _ q).
  assert (Hk : known (as_del w) b).
  { apply (v_known _ I). apply (Permutation_in _ (Permutation_sym (owing_blockers w b))). left. reflexivity. }
  pose proof (known_valid _ _ Hk) as Hv. rewrite <- Ek in Hv.
  pose proof (upd_kind (as_del w) k sr) as Hkd.
  assert (Hdel : s_delivering (serial_at (as_del w) k) <> None).
  { intros E. pose proof (v_idle _ I k E) as H. cbn [as_del owing set_unblock] in H. congruence. }
  set (w' := owing _ _).
  assert (Hw : forall k', weight w' k' = weight (owing w b) k').
  { intros k'. unfold weight. change (as_del w') with (upd (as_del w) k sr).
    rewrite (kind_hcount (as_del w)) by assumption. reflexivity. }
  pose proof (owing_weight w b) as How. rewrite <- Ek in How.
  destruct (queued_upd (as_del w) k sr Hv) as (rest & Hq1 & Hq2). rewrite Hq in Hq1.
  cbn [s_queue sr] in *.
  destruct I as [I1 I2 I3 I4 I5 I6 I7 I8 I9 I10 I11 I12 I13 I14 I15].
  cbn [owing as_panic as_recv as_next as_del as_tasks as_cancels as_stopfail as_start set_unblock] in *.
  constructor; unfold w'; cbn [as_panic as_recv as_next as_del as_tasks as_cancels as_stopfail as_start
      set_del log_dropped owing set_unblock]; auto.
  - unfold whereabouts, waiting, working in *.
    cbn [as_del as_tasks as_cancels as_done as_disp as_cleaned as_dropped set_del set_unblock log_dropped owing] in *.
    rewrite I3. rewrite (Permutation_map d_task Hq1), (Permutation_map d_task Hq2). cbn [app map].
    match goal with |- Permutation (?x :: ?X) _ => change (x :: X) with ([x] ++ X) end. perm.
  - intros t Ht Hr. rewrite (kind_expected (as_del w)) by assumption. auto.
  - intros c' Hc. rewrite (kind_expected (as_del w)) by assumption. auto.
  - intros b' Hb'. apply known_upd. apply I8. exact Hb'.
  - apply keys_upd; assumption.
  - intros k' o'. rewrite (kind_lane (as_del w)) by assumption. destruct (keqb_spec k' k) as [->|E].
    + rewrite serial_at_upd_eq by assumption. intros H. apply I10. rewrite Hq. right. assumption.
    + rewrite serial_at_upd_neq by assumption. apply I10.
  - intros k'. destruct (keqb_spec k' k) as [->|E].
    + rewrite serial_at_upd_eq by assumption. discriminate.
    + rewrite serial_at_upd_neq by assumption. apply I11.
  - intros k' H'. fold w'. rewrite Hw. destruct (keqb_spec k' k) as [->|E].
    + apply I12. assumption.
    + rewrite serial_at_upd_neq in H' by assumption. auto.
  - intros Hs k'. fold w'. rewrite Hw, (I13 Hs). destruct (keqb_spec k' k) as [->|E].
    + rewrite serial_at_upd_eq by assumption. cbn.
      destruct (s_delivering (serial_at (as_del w) k)); congruence.
    + rewrite serial_at_upd_neq by congruence. reflexivity.
  - intros Hs k' t Ht. rewrite (kind_holds (as_del w)) by assumption. intros Hh. destruct (keqb_spec k' k) as [->|E].
    + exfalso. specialize (I13 Hs k). rewrite How, keqb_refl in I13.
      assert (Hpos : weight w k >= 1).
      { apply (hcount_in _ _ (t_block t)); [|assumption]. unfold blockers. apply in_or_app. left. apply in_map. assumption. }
      destruct (s_delivering (serial_at (as_del w) k)); lia.
    + rewrite serial_at_upd_neq by assumption. apply I14; assumption.
  - intros sr' Hsr. rewrite Ek in Hsr, Hq. destruct (as_del w) as [s0|ls]; cbn [blane upd] in Hsr.
    + injection Hsr as <-. cbn [s_queue sr]. specialize (I15 s0 eq_refl).
      cbn [blane serial_at] in Hq. rewrite Hq in I15. cbn [map] in I15.
      refine (subseq_trans _ _ _ _ I15). apply subseq_app; [apply subseq_refl|].
      apply subseq_skip, subseq_refl.
    + destruct b; discriminate.
Qed.

Lemma inv_pop_start w b o q : Inv (owing w b) ->
  s_queue (serial_at (as_del w) (blane (as_del w) b)) = o :: q ->
  Inv (start (set_del w (upd (as_del w) (blane (as_del w) b) (mk_serial (Some (active_of o)) q)))
         (d_task o) (d_source o) (d_session o) (d_instr o) (Some (option_map i_label (d_instr o)))).
Proof.
  intros I Hq. remember (blane (as_del w) b) as k eqn:Ek. set (sr := mk_serial _ q).
  assert (Hk : known (as_del w) b).
  { apply (v_known _ I). apply (Permutation_in _ (Permutation_sym (owing_blockers w b))). left. reflexivity. }
  pose proof (known_valid _ _ Hk) as Hv. rewrite <- Ek in Hv.
  pose proof (upd_kind (as_del w) k sr) as Hkd.
  assert (Hl : lane (as_del w) (d_instr o) = Some k).
  { apply (v_lane _ I). cbn [as_del owing set_unblock]. rewrite Hq. left. reflexivity. }
  rewrite (expected_immediate _ _ _ Hl).
  destruct (lane_expected _ _ _ Hl) as (b2 & Hb2 & Hbk2).
  assert (Hdel : s_delivering (serial_at (as_del w) k) <> None).
  { intros E. pose proof (v_idle _ I k E) as H. cbn [as_del owing set_unblock] in H. congruence. }
  set (w' := start _ _ _ _ _ _).
  assert (Hbl : Permutation (blockers w') (Some b2 :: blockers w)).
  { unfold blockers, w'. cbn [as_tasks as_cancels as_unblock start set_del]. rewrite map_app.
    cbn [map t_block]. rewrite Hb2, <- app_assoc. apply Permutation_sym, Permutation_cons_app. apply Permutation_refl. }
  pose proof (owing_weight w b) as How. rewrite <- Ek in How.
  assert (Hw : forall k', weight w' k' = weight (owing w b) k').
  { intros k'. rewrite How. unfold weight. rewrite (hcount_perm _ _ _ _ Hbl).
    change (as_del w') with (upd (as_del w) k sr).
    rewrite (kind_hcount (as_del w)) by assumption. rewrite hcount_cons. cbn [holds]. rewrite Hbk2. reflexivity. }
  destruct (queued_upd (as_del w) k sr Hv) as (rest & Hq1 & Hq2). rewrite Hq in Hq1.
  cbn [s_queue sr] in *.
  pose proof (ledger_nodup _ I) as Hnd.
  pose proof (fun t => tasks_in_working _ t I) as Htw.
  destruct I as [I1 I2 I3 I4 I5 I6 I7 I8 I9 I10 I11 I12 I13 I14 I15].
  cbn [owing as_panic as_recv as_next as_del as_tasks as_cancels as_stopfail as_start set_unblock] in *.
  constructor; unfold w'; cbn [as_panic as_recv as_next as_del as_tasks as_cancels as_stopfail as_start
      set_del start]; auto.
  - unfold whereabouts, waiting, working in *.
    cbn [as_del as_tasks as_cancels as_done as_disp as_cleaned as_dropped set_del set_unblock start owing] in *.
    rewrite I3. rewrite (Permutation_map d_task Hq1), (Permutation_map d_task Hq2). cbn [app map].
    rewrite filter_app, !map_app. cbn [filter running t_mode map t_id].
    match goal with |- Permutation (?x :: ?X) _ => change (x :: X) with ([x] ++ X) end. perm.
  - rewrite map_app. cbn [map t_id]. apply NoDup_app_comm_snoc; [assumption|].
    intros Hi. apply in_map_iff in Hi. destruct Hi as (t & Et & Ht). specialize (Htw t Ht).
    unfold whereabouts in Hnd. apply nodup_app in Hnd. destruct Hnd as (_ & _ & Hnd).
    apply (Hnd (t_id t)).
    + rewrite Et. unfold waiting. cbn [as_del owing set_unblock].
      apply (Permutation_in _ (Permutation_sym (Permutation_map d_task Hq1))). left. reflexivity.
    + apply in_or_app. left. assumption.
  - intros t Ht Hr. apply in_app_or in Ht. destruct Ht as [Ht|[<-|[]]]; [auto|discriminate].
  - intros t Ht Hr. rewrite (kind_expected (as_del w)) by assumption.
    apply in_app_or in Ht. destruct Ht as [Ht|[<-|[]]]; [auto|]. reflexivity.
  - intros c' Hc. rewrite (kind_expected (as_del w)) by assumption. auto.
  - intros b' Hb'. apply (Permutation_in _ Hbl) in Hb'. destruct Hb' as [[= <-]|Hb'].
    + apply (known_new _ (d_instr o)); assumption.
    + apply known_upd. apply I8. apply (Permutation_in _ (Permutation_sym (owing_blockers w b))). right. assumption.
  - apply keys_upd; assumption.
  - intros k' o'. rewrite (kind_lane (as_del w)) by assumption. destruct (keqb_spec k' k) as [->|E].
    + rewrite serial_at_upd_eq by assumption. intros H. apply I10. rewrite Hq. right. assumption.
    + rewrite serial_at_upd_neq by assumption. apply I10.
  - intros k'. destruct (keqb_spec k' k) as [->|E].
    + rewrite serial_at_upd_eq by assumption. discriminate.
    + rewrite serial_at_upd_neq by assumption. apply I11.
  - intros k' H'. fold w'. rewrite Hw. destruct (keqb_spec k' k) as [->|E].
    + apply I12. assumption.
    + rewrite serial_at_upd_neq in H' by assumption. auto.
  - intros Hs k'. fold w'. rewrite Hw, (I13 Hs). destruct (keqb_spec k' k) as [->|E].
    + rewrite serial_at_upd_eq by assumption. cbn.
      destruct (s_delivering (serial_at (as_del w) k)); congruence.
    + rewrite serial_at_upd_neq by congruence. reflexivity.
  - intros Hs k' t Ht. rewrite (kind_holds (as_del w)) by assumption. intros Hh.
    apply in_app_or in Ht. destruct Ht as [Ht|[<-|[]]].
    + destruct (keqb_spec k' k) as [->|E].
      * exfalso. specialize (I13 Hs k). rewrite How, keqb_refl in I13.
        assert (Hpos : weight w k >= 1).
        { apply (hcount_in _ _ (t_block t)); [|assumption]. unfold blockers. apply in_or_app. left. apply in_map. assumption. }
        destruct (s_delivering (serial_at (as_del w) k)); lia.
      * rewrite serial_at_upd_neq by assumption. apply I14; assumption.
    + cbn [t_block] in Hh. apply expected_holds in Hh. rewrite Hl in Hh. injection Hh as <-.
      rewrite serial_at_upd_eq by assumption. reflexivity.
  - intros sr' Hsr. rewrite Ek in Hsr, Hq. destruct (as_del w) as [s0|ls]; cbn [blane upd] in Hsr.
    + injection Hsr as <-. cbn [s_queue sr]. specialize (I15 s0 eq_refl).
      cbn [blane serial_at] in Hq. rewrite Hq in I15. rewrite <- app_assoc. exact I15.
    + destruct b; discriminate.
Qed.

Lemma known_log d d' b : d = d' -> known d b -> known d' b.
Proof. intros ->. auto. Qed.

Lemma inv_serve_next fuel alive b w : Inv (owing w b) ->
  length (s_queue (serial_at (as_del w) (blane (as_del w) b))) <= fuel ->
  Inv (serve_next fuel alive b w).
Proof.
  revert w. induction fuel as [|fuel IH]; intros w I Hf.
  - assert (Hk : known (as_del w) b).
    { apply (v_known _ I). apply (Permutation_in _ (Permutation_sym (owing_blockers w b))). left. reflexivity. }
    cbn [serve_next]. rewrite (pop_lane _ _ Hk). unfold pop_impl.
    destruct (s_queue (serial_at (as_del w) (blane (as_del w) b))) as [|o q] eqn:Eq; cbn [fst snd].
    + apply inv_pop_none; assumption.
    + cbn in Hf. lia.
  - assert (Hk : known (as_del w) b).
    { apply (v_known _ I). apply (Permutation_in _ (Permutation_sym (owing_blockers w b))). left. reflexivity. }
    cbn [serve_next]. rewrite (pop_lane _ _ Hk). unfold pop_impl.
    destruct (s_queue (serial_at (as_del w) (blane (as_del w) b))) as [|o q] eqn:Eq; cbn [fst snd].
    + apply inv_pop_none; assumption.
    + destruct (alive (d_source o)).
      * apply inv_pop_start; assumption.
      * apply IH; [apply inv_pop_drop; assumption|].
        cbn [as_del log_dropped set_del]. rewrite (kind_blane _ _ b (upd_kind (as_del w) (blane (as_del w) b) (mk_serial (Some (active_of o)) q))).
        rewrite serial_at_upd_eq by (apply known_valid; assumption). cbn [s_queue]. cbn in Hf. lia.
Qed.

Lemma lane_queue_length d k : length (s_queue (serial_at d k)) <= length (queued d).
Proof.
  destruct (valid d k) eqn:E.
  - destruct (queued_upd d k serial_new E) as (rest & H & _). rewrite (Permutation_length H), app_length. lia.
  - destruct d, k; cbn in *; discriminate || lia.
Qed.

Lemma inv_unblock w alive : Inv w -> Inv (unblock w alive).
Proof.
  intros I. unfold unblock. destruct (as_unblock w) as [|b us] eqn:E; [assumption|].
  apply inv_serve_next.
  - unfold owing. cbn [as_unblock set_unblock].
    refine (inv_same w _ _ _ _ _ _ _ _ _ _ _ _ _ _ I); try reflexivity.
    cbn [as_unblock set_unblock]. congruence.
  - cbn [as_del set_unblock]. apply lane_queue_length.
Qed.

(** ** Serving, cleaning, despawning *)

Lemma inv_stop w st (n s : entity) b : Inv w -> known (as_del w) b -> Inv (stop w st n s b).
Proof.
  intros I Hk. unfold stop. destruct (find_task (as_tasks w) (st_task st)) as [t|] eqn:E.
  - destruct (find_task_split _ _ _ E (v_ids w I)) as (a & b' & Ets & Eid & _).
    destruct (t_mode t) eqn:Em; auto using inv_stopfail.
    + apply inv_capture; auto; [|unfold running; rewrite Em; reflexivity|discriminate].
      rewrite Ets. apply in_or_app. right. left. reflexivity.
    + apply inv_mode; auto; [discriminate|]. rewrite Eid. rewrite E. intros t' [= <-].
      unfold running. rewrite Em. reflexivity.
  - apply inv_stopfail; assumption.
Qed.

Lemma inv_serve w (n s : entity) i (v : V) : Inv w -> Inv (serve w n s i v).
Proof.
  intros I. unfold serve. set (o := mk_order n s (as_next w) v i).
  destruct (lane (as_del w) i) as [k|] eqn:Hl.
  - cbn [as_del receive]. rewrite (insert_lane _ o k) by exact Hl.
    unfold insert_serial_order. destruct (s_delivering (serial_at (as_del w) k)) as [a|] eqn:Hd.
    + destruct i as [inc|]; cbn [d_instr o].
      * destruct (i_preempt inc) eqn:Hp; cbn [fst snd].
        -- set (f := fun e : order V => should_discard inc (d_instr e)).
           assert (Iq := inv_queue w n s (Some inc) v k a (filter (fun e => negb (f e)) (s_queue (serial_at (as_del w) k)))
              (filter f (s_queue (serial_at (as_del w) k))) (Supplanted n s) I Hl Hd
              (filter_split_perm f _) (subseq_filter _ _)).
           rewrite map_map. cbn [st_task stop_order].
           destruct (should_discard inc (a_instr a)); [|exact Iq]. apply inv_stop; [exact Iq|].
           cbn [as_del log_disp set_del]. apply (known_new _ (Some inc)); [assumption|].
           destruct (as_del w); reflexivity.
        -- exact (inv_queue w n s (Some inc) v k a _ [] (Supplanted n s) I Hl Hd (Permutation_refl _) (subseq_refl _)).
      * cbn [fst snd].
        exact (inv_queue w n s None v k a _ [] (Supplanted n s) I Hl Hd (Permutation_refl _) (subseq_refl _)).
    + rewrite (v_idle w I k Hd). cbn [fst snd]. apply inv_immediate; assumption.
  - cbn [as_del receive]. rewrite insert_nolane by exact Hl. apply inv_unlabelled; assumption.
Qed.

Lemma inv_poll w id : Inv w -> Inv (poll_ready w id).
Proof.
  intros I. unfold poll_ready. destruct (find_task (as_tasks w) id) as [t|] eqn:E; [|assumption].
  destruct (find_task_split _ _ _ E (v_ids w I)) as (a & b' & Ets & Eid & _).
  destruct (t_mode t) eqn:Em; try assumption. rewrite <- Eid. apply inv_done; [assumption| |unfold running; rewrite Em; reflexivity].
  rewrite Ets. apply in_or_app. right. left. reflexivity.
Qed.

Lemma inv_despawn w id : Inv w -> Inv (despawn_task w id).
Proof.
  intros I. unfold despawn_task. destruct (find_task (as_tasks w) id) as [t|] eqn:E; [|assumption].
  destruct (find_task_split _ _ _ E (v_ids w I)) as (a & b' & Ets & Eid & _).
  destruct (t_mode t) eqn:Em.
  1: { rewrite <- Eid. apply inv_capture; auto; [|unfold running; rewrite Em; reflexivity|discriminate].
       rewrite Ets. apply in_or_app. right. left. reflexivity. }
  all: apply inv_mode; auto; [discriminate|]; rewrite E; intros t' [= <-]; unfold running; rewrite Em; reflexivity.
Qed.

Lemma inv_clean_task c w id : Inv w -> Inv (clean_task c w id).
Proof.
  intros I. unfold clean_task. destruct (find_task (as_tasks w) id) as [t|] eqn:E; [|assumption].
  destruct (find_task_split _ _ _ E (v_ids w I)) as (a & b' & Ets & Eid & _).
  destruct (t_mode t) eqn:Em; try assumption.
  - rewrite <- Eid. apply inv_capture; auto; [|unfold running; rewrite Em; reflexivity|discriminate].
    rewrite Ets. apply in_or_app. right. left. reflexivity.
  - unfold cleanup_task.
    assert (I' : Inv (set_tasks w (filter (fun t => negb (Nat.eqb (t_id t) id)) (as_tasks w)))).
    { apply inv_unlist; [assumption|]. rewrite E. intros t' [= <-]. unfold running. rewrite Em. reflexivity. }
    destruct (existsb _ _); [assumption|]. apply inv_notified. assumption.
Qed.

Lemma inv_fold_clean c ids w : Inv w -> Inv (fold_left (clean_task c) ids w).
Proof. revert w. induction ids as [|id ids IH]; intros w I; cbn [fold_left]; auto using inv_clean_task. Qed.

Lemma inv_clean_queue w ss : Inv w ->
  Inv (log_cleaned (set_del w (delivery_cleanup (as_del w) ss))
         (map d_task (filter (fun o => Nat.eqb (d_session o) ss) (queued (as_del w))))).
Proof.
  intros [I1 I2 I3 I4 I5 I6 I7 I8 I9 I10 I11 I12 I13 I14 I15].
  pose proof (cleanup_kind (as_del w) ss) as Hkd. set (w' := log_cleaned _ _).
  assert (Hw : forall k', weight w' k' = weight w k').
  { intros k'. unfold weight. change (as_del w') with (delivery_cleanup (as_del w) ss).
    rewrite (kind_hcount (as_del w)) by assumption. reflexivity. }
  constructor; unfold w'; cbn [as_panic as_recv as_next as_del as_tasks as_cancels as_stopfail as_start
      set_del log_cleaned]; auto.
  - unfold whereabouts, waiting, working in *.
    cbn [as_del as_tasks as_cancels as_done as_disp as_cleaned as_dropped set_del log_cleaned] in *.
    rewrite I3, cleanup_queued.
    rewrite (Permutation_map d_task (filter_split_perm (fun o => Nat.eqb (d_session o) ss) (queued (as_del w)))).
    rewrite map_app. perm.
  - intros t Ht Hr. rewrite (kind_expected (as_del w)) by assumption. auto.
  - intros c' Hc. rewrite (kind_expected (as_del w)) by assumption. auto.
  - intros b' Hb'. apply cleanup_known. auto.
  - apply cleanup_keys; assumption.
  - intros k' o'. rewrite (kind_lane (as_del w)), cleanup_serial_at by assumption. cbn [s_queue serial_cleanup].
    intros H. apply filter_In in H. apply I10, H.
  - intros k'. rewrite cleanup_serial_at. cbn. intros H. rewrite (I11 k' H). reflexivity.
  - intros k'. rewrite cleanup_serial_at. fold w'. rewrite Hw. apply I12.
  - intros Hs k'. rewrite cleanup_serial_at. fold w'. rewrite Hw. apply I13; assumption.
  - intros Hs k' t Ht. rewrite (kind_holds (as_del w)), cleanup_serial_at by assumption. apply I14; assumption.
  - intros sr Hsr. destruct (as_del w) as [s0|ls]; cbn in Hsr; [|discriminate]. injection Hsr as <-.
    refine (subseq_trans _ _ _ _ (I15 s0 eq_refl)). apply subseq_app; [apply subseq_refl|].
    apply subseq_map, subseq_filter.
Qed.

Lemma inv_mark w (n s : entity) c : Inv w ->
  Inv (set_tasks w (map (fun t => if listed n s t
                    then mk_task (t_id t) (t_node t) (t_session t) (t_instr t) (t_block t) (t_mode t) (Some c)
                    else t) (as_tasks w))).
Proof.
  intros I. refine (inv_same w _ _ _ _ _ _ _ _ _ _ _ _ _ _ I); try reflexivity.
  cbn [as_tasks set_tasks]. rewrite map_map. apply map_ext. intros t. destruct (listed n s t); reflexivity.
Qed.

Lemma inv_clean w (n s : entity) c : Inv w -> Inv (clean_node w n s c).
Proof.
  intros I. unfold clean_node. apply (inv_clean_queue w s) in I. revert I.
  set (w1 := log_cleaned _ _). intros I.
  destruct (map t_id (filter (listed n s) (as_tasks w1))) as [|x ids]; [apply inv_notified; assumption|].
  apply inv_fold_clean. apply inv_mark. assumption.
Qed.

Lemma inv_step w e : Inv w -> Inv (step w e).
Proof.
  intros I. destruct e; cbn [step].
  - apply inv_serve; assumption.
  - apply inv_poll; assumption.
  - apply inv_cancelled; assumption.
  - apply inv_unblock; assumption.
  - apply inv_clean; assumption.
  - apply inv_despawn; assumption.
Qed.

Lemma inv_run w es : Inv w -> Inv (run w es).
Proof. revert w. unfold run. induction es as [|e es IH]; intros w I; cbn [fold_left]; auto using inv_step. Qed.

Lemma inv_reachable w : reachable w -> Inv w.
Proof.
  intros (w0 & es & [-> | ->] & ->); apply inv_run.
  - apply (inv_new (Serial serial_new)); [left|]; reflexivity.
  - apply (inv_new (Parallel [])); [right|]; reflexivity.
Qed.

(** ** Consequences *)

Lemma fold_clean_del c ids w : as_del (fold_left (clean_task c) ids w) = as_del w.
Proof.
  revert w. induction ids as [|id ids IH]; intros w; cbn [fold_left]; [reflexivity|]. rewrite IH.
  unfold clean_task, cleanup_task. destruct (find_task (as_tasks w) id) as [t|]; [|reflexivity].
  destruct (t_mode t); try reflexivity. cbn [as_tasks set_tasks]. destruct (existsb _ _); reflexivity.
Qed.

Lemma serve_next_kind fuel alive b w : same_kind (as_del w) (as_del (serve_next fuel alive b w)).
Proof.
  revert w. induction fuel as [|fuel IH]; intros w; cbn [serve_next];
    (destruct (pop_next (as_del w) b) as [[d [o|]]|] eqn:E; [| |apply kind_refl]);
    assert (Hd : same_kind (as_del w) d)
      by (destruct (as_del w); cbn in E; [destruct (pop_impl s); injection E as <- _; exact I|];
          destruct b as [l|]; [|discriminate]; destruct (lget l ls); [|discriminate];
          destruct (pop_impl s); injection E as <- _; exact I);
    try exact Hd.
  - destruct (alive (d_source o)); exact Hd.
  - destruct (alive (d_source o)); [exact Hd|]. apply (kind_trans _ d); [exact Hd|].
    apply (IH (log_dropped (set_del w d) [d_task o])).
Qed.

Lemma step_kind w e : same_kind (as_del w) (as_del (step w e)).
Proof.
  destruct e as [n ss i v|id|k|alive|n ss c|id]; cbn [step].
  - unfold serve. cbn [as_del receive]. destruct (insert_new_order _ _) as [d u] eqn:E.
    assert (Hd : same_kind (as_del w) d).
    { unfold insert_new_order in E. destruct (as_del w).
      - destruct (insert_serial_order _ _). injection E as <- _. exact I.
      - cbn [d_instr] in E. destruct i; [destruct (insert_serial_order _ _)|]; injection E as <- _; exact I. }
    destruct u as [| cn [st|] l|]; try exact Hd.
    unfold stop. cbn [as_tasks log_disp set_del receive]. destruct (find_task _ _) as [t|]; [|exact Hd].
    destruct (t_mode t); exact Hd.
  - unfold poll_ready, cleanup_task. destruct (find_task _ _) as [t|]; [|apply kind_refl].
    destruct (t_mode t), (t_block t); apply kind_refl.
  - unfold cancelled, cleanup_task. destruct (remove_nth _ _) as [[c cs]|]; [|apply kind_refl].
    destruct (c_cause c), (c_block c), (c_clean c); cbn [as_tasks set_tasks set_unblock set_cancels];
      try destruct (existsb _ _); apply kind_refl.
  - unfold unblock. destruct (as_unblock w) as [|b us]; [apply kind_refl|].
    apply (serve_next_kind _ alive b (set_unblock w us)).
  - unfold clean_node. cbn [as_tasks log_cleaned set_del]. destruct (map _ _); [apply cleanup_kind|].
    rewrite fold_clean_del. apply cleanup_kind.
  - unfold despawn_task. destruct (find_task _ _) as [t|]; [|apply kind_refl]. destruct (t_mode t); apply kind_refl.
Qed.

Lemma run_kind w es : same_kind (as_del w) (as_del (run w es)).
Proof.
  revert w. unfold run. induction es as [|e es IH]; intros w; cbn [fold_left]; [apply kind_refl|].
  apply (kind_trans _ (as_del (step w e))); [apply step_kind|apply IH].
Qed.

Lemma serial_kind es : is_serial (run (@new_serial V) es).
Proof.
  pose proof (run_kind (@new_serial V) es) as H. cbn [as_del new_serial asrv_new same_kind] in H.
  unfold is_serial. destruct (as_del (run new_serial es)) as [s|ls]; [exists s; reflexivity|contradiction].
Qed.

Lemma parallel_kind es : is_parallel (run (@new_parallel V) es).
Proof.
  pose proof (run_kind (@new_parallel V) es) as H. cbn [as_del new_parallel asrv_new same_kind] in H.
  unfold is_parallel. destruct (as_del (run new_parallel es)) as [s|ls]; [contradiction|exists ls; reflexivity].
Qed.

Lemma reachable_run w es : reachable w -> reachable (run w es).
Proof.
  intros (w0 & es0 & Hf & ->). exists w0, (es0 ++ es). split; [assumption|]. unfold run.
  rewrite fold_left_app. reflexivity.
Qed.

Lemma filter_map_length {A B} (f : A -> B) (p : B -> bool) (q : A -> bool) (l : list A) :
  (forall x, In x l -> q x = true -> p (f x) = true) ->
  length (filter q l) <= length (filter p (map f l)).
Proof.
  induction l as [|x l IH]; intros H; cbn [map filter]; [cbn; lia|].
  assert (IH' := IH (fun y Hy => H y (or_intror Hy))).
  destruct (q x) eqn:E; [rewrite (H x (or_introl eq_refl) E); cbn [length]; lia|].
  destruct (p (f x)); cbn [length]; lia.
Qed.

Lemma working_weight w : Inv w -> is_serial w -> length (working w) + length (as_unblock w) <= weight w None.
Proof.
  intros I [s Hs]. unfold working, weight, blockers. rewrite app_length, !map_length, !hcount_app. unfold hcount.
  assert (H1 : length (filter running (as_tasks w)) <= length (filter (holds (as_del w) None) (map t_block (as_tasks w)))).
  { apply filter_map_length. intros t Ht Hr. rewrite (v_tblock w I t Ht Hr). apply expected_holds.
    rewrite Hs. reflexivity. }
  assert (H2 : length (filter (fun _ => true) (as_cancels w)) <= length (filter (holds (as_del w) None) (map c_block (as_cancels w)))).
  { apply filter_map_length. intros c Hc _. rewrite (v_cblock w I c Hc). apply expected_holds.
    rewrite Hs. reflexivity. }
  assert (H3 : length (filter (fun _ => true) (as_unblock w)) <= length (filter (holds (as_del w) None) (map Some (as_unblock w)))).
  { apply filter_map_length. intros b Hb _. rewrite Hs. reflexivity. }
  assert (E : forall A (l : list A), filter (fun _ => true) l = l) by (intros A l; induction l; cbn; congruence).
  rewrite E in H2, H3. lia.
Qed.

Lemma odec (a b : option nat) : {a = b} + {a <> b}.
Proof. decide equality. apply Nat.eq_dec. Defined.

Lemma labelled_lane d l i : (exists ls, d = Parallel ls) -> labelled l i = true <-> lane d i = Some (Some l).
Proof.
  intros [ls ->]. destruct i as [i|]; cbn; [|split; discriminate].
  destruct (Nat.eqb_spec (i_label i) l); split; congruence.
Qed.

Lemma working_on_weight w l : Inv w -> is_parallel w ->
  length (working_on w l) + count_occ odec (as_unblock w) (Some l) <= weight w (Some l).
Proof.
  intros I Hp. unfold working_on, weight, blockers. rewrite app_length, !map_length, !hcount_app. unfold hcount.
  assert (H1 : length (filter (fun t => running t && labelled l (t_instr t)) (as_tasks w))
               <= length (filter (holds (as_del w) (Some l)) (map t_block (as_tasks w)))).
  { apply filter_map_length. intros t Ht H. apply andb_true_iff in H. destruct H as [Hr Hl].
    rewrite (v_tblock w I t Ht Hr). apply expected_holds. apply labelled_lane; assumption. }
  assert (H2 : length (filter (fun c => labelled l (c_instr c)) (as_cancels w))
               <= length (filter (holds (as_del w) (Some l)) (map c_block (as_cancels w)))).
  { apply filter_map_length. intros c Hc Hl. rewrite (v_cblock w I c Hc). apply expected_holds.
    apply labelled_lane; assumption. }
  assert (H3 : count_occ odec (as_unblock w) (Some l)
               <= length (filter (holds (as_del w) (Some l)) (map Some (as_unblock w)))).
  { destruct Hp as [ls Hp]. rewrite Hp. clear.
    induction (as_unblock w) as [|b us IH]; cbn [count_occ map filter]; [lia|].
    unfold holds at 1. cbn [blane]. destruct (odec b (Some l)) as [->|E].
    - rewrite keqb_refl. cbn [length]. lia.
    - destruct (keqb b (Some l)); cbn [length]; lia. }
  lia.
Qed.

Lemma weight_zero w k : Inv w -> weight w k = 0 -> s_queue (serial_at (as_del w) k) = [].
Proof.
  intros I H. apply (v_idle w I). destruct (s_delivering (serial_at (as_del w) k)) eqn:E; [|reflexivity].
  assert (weight w k >= 1) by (apply (v_busy w I); congruence). lia.
Qed.

Lemma serial_at_waiting w : is_serial w -> s_queue (serial_at (as_del w) None) = waiting w.
Proof. intros [s Hs]. unfold waiting. rewrite Hs. reflexivity. Qed.

Lemma serial_weight_pos w : Inv w -> is_serial w -> weight w None >= 1 -> working w <> [] \/ as_unblock w <> [].
Proof.
  intros I _ H. apply hcount_pos in H. destruct H as (b & Hb & Hh). unfold blockers in Hb.
  rewrite !in_app_iff in Hb. destruct Hb as [Hb|[Hb|Hb]]; apply in_map_iff in Hb; destruct Hb as (x & <- & Hx).
  - left. destruct (running x) eqn:E.
    + intros E'. assert (In (t_id x) (working w)) as Hi by (apply tasks_in_working; assumption).
      rewrite E' in Hi. destruct Hi.
    + destruct (v_closing w I x Hx E) as [_ E2]. rewrite E2 in Hh. discriminate.
  - left. intros E'. assert (In (c_task x) (working w)) as Hi.
    { unfold working. apply in_or_app. right. apply in_map. assumption. }
    rewrite E' in Hi. destruct Hi.
  - right. destruct (as_unblock w); [destruct Hx|discriminate].
Qed.

Lemma label_weight_pos w l : Inv w -> is_parallel w -> weight w (Some l) >= 1 ->
  working_on w l <> [] \/ In (Some l) (as_unblock w).
Proof.
  intros I Hp H. apply hcount_pos in H. destruct H as (b & Hb & Hh). unfold blockers in Hb.
  rewrite !in_app_iff in Hb. destruct Hb as [Hb|[Hb|Hb]]; apply in_map_iff in Hb; destruct Hb as (x & <- & Hx).
  - left. destruct (running x) eqn:E.
    + rewrite (v_tblock w I x Hx E) in Hh. apply expected_holds in Hh.
      apply (labelled_lane (as_del w)) in Hh; [|assumption].
      intros E'. assert (In (t_id x) (working_on w l)) as Hi.
      { unfold working_on. apply in_or_app. left. apply in_map, filter_In. rewrite E, Hh. auto. }
      rewrite E' in Hi. destruct Hi.
    + destruct (v_closing w I x Hx E) as [_ E2]. rewrite E2 in Hh. discriminate.
  - left. rewrite (v_cblock w I x Hx) in Hh. apply expected_holds in Hh.
    apply (labelled_lane (as_del w)) in Hh; [|assumption].
    intros E'. assert (In (c_task x) (working_on w l)) as Hi.
    { unfold working_on. apply in_or_app. right. apply in_map, filter_In. rewrite Hh. auto. }
    rewrite E' in Hi. destruct Hi.
  - right. destruct Hp as [ls Hp]. rewrite Hp in Hh. cbn [holds blane] in Hh.
    destruct (keqb_spec x (Some l)); [subst; assumption|discriminate].
Qed.

Lemma waiting_on_lane w l : Inv w -> is_parallel w ->
  waiting_on w l = s_queue (serial_at (as_del w) (Some l)).
Proof.
  intros I [ls Hp]. unfold waiting_on, waiting. pose proof (v_keys w I) as Hk. pose proof (v_lane w I) as Hlane.
  rewrite Hp in *. cbn [keys_ok queued serial_at] in *.
  assert (Hq : forall l' s' o, In (l', s') ls -> In o (s_queue s') -> labelled l (d_instr o) = Nat.eqb l' l).
  { intros l' s' o Hi Ho.
    assert (E : lget l' ls = Some s').
    { clear - Hi Hk. induction ls as [|[l2 s2] ls IH]; [destruct Hi|]. inversion Hk; subst. cbn [lget].
      destruct Hi as [[= -> ->]|Hi].
      - rewrite Nat.eqb_refl. reflexivity.
      - destruct (Nat.eqb_spec l' l2) as [->|E]; [|auto].
        exfalso. apply H1. apply in_map_iff. exists (l2, s'). auto. }
    specialize (Hlane (Some l') o). cbn in Hlane. rewrite E in Hlane. specialize (Hlane Ho).
    destruct (d_instr o) as [i|]; cbn in *; [|discriminate]. congruence. }
  clear Hlane I Hp.
  assert (Hnone : forall q s', (forall o, In o (s_queue s') -> labelled l (d_instr o) = false) ->
    filter (fun o : order V => labelled l (d_instr o)) (s_queue s' ++ q) = filter (fun o => labelled l (d_instr o)) q).
  { intros q s' H. rewrite filter_app. induction (s_queue s') as [|o q' IH]; [reflexivity|].
    cbn [filter app]. rewrite (H o) by (left; reflexivity). apply IH. intros o' Ho'. apply H. right. assumption. }
  induction ls as [|[l2 s2] ls IH]; cbn [flat_map lget fst snd]; [reflexivity|].
  inversion Hk as [|? ? Hk1 Hk2]; subst.
  destruct (Nat.eqb_spec l l2) as [->|E].
  - rewrite filter_app.
    assert (E1 : filter (fun o => labelled l2 (d_instr o)) (s_queue s2) = s_queue s2).
    { assert (H : forall o, In o (s_queue s2) -> labelled l2 (d_instr o) = true).
      { intros o Ho. rewrite (Hq l2 s2 o); [apply Nat.eqb_refl|left; reflexivity|assumption]. }
      clear - H. induction (s_queue s2) as [|o q IH]; cbn [filter]; [reflexivity|].
      rewrite (H o) by (left; reflexivity). f_equal. apply IH. intros o' Ho'. apply H. right. assumption. }
    rewrite E1.
    assert (E2 : filter (fun o => labelled l2 (d_instr o)) (flat_map (fun p => s_queue (snd p)) ls) = []).
    { clear - Hq Hk1 Hnone. induction ls as [|[l3 s3] ls IH]; cbn [flat_map]; [reflexivity|].
      rewrite Hnone.
      - apply IH.
        + intros l' s' o [H|H]; apply Hq; [left|right; right]; assumption.
        + intros H. apply Hk1. right. assumption.
      - intros o Ho. cbn [snd] in Ho. rewrite (Hq l3 s3 o); [|right; left; reflexivity|assumption].
        apply Nat.eqb_neq. intros ->. apply Hk1. left. reflexivity. }
    rewrite E2. apply app_nil_r.
  - cbn [snd]. rewrite Hnone.
    + apply IH; [assumption|]. intros l' s' o Hi. apply Hq. right. assumption.
    + intros o Ho. rewrite (Hq l2 s2 o); [|left; reflexivity|assumption]. apply Nat.eqb_neq. congruence.
Qed.

Lemma serial_one es : let w := run (@new_serial V) es in as_stopfail w = [] -> length (working w) <= 1.
Proof.
  intros w Hs. assert (I : Inv w) by (apply inv_run, (inv_new (Serial serial_new)); [left|]; reflexivity).
  pose proof (working_weight w I (serial_kind es)) as H. rewrite (v_exact w I Hs) in H.
  destruct (s_delivering _); lia.
Qed.

Lemma serial_order es : let w := run (@new_serial V) es in
  as_recv w = seq 0 (as_next w) /\
  subsequence (as_start w ++ map d_task (waiting w)) (as_recv w).
Proof.
  intros w. assert (I : Inv w) by (apply inv_run, (inv_new (Serial serial_new)); [left|]; reflexivity).
  split; [apply (v_recv w I)|].
  destruct (serial_kind es) as [s Hs]. fold w in Hs. unfold waiting. rewrite Hs. apply (v_order w I). assumption.
Qed.

Lemma label_one es l : let w := run (@new_parallel V) es in as_stopfail w = [] -> length (working_on w l) <= 1.
Proof.
  intros w Hs. assert (I : Inv w) by (apply inv_run, (inv_new (Parallel [])); [right|]; reflexivity).
  pose proof (working_on_weight w l I (parallel_kind es)) as H. rewrite (v_exact w I Hs) in H.
  destruct (s_delivering _); lia.
Qed.

Lemma never_panics w : reachable w -> as_panic w = false.
Proof. intros H. apply (v_panic w (inv_reachable w H)). Qed.

Lemma idle_empty w : reachable w -> is_serial w -> working w = [] -> as_unblock w = [] -> waiting w = [].
Proof.
  intros Hr Hs Hw Hu. pose proof (inv_reachable w Hr) as I. rewrite <- serial_at_waiting by assumption.
  apply weight_zero; [assumption|]. destruct (weight w None) eqn:E; [reflexivity|].
  destruct (serial_weight_pos w I Hs) as [H|H]; [lia|contradiction|contradiction].
Qed.

Lemma idle_empty_label w l : reachable w -> is_parallel w -> working_on w l = [] ->
  ~ In (Some l) (as_unblock w) -> waiting_on w l = [].
Proof.
  intros Hr Hp Hw Hu. pose proof (inv_reachable w Hr) as I. rewrite waiting_on_lane by assumption.
  apply weight_zero; [assumption|]. destruct (weight w (Some l)) eqn:E; [reflexivity|].
  destruct (label_weight_pos w l I Hp) as [H|H]; [lia|contradiction|contradiction].
Qed.

Lemma one_whereabouts w : reachable w -> Permutation (as_recv w) (whereabouts w) /\ NoDup (whereabouts w).
Proof. intros H. pose proof (inv_reachable w H) as I. split; [apply (v_ledger w I)|apply ledger_nodup; assumption]. Qed.

(** ** Progress *)

Definition lane_of w k : list (order V) := s_queue (serial_at (as_del w) k).

Lemma unblock_lane w b us : Inv w -> as_unblock w = b :: us ->
  let w' := unblock w everything_alive in
  as_unblock w' = us /\
  (forall k, k <> blane (as_del w) b -> lane_of w' k = lane_of w k) /\
  (forall o q, lane_of w (blane (as_del w) b) = o :: q -> In (d_task o) (as_start w')) /\
  (forall x, In x (as_start w) -> In x (as_start w')).
Proof.
  intros I E w'. unfold w', unblock, lane_of. rewrite E.
  assert (Hk : known (as_del w) b).
  { apply (v_known w I). unfold blockers. rewrite E. rewrite !in_app_iff. right. right. left. reflexivity. }
  generalize (length (queued (as_del w))). intros fuel.
  destruct fuel; cbn [serve_next as_del set_unblock]; rewrite (pop_lane _ _ Hk); unfold pop_impl;
    destruct (s_queue (serial_at (as_del w) (blane (as_del w) b))) as [|o q] eqn:Eq; cbn [fst snd everything_alive];
    cbn [as_unblock as_del as_start set_del set_unblock start];
    (split; [reflexivity|]; split; [intros k Hne; rewrite serial_at_upd_neq by assumption; reflexivity|]; split;
     [intros o' q' H; try discriminate; injection H as <- <-; apply in_or_app; right; left; reflexivity|
      intros x Hx; try assumption; apply in_or_app; left; assumption]).
Qed.

Lemma unblock_progress us : forall w b vs k o q, Inv w -> as_unblock w = us ++ b :: vs ->
  blane (as_del w) b = k -> lane_of w k = o :: q ->
  exists n, In (d_task o) (as_start (run w (repeat (Unblock everything_alive) n))).
Proof.
  induction us as [|c us IH]; intros w b vs k o q I Hu Hb Hq.
  - exists 1. cbn [repeat run fold_left step]. destruct (unblock_lane w b vs I Hu) as (_ & _ & H & _).
    unfold lane_of in *. apply (H o q). rewrite Hb. assumption.
  - destruct (unblock_lane w c (us ++ b :: vs) I Hu) as (H1 & H2 & H3 & H4).
    destruct (keqb_spec (blane (as_del w) c) k) as [E|E].
    + exists 1. cbn [repeat run fold_left step]. apply (H3 o q). rewrite E. assumption.
    + destruct (IH (unblock w everything_alive) b vs k o q) as (n & Hn).
      * apply inv_unblock. assumption.
      * assumption.
      * rewrite (kind_blane (as_del w)) by apply (step_kind w (Unblock everything_alive)). assumption.
      * rewrite H2 by congruence. assumption.
      * exists (S n). exact Hn.
Qed.

Lemma cancelled_effect w k c cs : remove_nth k (as_cancels w) = Some (c, cs) ->
  as_unblock (cancelled w k) = as_unblock w ++ match c_block c with Some l => [l] | None => [] end /\
  as_del (cancelled w k) = as_del w /\ as_start (cancelled w k) = as_start w.
Proof.
  intros E. unfold cancelled. rewrite E. unfold cleanup_task.
  destruct (c_cause c), (c_block c), (c_clean c); cbn [as_tasks set_tasks set_unblock set_cancels];
    try destruct (existsb _ _); cbn; rewrite ?app_nil_r; auto.
Qed.

Lemma ready_effect w t : In t (as_tasks w) -> running t = true -> Inv w ->
  as_unblock (poll_ready w (t_id t)) = as_unblock w ++ match t_block t with Some l => [l] | None => [] end /\
  as_del (poll_ready w (t_id t)) = as_del w.
Proof.
  intros Ht Hr I. unfold poll_ready. rewrite (find_task_in _ _ Ht (v_ids w I)).
  unfold running in Hr. destruct (t_mode t); try discriminate. unfold cleanup_task.
  destruct (t_block t); cbn; rewrite ?app_nil_r; auto.
Qed.

(** Whatever holds the lane can be brought to its end, after which the next request starts. *)
Lemma lane_progress w k o q : Inv w -> lane_of w k = o :: q ->
  exists es, Forall ends_work es /\ In (d_task o) (as_start (run w es)).
Proof.
  intros I Hq.
  assert (Hw : weight w k >= 1).
  { apply (v_busy w I). intros E. apply (v_idle w I) in E. unfold lane_of in Hq. congruence. }
  apply hcount_pos in Hw. destruct Hw as (b & Hb & Hh).
  assert (Hfin : forall w1 e b', Inv w1 -> ends_work e -> w1 = step w e -> as_del w1 = as_del w ->
    as_unblock w1 = as_unblock w ++ [b'] -> blane (as_del w) b' = k ->
    exists es, Forall ends_work es /\ In (d_task o) (as_start (run w es))).
  { intros w1 e b' I1 He E1 Ed Eu Eb. destruct (unblock_progress (as_unblock w) w1 b' [] k o q) as (n & Hn).
    - assumption.
    - assumption.
    - rewrite Ed. assumption.
    - unfold lane_of in *. rewrite Ed. assumption.
    - exists (e :: repeat (Unblock everything_alive) n). split.
      + constructor; [assumption|]. apply Forall_forall. intros x Hx. apply repeat_spec in Hx. subst. reflexivity.
      + cbn [run fold_left]. rewrite <- E1. exact Hn. }
  unfold blockers in Hb. rewrite !in_app_iff in Hb.
  destruct Hb as [Hb|[Hb|Hb]]; apply in_map_iff in Hb; destruct Hb as (x & Ex & Hx).
  - destruct (running x) eqn:Er.
    2:{ destruct (v_closing w I x Hx Er) as [_ E2]. rewrite E2 in Ex. subst b. discriminate. }
    destruct (ready_effect w x Hx Er I) as [Eu Ed]. rewrite Ex in Eu. destruct b as [b'|]; [|discriminate].
    cbn [holds] in Hh. destruct (keqb_spec (blane (as_del w) b') k) as [Eb|]; [|discriminate].
    apply (Hfin (step w (Ready (t_id x))) (Ready (t_id x)) b'); auto; [apply inv_step; assumption|exact Logic.I].
  - apply in_split in Hx. destruct Hx as (a & c & Ec).
    pose proof (remove_nth_at a c x) as Hr. rewrite <- Ec in Hr.
    destruct (cancelled_effect w _ _ _ Hr) as (Eu & Ed & _). rewrite Ex in Eu. destruct b as [b'|]; [|discriminate].
    cbn [holds] in Hh. destruct (keqb_spec (blane (as_del w) b') k) as [Eb|]; [|discriminate].
    apply (Hfin (step w (Cancelled (length a))) (Cancelled (length a)) b'); auto; [apply inv_step; assumption|exact Logic.I].
  - subst b. cbn [holds] in Hh. destruct (keqb_spec (blane (as_del w) x) k) as [Eb|]; [|discriminate].
    apply in_split in Hx. destruct Hx as (a & c & Eu).
    destruct (unblock_progress a w x c k o q I Eu Eb Hq) as (n & Hn).
    exists (repeat (Unblock everything_alive) n). split; [|exact Hn].
    apply Forall_forall. intros y Hy. apply repeat_spec in Hy. subst. reflexivity.
Qed.

Lemma serial_progress w o q : reachable w -> is_serial w -> waiting w = o :: q ->
  exists es, Forall ends_work es /\ In (d_task o) (as_start (run w es)).
Proof.
  intros Hr Hs Hq. apply (lane_progress w None o q (inv_reachable w Hr)).
  unfold lane_of. rewrite serial_at_waiting; assumption.
Qed.

Lemma label_progress w l o q : reachable w -> is_parallel w -> waiting_on w l = o :: q ->
  exists es, Forall ends_work es /\ In (d_task o) (as_start (run w es)).
Proof.
  intros Hr Hs Hq. pose proof (inv_reachable w Hr) as I. apply (lane_progress w (Some l) o q I).
  unfold lane_of. rewrite <- waiting_on_lane; assumption.
Qed.

(** Cleaning the session in progress. *)
Lemma clean_task_cancels c w id x : In x (as_cancels w) -> In x (as_cancels (clean_task c w id)).
Proof.
  intros H. unfold clean_task, cleanup_task. destruct (find_task _ _) as [t|]; [|assumption].
  destruct (t_mode t); try assumption.
  - cbn. apply in_or_app. left. assumption.
  - cbn [as_tasks set_tasks]. destruct (existsb _ _); assumption.
Qed.

Lemma fold_clean_cancels c ids w x : In x (as_cancels w) -> In x (as_cancels (fold_left (clean_task c) ids w)).
Proof.
  revert w. induction ids as [|id ids IH]; intros w H; cbn [fold_left]; [assumption|].
  apply IH. apply clean_task_cancels. assumption.
Qed.

Lemma clean_task_other c w id t : Inv w -> In t (as_tasks w) -> t_id t <> id -> In t (as_tasks (clean_task c w id)).
Proof.
  intros I Ht Hne. unfold clean_task, cleanup_task. destruct (find_task _ _) as [t'|] eqn:E; [|assumption].
  destruct (find_task_split _ _ _ E (v_ids w I)) as (a & b & Ets & Eid & Hm & Hf).
  rewrite Ets in Ht. apply in_app_or in Ht.
  destruct (t_mode t'); cbn [as_tasks set_tasks set_cancels]; rewrite ?Hm, ?Hf.
  - apply in_or_app. destruct Ht as [Ht|[->|Ht]]; [left|congruence|right; right]; assumption.
  - rewrite Ets. apply in_or_app. assumption.
  - assert (Hi : In t (a ++ b)).
    { apply in_or_app. destruct Ht as [Ht|[->|Ht]]; [left|congruence|right]; assumption. }
    destruct (existsb _ _); exact Hi.
  - rewrite Ets. apply in_or_app. assumption.
Qed.

Lemma fold_clean_captures c ids w t : Inv w -> In t (as_tasks w) -> running t = true -> In (t_id t) ids ->
  In (capture t (Some c) None) (as_cancels (fold_left (clean_task c) ids w)).
Proof.
  revert w. induction ids as [|id ids IH]; intros w I Ht Hr Hi; [destruct Hi|]. cbn [fold_left].
  destruct (Nat.eq_dec (t_id t) id) as [<-|E].
  - apply fold_clean_cancels. unfold clean_task. rewrite (find_task_in _ _ Ht (v_ids w I)).
    unfold running in Hr. destruct (t_mode t); try discriminate. cbn. apply in_or_app. right. left. reflexivity.
  - destruct Hi as [Hi|Hi]; [congruence|]. apply IH; auto.
    + apply inv_clean_task. assumption.
    + apply clean_task_other; assumption.
Qed.

Lemma clean_captures w n (s : entity) c t : Inv w -> In t (as_tasks w) -> running t = true ->
  t_node t = n -> t_session t = s ->
  exists x, In x (as_cancels (clean_node w n s c)) /\ c_task x = t_id t /\ c_block x = t_block t /\ c_clean x = Some c.
Proof.
  intros I Ht Hr <- <-. unfold clean_node. set (w1 := log_cleaned _ _).
  assert (Hl : In (t_id t) (map t_id (filter (listed (t_node t) (t_session t)) (as_tasks w1)))).
  { apply in_map, filter_In. split; [exact Ht|]. unfold listed. rewrite !Nat.eqb_refl. reflexivity. }
  destruct (map t_id _) as [|i ids] eqn:E; [destruct Hl|].
  set (f := fun t' => if listed (t_node t) (t_session t) t' then _ else t').
  exists (capture (f t) (Some c) None).
  assert (Ef : t_id (f t) = t_id t /\ t_block (f t) = t_block t /\ running (f t) = running t).
  { unfold f. destruct (listed _ _ t); repeat split; reflexivity. }
  destruct Ef as (E1 & E2 & E3). split; [|cbn; auto].
  apply fold_clean_captures.
  - apply inv_mark. apply inv_clean_queue. assumption.
  - cbn [as_tasks set_tasks]. apply (in_map f). exact Ht.
  - congruence.
  - rewrite E1. assumption.
Qed.

Lemma clean_goes_on w n (s : entity) c t o q : reachable w -> is_serial w ->
  In t (as_tasks w) -> running t = true -> t_node t = n -> t_session t = s ->
  waiting (step w (Clean n s c)) = o :: q ->
  exists es, Forall ends_cancelled_work es /\ In (d_task o) (as_start (run (step w (Clean n s c)) es)).
Proof.
  intros Hr Hs Ht Hrt Hn Hss Hq. pose proof (inv_reachable w Hr) as I.
  destruct (clean_captures w n s c t I Ht Hrt Hn Hss) as (x & Hx & _ & Hb & _).
  assert (Hsl : exists l, t_block t = Some l).
  { rewrite (v_tblock w I t Ht Hrt). destruct Hs as [s0 ->]. cbn. eexists. reflexivity. }
  destruct Hsl as [l Hl]. rewrite Hl in Hb.
  set (w1 := step w (Clean n s c)) in *. assert (I1 : Inv w1) by (apply inv_step; assumption).
  change (clean_node w n s c) with w1 in Hx.
  apply in_split in Hx. destruct Hx as (a & b & Ec).
  pose proof (remove_nth_at a b x) as Hrm. rewrite <- Ec in Hrm.
  destruct (cancelled_effect w1 _ _ _ Hrm) as (Eu & Ed & _). rewrite Hb in Eu.
  assert (Hs1 : is_serial w1).
  { pose proof (step_kind w (Clean n s c)) as H. fold w1 in H. destruct Hs as [s0 Hs0]. rewrite Hs0 in H.
    unfold is_serial. destruct (as_del w1); [eexists; reflexivity|contradiction]. }
  destruct (unblock_progress (as_unblock w1) (cancelled w1 (length a)) l [] None o q) as (m & Hm).
  - apply inv_cancelled. assumption.
  - assumption.
  - rewrite Ed. destruct Hs1 as [s1 ->]. reflexivity.
  - unfold lane_of. rewrite Ed, serial_at_waiting; assumption.
  - exists (Cancelled (length a) :: repeat (Unblock everything_alive) m). split; [|exact Hm].
    constructor; [exact Logic.I|]. apply Forall_forall. intros y Hy. apply repeat_spec in Hy. subst. reflexivity.
Qed.

End Lanes.
