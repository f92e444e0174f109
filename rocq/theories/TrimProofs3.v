(** * Invariants of a trim and of what happens to its messages *)

From Coq Require Import List Arith Bool Lia.
From Verif Require Import Base TrimModel TrimSpec TrimProofs TrimProofs2.
Import ListNotations.

(** ** Association lists *)

Lemma aremove_in {A} k k' (a : A) l : In (k', a) (aremove k l) <-> In (k', a) l /\ k' <> k.
Proof.
  unfold aremove. rewrite filter_In. cbn [fst]. rewrite negb_true_iff, Nat.eqb_neq.
  split; intros [H1 H2]; split; auto.
Qed.

Lemma ainsert_in {A} k k' (a b : A) l :
  In (k', b) (ainsert k a l) <-> (In (k', b) l /\ k' <> k) \/ (k' = k /\ b = a).
Proof.
  unfold ainsert. rewrite in_app_iff, aremove_in. cbn. split.
  - intros [H|[H|[]]]; [auto|]. injection H as <- <-. auto.
  - intros [H|[-> ->]]; auto.
Qed.

Lemma alookup_in {A} k (a : A) l : alookup k l = Some a -> In (k, a) l.
Proof.
  induction l as [|[k' b] l IH]; cbn; [discriminate|].
  destruct (Nat.eqb_spec k k') as [->|]; intros H; [injection H as ->; now left|right; auto].
Qed.

Lemma alookup_none {A} k l : alookup k l = None -> forall a : A, ~ In (k, a) l.
Proof.
  induction l as [|[k' b] l IH]; cbn; [auto|].
  destruct (Nat.eqb_spec k k') as [->|Hk]; [discriminate|].
  intros H a [E|H2]; [congruence|]. apply (IH H a H2).
Qed.

Lemma remove_nth_in {A} k (l : list A) x r : remove_nth k l = Some (x, r) ->
  In x l /\ (forall y, In y r -> In y l) /\ (forall y, In y l -> y = x \/ In y r).
Proof.
  revert l r. induction k as [|k IH]; intros [|y l] r; cbn; try discriminate.
  - intros H. injection H as -> ->. split; [now left|]. split; [now right|]. intros z [->|Hz]; auto.
  - destruct (remove_nth k l) as [[z r']|] eqn:E; [|discriminate].
    intros H. injection H as -> <-. destruct (IH l r' E) as (H1 & H2 & H3).
    split; [now right|]. split.
    + intros z [->|Hz]; [now left|right; auto].
    + intros z [->|Hz]; [right; now left|]. destruct (H3 z Hz); [auto|right; now right].
Qed.

Section Trim.
Context {V : Type} (cf : tconfig).
Implicit Types (w : tworld V) (lg : list (tlog V)).

Definition calculated : trim_nodes :=
  calculate_nodes (tc_graph cf) (tc_entry cf) (tc_branches cf).

(** The nodes that this trim cleans. *)
Definition trimmed : list entity := match calculated with Nodes ns => ns | Invalid _ => [] end.

(** The message was taken and its session was not cleaned here since. *)
Definition live lg s v i : Prop :=
  exists a b, lg = a ++ LTake s v i :: b /\ ~ In (LSweep s) b.

Definition swept lg s v i : Prop :=
  exists a b, lg = a ++ LTake s v i :: b /\ In (LSweep s) b.

(** What must have happened before each entry of the log. *)
Definition justified (lg : list (tlog V)) (e : tlog V) : Prop :=
  match e with
  | LTake s v i => forall s' v', ~ In (LTake s' v' i) lg
  | LForward s v i =>
      live lg s v i
      /\ (forall s' v', ~ In (LForward s' v' i) lg)
      /\ (forall n, In n trimmed -> In (LClean n i) lg)
      /\ (exists n, In n trimmed)
      /\ (exists lg', lg = lg' ++ [LDispose s])
  | LClean n i =>
      In n trimmed
      /\ (n <> tc_self cf -> tc_reaction cf n <> Never)
      /\ (n = tc_self cf -> exists s v, swept lg s v i)
  | LCancel _ => exists e, calculated = Invalid e
  | LDispose _ => True
  | LSweep _ => True
  end.

(** [pend i n]: the trim [i] is yet to ask node [n]. *)
Record Inv (pend : entity -> entity -> Prop) w : Prop := {
  i_nodes : tw_nodes w = None \/ tw_nodes w = Some calculated;
  i_fresh : forall s v i, In (LTake s v i) (tw_log w) -> i < tw_next w;
  i_uniq : forall s v s' v' i, In (LTake s v i) (tw_log w) -> In (LTake s' v' i) (tw_log w) ->
      s = s' /\ v = v';
  i_hold : forall i s v, In (i, (s, v)) (tw_holding w) ->
      live (tw_log w) s v i /\ forall s' v', ~ In (LForward s' v' i) (tw_log w);
  i_hold_wait : forall i s v, In (i, (s, v)) (tw_holding w) ->
      (exists ns, In (i, ns) (tw_awaiting w)) \/ (exists c, In c (tw_finished w) /\ cl_id c = i);
  i_await : forall i ns, In (i, ns) (tw_awaiting w) ->
      (exists s v, In (LTake s v i) (tw_log w))
      /\ (forall n, In n trimmed -> In n ns \/ In (LClean n i) (tw_log w))
      /\ incl ns trimmed /\ (ns = [] -> trimmed = []);
  i_asked_all : forall i ns n, In (i, ns) (tw_awaiting w) -> In n ns ->
      pend i n \/ tc_reaction cf n = Never
      \/ exists c, In c (tw_asked w) /\ cl_id c = i /\ cl_node c = n;
  i_fin : forall c, In c (tw_finished w) ->
      (forall n, In n trimmed -> In (LClean n (cl_id c)) (tw_log w))
      /\ (exists n, In n trimmed)
      /\ exists v, In (LTake (cl_session c) v (cl_id c)) (tw_log w);
  i_fin_await : forall c ns, In c (tw_finished w) -> ~ In (cl_id c, ns) (tw_awaiting w);
  i_asked : forall c, In c (tw_asked w) ->
      In (cl_node c) trimmed /\ cl_node c <> tc_self cf /\ tc_reaction cf (cl_node c) = Later
      /\ exists v, In (LTake (cl_session c) v (cl_id c)) (tw_log w);
  i_log : forall l1 e l2, tw_log w = l1 ++ e :: l2 -> justified l1 e;
  i_dispose : forall l1 s l2, tw_log w = l1 ++ LDispose s :: l2 ->
      exists v i l3, l2 = LForward s v i :: l3;
  i_take : forall s v i, In (LTake s v i) (tw_log w) ->
      In (LForward s v i) (tw_log w) \/ In (i, (s, v)) (tw_holding w) \/ swept (tw_log w) s v i }.

Lemma snoc_split {A} (l : list A) x l1 e l2 : l ++ [x] = l1 ++ e :: l2 ->
  (l2 = [] /\ l1 = l /\ e = x) \/ (exists l3, l2 = l3 ++ [x] /\ l = l1 ++ e :: l3).
Proof.
  intros H. destruct (rev_case l2) as [->|(l3 & y & ->)].
  - left. apply app_inj_tail in H. destruct H as [-> ->]. auto.
  - right. exists l3. rewrite app_comm_cons, app_assoc in H. apply app_inj_tail in H.
    destruct H as [-> ->]. auto.
Qed.

Lemma live_snoc lg s v i e : live lg s v i -> e <> LSweep s -> live (lg ++ [e]) s v i.
Proof.
  intros (a & b & -> & H) He. exists a, (b ++ [e]). split.
  - rewrite <- app_assoc. reflexivity.
  - rewrite in_app_iff. cbn. intros [K|[K|[]]]; congruence.
Qed.

Lemma swept_snoc lg s v i e : swept lg s v i -> swept (lg ++ [e]) s v i.
Proof.
  intros (a & b & -> & H). exists a, (b ++ [e]). split.
  - rewrite <- app_assoc. reflexivity.
  - apply in_app_iff. now left.
Qed.

Lemma live_in lg s v i : live lg s v i -> In (LTake s v i) lg.
Proof. intros (a & b & -> & _). apply in_app_iff. right. now left. Qed.

Lemma swept_in lg s v i : swept lg s v i -> In (LTake s v i) lg.
Proof. intros (a & b & -> & _). apply in_app_iff. right. now left. Qed.

Lemma swept_now lg s v i : In (LTake s v i) lg -> swept (lg ++ [LSweep s]) s v i.
Proof.
  intros H. apply in_split in H. destruct H as (a & b & ->).
  exists a, (b ++ [LSweep s]). split; [rewrite <- app_assoc; reflexivity|].
  apply in_app_iff. right. now left.
Qed.

Lemma Inv_mono (pend pend' : entity -> entity -> Prop) w :
  (forall i n, pend i n -> pend' i n) -> Inv pend w -> Inv pend' w.
Proof.
  intros H []. split; auto. intros i ns n H1 H2.
  destruct (i_asked_all0 i ns n H1 H2) as [K|K]; auto.
Qed.

Lemma Inv_new : Inv (fun _ _ => False) trim_new.
Proof.
  split; cbn; try (intros; contradiction).
  - now left.
  - intros l1 e l2 H. destruct l1; discriminate.
  - intros l1 e l2 H. destruct l1; discriminate.
Qed.

(** Adding a node's report to the log. *)
Lemma Inv_log_clean pend w n i : Inv pend w ->
  In n trimmed -> (n <> tc_self cf -> tc_reaction cf n <> Never) ->
  (n = tc_self cf -> exists s v, swept (tw_log w) s v i) ->
  Inv pend (add_log (LClean n i) w).
Proof.
  intros I H1 H2 H3. destruct I. unfold add_log.
  assert (forall s v j, In (LTake s v j) (tw_log w ++ [LClean n i]) -> In (LTake s v j) (tw_log w)) as T.
  { intros s v j H. apply in_app_iff in H. destruct H as [H|[H|[]]]; [exact H|discriminate]. }
  assert (forall e, In e (tw_log w) -> In e (tw_log w ++ [LClean n i])) as U.
  { intros e H. apply in_app_iff. now left. }
  split; cbn [tw_inputs tw_nodes tw_holding tw_awaiting tw_asked tw_finished tw_next tw_log]; auto.
  - intros s v j H. eauto.
  - intros s v s' v' j K1 K2. eauto.
  - intros j s v H. destruct (i_hold0 j s v H) as [K1 K2]. split.
    + apply live_snoc; [exact K1|discriminate].
    + intros s' v' K. apply in_app_iff in K. destruct K as [K|[K|[]]]; [|discriminate].
      apply (K2 s' v' K).
  - intros j ns H. destruct (i_await0 j ns H) as ((s & v & K1) & K2 & K3 & K4).
    split; [eauto|]. split; [|auto]. intros m Hm. destruct (K2 m Hm); auto.
  - intros c H. destruct (i_fin0 c H) as (K1 & K2 & v & K3). split; [auto|]. split; [auto|]. eauto.
  - intros c H. destruct (i_asked0 c H) as (K1 & K2 & K3 & v & K4). repeat split; auto. eauto.
  - intros l1 e l2 H. apply snoc_split in H. destruct H as [(-> & -> & ->)|(l3 & -> & H)].
    + cbn. auto.
    + eauto.
  - intros l1 s l2 H. apply snoc_split in H. destruct H as [(_ & _ & H)|(l3 & -> & H)]; [discriminate|].
    destruct (i_dispose0 l1 s l3 H) as (v & j & l4 & ->). exists v, j, (l4 ++ [LClean n i]). reflexivity.
  - intros s v j H. apply T in H. destruct (i_take0 s v j H) as [K|[K|K]]; auto.
    right. right. apply swept_snoc. exact K.
Qed.

Definition but (pend : entity -> entity -> Prop) (i n : entity) : entity -> entity -> Prop :=
  fun i' n' => pend i' n' /\ ~ (i' = i /\ n' = n).

Lemma Inv_notify pend w n s i : Inv pend w ->
  In n trimmed -> (n <> tc_self cf -> tc_reaction cf n <> Never) ->
  (n = tc_self cf -> exists s v, swept (tw_log w) s v i) ->
  (exists v, In (LTake s v i) (tw_log w)) ->
  Inv (but pend i n) (notify_cleaned (Cleanup n s i) w).
Proof.
  intros I H1 H2 H3 (v0 & H4). unfold notify_cleaned. cbn [cl_node cl_id].
  assert (Inv pend (add_log (LClean n i) w)) as I' by (apply Inv_log_clean; assumption).
  assert (In (LClean n i) (tw_log (add_log (LClean n i) w))) as HL
    by (cbn; apply in_app_iff; right; now left).
  assert (In (LTake s v0 i) (tw_log (add_log (LClean n i) w))) as HT
    by (cbn; apply in_app_iff; now left).
  set (w' := add_log (LClean n i) w) in *. clearbody w'. clear I H3 H4. destruct I'.
  destruct (alookup i (tw_awaiting w')) as [ns|] eqn:Ea.
  2:{ split; auto. intros j ms m K1 K2. destruct (i_asked_all0 j ms m K1 K2) as [K|K]; [|auto].
      left. split; [exact K|]. intros [-> _]. exact (alookup_none i _ Ea ms K1). }
  apply alookup_in in Ea. destruct (i_await0 i ns Ea) as (A1 & A2 & A3 & A4).
  assert (forall m, In m (filter (fun m => negb (m =? n)) ns) <-> In m ns /\ m <> n) as HF.
  { intros m. rewrite filter_In, negb_true_iff, Nat.eqb_neq. tauto. }
  set (ns' := filter (fun m => negb (m =? n)) ns) in *. clearbody ns'.
  destruct ns' as [|x xs].
  - split; cbn [tw_inputs tw_nodes tw_holding tw_awaiting tw_asked tw_finished tw_next tw_log]; auto.
    + intros j t v H. destruct (i_hold_wait0 j t v H) as [(ms & K)|(c & K1 & K2)].
      * destruct (Nat.eq_dec j i) as [->|Hj].
        -- right. exists (Cleanup n s i). split; [apply in_app_iff; right; now left|reflexivity].
        -- left. exists ms. apply aremove_in. auto.
      * right. exists c. split; [apply in_app_iff; now left|exact K2].
    + intros j ms H. apply aremove_in in H. destruct H as [H _]. auto.
    + intros j ms m K1 K2. apply aremove_in in K1. destruct K1 as [K1 Hj].
      destruct (i_asked_all0 j ms m K1 K2) as [K|K]; [|auto]. left. split; [exact K|]. tauto.
    + intros c H. apply in_app_iff in H. destruct H as [H|[<-|[]]]; [auto|]. cbn [cl_id cl_session].
      split; [|split; [exists n; exact H1|exists v0; exact HT]].
      intros m Hm. destruct (A2 m Hm) as [K|K]; [|exact K].
      destruct (Nat.eq_dec m n) as [->|Hmn]; [exact HL|].
      exfalso. apply (proj2 (HF m)). auto.
    + intros c ms H K. apply aremove_in in K. destruct K as [K1 K2].
      apply in_app_iff in H. destruct H as [H|[<-|[]]]; [|cbn in K2; congruence].
      exact (i_fin_await0 c ms H K1).
  - split; cbn [tw_inputs tw_nodes tw_holding tw_awaiting tw_asked tw_finished tw_next tw_log]; auto.
    + intros j t v H. destruct (i_hold_wait0 j t v H) as [(ms & K)|K]; [|auto].
      left. destruct (Nat.eq_dec j i) as [->|Hj].
      * exists (x :: xs). apply ainsert_in. auto.
      * exists ms. apply ainsert_in. auto.
    + intros j ms H. apply ainsert_in in H. destruct H as [[H _]|[-> ->]]; [auto|].
      split; [exact A1|]. split; [|split].
      * intros m Hm. destruct (A2 m Hm) as [K|K]; [|auto].
        destruct (Nat.eq_dec m n) as [->|Hmn]; [auto|]. left. apply HF. auto.
      * intros m Hm. apply A3. apply HF in Hm. tauto.
      * discriminate.
    + intros j ms m K1 K2. apply ainsert_in in K1. destruct K1 as [[K1 Hj]|[-> ->]].
      * destruct (i_asked_all0 j ms m K1 K2) as [K|K]; [|auto]. left. split; [exact K|]. tauto.
      * apply HF in K2. destruct K2 as [K2 Hmn].
        destruct (i_asked_all0 i ns m Ea K2) as [K|K]; [|auto]. left. split; [exact K|]. tauto.
    + intros c ms H K. apply ainsert_in in K. destruct K as [[K _]|[K _]].
      * exact (i_fin_await0 c ms H K).
      * apply (i_fin_await0 c ns H). rewrite K. exact Ea.
Qed.

Lemma Inv_sweep pend w s : Inv pend w -> Inv pend (sweep s w).
Proof.
  intros I. destruct I. unfold sweep, add_log.
  cbn [tw_inputs tw_nodes tw_holding tw_awaiting tw_asked tw_finished tw_next tw_log].
  assert (forall t v j, In (LTake t v j) (tw_log w ++ [LSweep s]) -> In (LTake t v j) (tw_log w)) as T.
  { intros t v j H. apply in_app_iff in H. destruct H as [H|[H|[]]]; [exact H|discriminate]. }
  assert (forall e, In e (tw_log w) -> In e (tw_log w ++ [LSweep s])) as U.
  { intros e H. apply in_app_iff. now left. }
  assert (forall i t v, In (i, (t, v)) (filter (fun h => negb (fst (snd h) =? s)) (tw_holding w)) <->
    In (i, (t, v)) (tw_holding w) /\ t <> s) as HF.
  { intros i t v. rewrite filter_In. cbn [fst snd]. rewrite negb_true_iff, Nat.eqb_neq. tauto. }
  split; cbn [tw_inputs tw_nodes tw_holding tw_awaiting tw_asked tw_finished tw_next tw_log]; auto.
  - intros t v j H. eauto.
  - intros t v t' v' j K1 K2. eauto.
  - intros j t v H. apply HF in H. destruct H as [H Ht]. destruct (i_hold0 j t v H) as [K1 K2]. split.
    + apply live_snoc; [exact K1|congruence].
    + intros s' v' K. apply in_app_iff in K. destruct K as [K|[K|[]]]; [|discriminate].
      apply (K2 s' v' K).
  - intros j t v H. apply HF in H. destruct H as [H Ht]. eauto.
  - intros j ns H. destruct (i_await0 j ns H) as ((t & v & K1) & K2 & K3 & K4).
    split; [eauto|]. split; [|auto]. intros m Hm. destruct (K2 m Hm); auto.
  - intros c H. destruct (i_fin0 c H) as (K1 & K2 & v & K3). split; [auto|]. split; [auto|]. eauto.
  - intros c H. destruct (i_asked0 c H) as (K1 & K2 & K3 & v & K4). repeat split; auto. eauto.
  - intros l1 e l2 H. apply snoc_split in H. destruct H as [(-> & -> & ->)|(l3 & -> & H)].
    + exact Logic.I.
    + eauto.
  - intros l1 t l2 H. apply snoc_split in H. destruct H as [(_ & _ & H)|(l3 & -> & H)]; [discriminate|].
    destruct (i_dispose0 l1 t l3 H) as (v & j & l4 & ->). exists v, j, (l4 ++ [LSweep s]). reflexivity.
  - intros t v j H. apply T in H. destruct (i_take0 t v j H) as [K|[K|K]]; auto.
    + destruct (Nat.eq_dec t s) as [->|Ht].
      * right. right. apply swept_now. exact H.
      * right. left. apply HF. auto.
    + right. right. apply swept_snoc. exact K.
Qed.

Lemma sweep_log w s : tw_log (sweep s w) = tw_log w ++ [LSweep s].
Proof. reflexivity. Qed.

Lemma clean_take c w s v i : In (LTake s v i) (tw_log w) -> In (LTake s v i) (tw_log (clean cf c w)).
Proof.
  assert (forall w, In (LTake s v i) (tw_log w) ->
    In (LTake s v i) (tw_log (notify_cleaned c w))) as N.
  { clear w. intros w H. unfold notify_cleaned.
    assert (In (LTake s v i) (tw_log (add_log (LClean (cl_node c) (cl_id c)) w))) as H'
      by (cbn; apply in_app_iff; now left).
    destruct (alookup _ _) as [ns|]; [|exact H']. destruct (filter _ ns); exact H'. }
  intros H. unfold clean. destruct (_ =? _).
  - apply N. rewrite sweep_log. apply in_app_iff. now left.
  - destruct (tc_reaction cf _); [apply N; exact H|exact H|exact H].
Qed.

Lemma Inv_clean pend w n s i : Inv pend w -> In n trimmed ->
  (exists v, In (LTake s v i) (tw_log w)) ->
  Inv (but pend i n) (clean cf (Cleanup n s i) w).
Proof.
  intros I Hn (v & Hv). unfold clean. cbn [cl_node cl_session].
  destruct (Nat.eqb_spec n (tc_self cf)) as [E|E].
  - apply Inv_notify.
    + apply Inv_sweep. exact I.
    + exact Hn.
    + intros H. congruence.
    + intros _. exists s, v. rewrite sweep_log. apply swept_now. exact Hv.
    + exists v. rewrite sweep_log. apply in_app_iff. now left.
  - destruct (tc_reaction cf n) eqn:Er.
    + apply Inv_notify; [exact I|exact Hn|congruence|congruence|]. exists v. exact Hv.
    + destruct I. split; cbn [tw_inputs tw_nodes tw_holding tw_awaiting tw_asked tw_finished tw_next tw_log]; auto.
      * intros j ns m K1 K2.
        destruct (i_asked_all0 j ns m K1 K2) as [K|[K|(c & L1 & L2)]]; auto.
        -- destruct (Nat.eq_dec j i) as [->|Hj]; [|left; split; [exact K|tauto]].
           destruct (Nat.eq_dec m n) as [->|Hm]; [|left; split; [exact K|tauto]].
           right. right. exists (Cleanup n s i). split; [apply in_app_iff; right; now left|auto].
        -- right. right. exists c. split; [apply in_app_iff; now left|exact L2].
      * intros c H. apply in_app_iff in H. destruct H as [H|[<-|[]]]; [auto|]. cbn [cl_node cl_session cl_id].
        repeat split; auto. exists v. exact Hv.
    + destruct I. split; auto. intros j ns m K1 K2.
      destruct (i_asked_all0 j ns m K1 K2) as [K|K]; [|auto].
      destruct (Nat.eq_dec m n) as [->|Hm]; [auto|]. left. split; [exact K|tauto].
Qed.

Lemma Inv_clean_all s i v ns : forall w, incl ns trimmed ->
  In (LTake s v i) (tw_log w) ->
  Inv (fun j n => j = i /\ In n ns) w ->
  Inv (fun _ _ => False) (fold_left (fun w n => clean cf (Cleanup n s i) w) ns w).
Proof.
  induction ns as [|n ns IH]; intros w Hi Hv I; cbn [fold_left].
  - apply (Inv_mono _ _ _ (fun j n => fun H => proj2 H) I).
  - apply IH.
    + intros m Hm. apply Hi. now right.
    + apply clean_take. exact Hv.
    + apply (Inv_mono (but (fun j m => j = i /\ In m (n :: ns)) i n)).
      * intros j m [[-> [Hm|Hm]] Hb]; [|auto]. exfalso. apply Hb. auto.
      * apply Inv_clean; [exact I|apply Hi; now left|exists v; exact Hv].
Qed.

(** Taking a message. *)
Lemma Inv_begin w s v ns : calculated = Nodes ns -> Inv (fun _ _ => False) w ->
  Inv (fun _ _ => False) (begin_trim cf s v ns w).
Proof.
  intros Ec I. unfold begin_trim. cbv zeta.
  assert (trimmed = ns) as Et by (unfold trimmed; rewrite Ec; reflexivity).
  apply (Inv_clean_all s (tw_next w) v).
  - rewrite Et. apply incl_refl.
  - unfold add_log. cbn. apply in_app_iff. right. now left.
  - destruct I. set (i := tw_next w) in *.
    unfold add_log. cbn [tw_inputs tw_nodes tw_holding tw_awaiting tw_asked tw_finished tw_next tw_log].
    assert (forall e, In e (tw_log w) -> In e (tw_log w ++ [LTake s v i])) as U.
    { intros e H. apply in_app_iff. now left. }
    split; cbn [tw_inputs tw_nodes tw_holding tw_awaiting tw_asked tw_finished tw_next tw_log]; auto.
    + intros t u j H. apply in_app_iff in H. destruct H as [H|[H|[]]].
      * specialize (i_fresh0 t u j H). lia.
      * injection H as _ _ <-. lia.
    + intros t u t' u' j H1 H2. apply in_app_iff in H1. apply in_app_iff in H2.
      destruct H1 as [H1|[H1|[]]], H2 as [H2|[H2|[]]].
      * eauto.
      * injection H2 as _ _ <-. specialize (i_fresh0 _ _ _ H1). lia.
      * injection H1 as _ _ <-. specialize (i_fresh0 _ _ _ H2). lia.
      * injection H1 as <- <- <-. injection H2 as <- <-. auto.
    + intros j t u H. apply ainsert_in in H. destruct H as [[H Hj]|[-> H]].
      * destruct (i_hold0 j t u H) as [K1 K2]. split.
        -- apply live_snoc; [exact K1|discriminate].
        -- intros s' v' K. apply in_app_iff in K. destruct K as [K|[K|[]]]; [|discriminate].
           apply (K2 s' v' K).
      * injection H as -> ->. split.
        -- exists (tw_log w), []. split; [reflexivity|]. intros [].
        -- intros s' v' K. apply in_app_iff in K. destruct K as [K|[K|[]]]; [|discriminate].
           apply in_split in K. destruct K as (l1 & l2 & K).
           destruct (i_log0 _ _ _ K) as (L & _). apply live_in in L.
           assert (In (LTake s' v' i) (tw_log w)) as L' by (rewrite K; apply in_app_iff; now left).
           specialize (i_fresh0 _ _ _ L'). lia.
    + intros j t u H. apply ainsert_in in H. destruct H as [[H Hj]|[-> H]].
      * destruct (i_hold_wait0 j t u H) as [(ms & K)|K]; [|auto].
        left. exists ms. apply ainsert_in. auto.
      * left. exists ns. apply ainsert_in. auto.
    + intros j ms H. apply ainsert_in in H. destruct H as [[H Hj]|[-> ->]].
      * destruct (i_await0 j ms H) as ((t & u & K1) & K2 & K3 & K4).
        split; [eauto|]. split; [|auto]. intros m Hm. destruct (K2 m Hm); auto.
      * split; [exists s, v; apply in_app_iff; right; now left|]. rewrite Et.
        split; [auto|]. split; [apply incl_refl|auto].
    + intros j ms n H K. apply ainsert_in in H. destruct H as [[H Hj]|[-> ->]]; [|auto].
      destruct (i_asked_all0 j ms n H K) as [[]|L]; auto.
    + intros c H. destruct (i_fin0 c H) as (K1 & K2 & u & K3). split; [auto|]. split; [auto|]. eauto.
    + intros c ms H K. apply ainsert_in in K. destruct K as [[K _]|[K _]].
      * exact (i_fin_await0 c ms H K).
      * destruct (i_fin0 c H) as (_ & _ & u & K3). specialize (i_fresh0 _ _ _ K3). lia.
    + intros c H. destruct (i_asked0 c H) as (K1 & K2 & K3 & u & K4). repeat split; auto. eauto.
    + intros l1 e l2 H. apply snoc_split in H. destruct H as [(-> & -> & ->)|(l3 & -> & H)].
      * cbn. intros s' v' K. specialize (i_fresh0 _ _ _ K). lia.
      * eauto.
    + intros l1 t l2 H. apply snoc_split in H. destruct H as [(_ & _ & H)|(l3 & -> & H)]; [discriminate|].
      destruct (i_dispose0 l1 t l3 H) as (u & j & l4 & ->). exists u, j, (l4 ++ [LTake s v i]). reflexivity.
    + intros t u j H. apply in_app_iff in H. destruct H as [H|[H|[]]].
      * destruct (i_take0 t u j H) as [K|[K|K]]; auto.
        -- right. left. apply ainsert_in. left. split; [exact K|].
           specialize (i_fresh0 _ _ _ H). lia.
        -- right. right. apply swept_snoc. exact K.
      * injection H as <- <- <-. right. left. apply ainsert_in. auto.
Qed.

Lemma Inv_inputs pend w inputs nodes : (nodes = None \/ nodes = Some calculated) -> Inv pend w ->
  Inv pend (TWorld inputs nodes (tw_holding w) (tw_awaiting w) (tw_asked w) (tw_finished w)
                   (tw_next w) (tw_log w)).
Proof. intros Hn I. destruct I. split; auto. Qed.

Lemma Inv_execute w : Inv (fun _ _ => False) w -> Inv (fun _ _ => False) (execute cf w).
Proof.
  intros I. unfold execute. destruct (pop_last (tw_inputs w)) as [inputs [[s v]|]]; [|exact I].
  assert (match tw_nodes w with
          | Some r => r
          | None => calculate_nodes (tc_graph cf) (tc_entry cf) (tc_branches cf)
          end = calculated) as ->.
  { destruct (i_nodes _ _ I) as [E|E]; rewrite E; reflexivity. }
  cbv zeta. pose proof (Inv_inputs _ w inputs (Some calculated) (or_intror eq_refl) I) as I'.
  destruct calculated as [ns|e] eqn:Ec.
  - apply Inv_begin; assumption.
  - rewrite <- Ec in I'. rewrite <- Ec. set (w' := TWorld _ _ _ _ _ _ _ _) in *. clearbody w'. clear I.
    destruct I'. unfold add_log.
    assert (forall t u j, In (LTake t u j) (tw_log w' ++ [LCancel s]) -> In (LTake t u j) (tw_log w')) as T.
    { intros t u j H. apply in_app_iff in H. destruct H as [H|[H|[]]]; [exact H|discriminate]. }
    assert (forall x, In x (tw_log w') -> In x (tw_log w' ++ [LCancel s])) as U.
    { intros x H. apply in_app_iff. now left. }
    split; cbn [tw_inputs tw_nodes tw_holding tw_awaiting tw_asked tw_finished tw_next tw_log]; auto.
    + intros t u j H. eauto.
    + intros t u t' u' j K1 K2. eauto.
    + intros j t u H. destruct (i_hold0 j t u H) as [K1 K2]. split.
      * apply live_snoc; [exact K1|discriminate].
      * intros s' v' K. apply in_app_iff in K. destruct K as [K|[K|[]]]; [|discriminate].
        apply (K2 s' v' K).
    + intros j ns H. destruct (i_await0 j ns H) as ((t & u & K1) & K2 & K3 & K4).
      split; [eauto|]. split; [|auto]. intros m Hm. destruct (K2 m Hm); auto.
    + intros c H. destruct (i_fin0 c H) as (K1 & K2 & u & K3). split; [auto|]. split; [auto|]. eauto.
    + intros c H. destruct (i_asked0 c H) as (K1 & K2 & K3 & u & K4). repeat split; auto. eauto.
    + intros l1 x l2 H. apply snoc_split in H. destruct H as [(-> & -> & ->)|(l3 & -> & H)].
      * cbn. eauto.
      * eauto.
    + intros l1 t l2 H. apply snoc_split in H. destruct H as [(_ & _ & H)|(l3 & -> & H)]; [discriminate|].
      destruct (i_dispose0 l1 t l3 H) as (u & j & l4 & ->). exists u, j, (l4 ++ [LCancel s]). reflexivity.
    + intros t u j H. apply T in H. destruct (i_take0 t u j H) as [K|[K|K]]; auto.
      right. right. apply swept_snoc. exact K.
Qed.

Lemma Inv_finish w c cs : Inv (fun _ _ => False) w -> tw_finished w = c :: cs ->
  Inv (fun _ _ => False)
    (finalize c (TWorld (tw_inputs w) (tw_nodes w) (tw_holding w) (tw_awaiting w)
                        (tw_asked w) cs (tw_next w) (tw_log w))).
Proof.
  intros I Ef. destruct I. rewrite Ef in *.
  destruct (i_fin0 c (or_introl eq_refl)) as (F1 & F2 & v0 & F3).
  unfold finalize. cbn [tw_inputs tw_nodes tw_holding tw_awaiting tw_asked tw_finished tw_next tw_log].
  destruct (alookup (cl_id c) (tw_holding w)) as [[s v]|] eqn:Ea.
  2:{ split; cbn [tw_inputs tw_nodes tw_holding tw_awaiting tw_asked tw_finished tw_next tw_log]; auto.
      - intros j t u H. destruct (i_hold_wait0 j t u H) as [(ms & K)|(d & K1 & K2)].
        + left. exists ms. apply aremove_in. split; [exact K|]. intros ->.
          exact (alookup_none _ _ Ea _ H).
        + destruct K1 as [<-|K1]; [|eauto]. subst j. exfalso. exact (alookup_none _ _ Ea _ H).
      - intros j ms H. apply aremove_in in H. destruct H. auto.
      - intros j ms n H K. apply aremove_in in H. destruct H. eauto.
      - intros d H. apply i_fin0. now right.
      - intros d ms H K. apply aremove_in in K. destruct K as [K _].
        apply (i_fin_await0 d ms (or_intror H) K). }
  apply alookup_in in Ea. destruct (i_hold0 _ _ _ Ea) as [L1 L2].
  destruct (i_uniq0 _ _ _ _ _ F3 (live_in _ _ _ _ L1)) as [Es _].
  unfold add_log. cbn [tw_inputs tw_nodes tw_holding tw_awaiting tw_asked tw_finished tw_next tw_log].
  rewrite Es. remember (cl_id c) as i eqn:Hi.
  assert (forall t u j, In (LTake t u j) ((tw_log w ++ [LDispose s]) ++ [LForward s v i]) ->
    In (LTake t u j) (tw_log w)) as T.
  { intros t u j H. rewrite <- app_assoc in H. apply in_app_iff in H.
    destruct H as [H|[H|[H|[]]]]; [exact H|discriminate|discriminate]. }
  assert (forall x, In x (tw_log w) -> In x ((tw_log w ++ [LDispose s]) ++ [LForward s v i])) as U.
  { intros x H. rewrite <- app_assoc. apply in_app_iff. now left. }
  split; cbn [tw_inputs tw_nodes tw_holding tw_awaiting tw_asked tw_finished tw_next tw_log]; auto.
  - intros t u j H. eauto.
  - intros t u t' u' j K1 K2. eauto.
  - intros j t u H. apply aremove_in in H. destruct H as [H Hj].
    destruct (i_hold0 j t u H) as [K1 K2]. split.
    + apply live_snoc; [|discriminate]. apply live_snoc; [exact K1|discriminate].
    + intros s' v' K. rewrite <- app_assoc in K. apply in_app_iff in K.
      destruct K as [K|[K|[K|[]]]]; [apply (K2 s' v' K)|discriminate|]. injection K as _ _ ->. congruence.
  - intros j t u H. apply aremove_in in H. destruct H as [H Hj].
    destruct (i_hold_wait0 j t u H) as [(ms & K)|(d & K1 & K2)].
    + left. exists ms. apply aremove_in. auto.
    + destruct K1 as [<-|K1]; [congruence|]. right. eauto.
  - intros j ms H. apply aremove_in in H. destruct H as [H _].
    destruct (i_await0 j ms H) as ((t & u & K1) & K2 & K3 & K4).
    split; [eauto|]. split; [|auto]. intros m Hm. destruct (K2 m Hm); auto.
  - intros j ms n H K. apply aremove_in in H. destruct H. eauto.
  - intros d H. destruct (i_fin0 d (or_intror H)) as (K1 & K2 & u & K3).
    split; [auto|]. split; [auto|]. eauto.
  - intros d ms H K. apply aremove_in in K. destruct K as [K _].
    apply (i_fin_await0 d ms (or_intror H) K).
  - intros d H. destruct (i_asked0 d H) as (K1 & K2 & K3 & u & K4). repeat split; auto. eauto.
  - intros l1 x l2 H. apply snoc_split in H. destruct H as [(-> & -> & ->)|(l3 & -> & H)].
    + cbn. split; [apply live_snoc; [exact L1|discriminate]|]. split.
      { intros s' v' K. apply in_app_iff in K. destruct K as [K|[K|[]]]; [|discriminate].
        apply (L2 s' v' K). }
      split. { intros n Hn. apply in_app_iff. left. auto. }
      split; [exact F2|]. eauto.
    + apply snoc_split in H. destruct H as [(-> & -> & ->)|(l4 & -> & H)]; [exact Logic.I|]. eauto.
  - intros l1 t l2 H. apply snoc_split in H. destruct H as [(_ & _ & H)|(l3 & -> & H)]; [discriminate|].
    apply snoc_split in H. destruct H as [(-> & -> & H)|(l4 & -> & H)].
    + injection H as ->. exists v, i, []. reflexivity.
    + destruct (i_dispose0 l1 t l4 H) as (u & j & l5 & ->).
      exists u, j, ((l5 ++ [LDispose s]) ++ [LForward s v i]). reflexivity.
  - intros t u j H. apply T in H. destruct (i_take0 t u j H) as [K|[K|K]]; auto.
    + destruct (Nat.eq_dec j i) as [->|Hj].
      * destruct (i_uniq0 _ _ _ _ _ H (live_in _ _ _ _ L1)) as [-> ->].
        left. apply in_app_iff. right. now left.
      * right. left. apply aremove_in. auto.
    + right. right. apply swept_snoc, swept_snoc. exact K.
Qed.

Lemma Inv_step w e : Inv (fun _ _ => False) w -> Inv (fun _ _ => False) (tstep cf w e).
Proof.
  intros I. destruct e as [s v| |k again| |s]; cbn [tstep].
  - apply Inv_inputs; [apply (i_nodes _ _ I)|exact I].
  - apply Inv_execute. exact I.
  - destruct (remove_nth k (tw_asked w)) as [[c cs]|] eqn:Er; [|exact I].
    destruct (remove_nth_in _ _ _ _ Er) as (R1 & R2 & R3).
    destruct (i_asked _ _ I c R1) as (A1 & A2 & A3 & A4).
    destruct c as [n s i]. cbn [cl_node cl_session cl_id] in *.
    apply (Inv_mono (but (fun j m => again = false /\ j = i /\ m = n) i n)).
    { intros j m [(_ & -> & ->) H]. apply H. auto. }
    apply Inv_notify; [|exact A1|congruence|congruence|destruct again; exact A4].
    destruct again; [apply (Inv_mono (fun _ _ => False)); [intros j m []|exact I]|].
      destruct I. split; cbn [tw_inputs tw_nodes tw_holding tw_awaiting tw_asked tw_finished tw_next tw_log]; auto.
      intros j ms m K1 K2. destruct (i_asked_all0 j ms m K1 K2) as [[]|[K|(d & L1 & L2 & L3)]]; auto.
      destruct (R3 d L1) as [->|L]; [left; cbn in *; auto|]. right. right. exists d. auto.
  - destruct (tw_finished w) as [|c cs] eqn:Ef; [exact I|]. apply Inv_finish; assumption.
  - apply Inv_sweep. exact I.
Qed.

Lemma Inv_run es : Inv (fun _ _ => False) (trun cf es).
Proof.
  unfold trun. assert (Inv (fun _ _ => False) (@trim_new V)) as I by apply Inv_new.
  generalize dependent (@trim_new V). induction es as [|e es IH]; intros w I; [exact I|].
  cbn. apply IH. apply Inv_step. exact I.
Qed.

End Trim.
