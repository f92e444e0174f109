(** C76: keys to buffers keep what is behind the buffers reachable, exactly while they are held. *)
From Verif Require Import Base KeyModel KeySpec KeyProofs KeyProofs2.

(** While somebody has a copy of a key of the session, its accessor says that keys are in use,
    whatever threads do and however many buffers there are. *)
Theorem C76_held_keys_are_in_use :
  forall bs n os s,
    let w := krun bs (kfresh n) os in
    in_use s (kw_log w) -> ~ kcleaned s (kw_log w) -> key_usage bs w s = true.
Proof.
  intros bs n os s w (k & b & H1 & H2) Hc.
  pose proof (KInv_krun bs os _ (KInv_fresh bs n)) as I. fold w in I.
  destruct (in_dec Nat.eq_dec k (map fst (kw_lives w))) as [K|K]; [|rewrite (k_gone _ _ I k K) in H2; lia].
  apply in_map_iff in K as [[k' l] [E K]]. cbn in E. subst k'.
  destruct (k_log _ _ I _ _ _ H1) as (_ & Hb & Hs & _). specialize (Hs l K).
  destruct (k_trk _ _ I _ _ K) as [T|T]; [|rewrite Hs in T; contradiction]. rewrite Hs in T.
  assert (Hn : bs <> []) by (intros Z; rewrite Z in Hb; exact Hb).
  rewrite (usage_count bs w s _ I T Hn). apply Nat.ltb_lt.
  assert (X : In (k, l) (tracked_by (lf_trk l) (kw_lives w))).
  { apply filter_In. split; [exact K|apply Nat.eqb_refl]. }
  destruct (tracked_by (lf_trk l) (kw_lives w)) as [|x m]; [contradiction|].
  destruct bs; [contradiction|]. cbn [length]. lia.
Qed.

(** If the accessor has one buffer, and nothing happens in the middle of dropping a key, then it
    says so only then. *)
Theorem C76_in_use_only_while_held_partial :
  forall b n os s,
    let w := krun [b] (kfresh n) (flat_map at_once os) in
    ~ kcleaned s (kw_log w) ->
    (key_usage [b] w s = true <-> in_use s (kw_log w)).
Proof.
  intros b n os s w Hc. split; [|intros H; apply C76_held_keys_are_in_use; assumption].
  pose proof (KInv_krun [b] (flat_map at_once os) _ (KInv_fresh [b] n)) as I. fold w in I.
  destruct (noticed_run [b] os (kfresh n) (KInv_fresh [b] n)) as [Z _]; [intros k l []| |reflexivity|].
  { intros s' H. exfalso. apply H. reflexivity. }
  fold w in Z. intros H. destruct (kw_held w s) as [t|] eqn:Eh.
  2:{ unfold key_usage in H. rewrite Eh in H. discriminate. }
  rewrite (usage_count [b] w s t I Eh) in H by discriminate. apply Nat.ltb_lt in H. cbn [length] in H.
  destruct (tracked_in t (kw_lives w)) as (k & l & K1 & K2).
  { intros K. rewrite K in H. cbn in H. lia. }
  assert (E : lf_sess l = s) by (apply (k_own _ _ I k l s K1); congruence).
  exists k, (lf_buf l). split; [rewrite <- E; apply (k_key _ _ I _ _ K1)|].
  rewrite (k_made _ _ I _ _ K1). specialize (Z _ _ K1). lia.
Qed.

(** If it has several buffers it says so for ever after the first key of the session went out. *)
Theorem C76_several_buffers_refuted :
  forall bs n os s,
    let w := krun bs (kfresh n) os in
    2 <= length bs -> got_key s (kw_log w) -> ~ kcleaned s (kw_log w) ->
    key_usage bs w s = true.
Proof.
  intros bs n os s w L (k & b & H) Hc. pose proof (KInv_krun bs os _ (KInv_fresh bs n)) as I. fold w in I.
  destruct (k_log _ _ I _ _ _ H) as (_ & Hb & _ & [Hh|Hh]); [|contradiction].
  destruct (kw_held w s) as [t|] eqn:Eh; [|contradiction].
  rewrite (usage_count bs w s t I Eh) by (intros Z; rewrite Z in Hb; exact Hb). apply Nat.ltb_lt. lia.
Qed.

(** After the last copy of the last key was dropped, a check finds that keys are not in use. This
    leaves out accessors with several buffers and keys that are dropped while the flush is running. *)
Theorem C76_dropped_keys_are_noticed_partial :
  forall b n os s,
    let w := krun [b] (kfresh n) (flat_map at_once os) in
    all_handled w -> got_key s (kw_log w) -> ~ kcleaned s (kw_log w) -> ~ in_use s (kw_log w) ->
    found_unused s false (kw_log w) = true.
Proof.
  intros b n os s w [A1 A2] (k & b' & H) Hc Hu.
  pose proof (KInv_krun [b] (flat_map at_once os) _ (KInv_fresh [b] n)) as I. fold w in I.
  destruct (noticed_run [b] os (kfresh n) (KInv_fresh [b] n)) as [Z N]; [intros k' l []| |reflexivity|].
  { intros s' K. exfalso. apply K. reflexivity. }
  fold w in Z, N. destruct (k_log _ _ I _ _ _ H) as (_ & _ & _ & [Hh|Hh]); [|contradiction].
  destruct (N s Hh Hc) as [K|[K|[K|K]]].
  - exact K.
  - exfalso. destruct K as (k' & l & K1 & <-). apply Hu. exists k', (lf_buf l).
    split; [apply (k_key _ _ I _ _ K1)|]. rewrite (k_made _ _ I _ _ K1). specialize (Z _ _ K1). lia.
  - rewrite A2 in K. contradiction.
  - rewrite A1 in K. contradiction.
Qed.

(** If a key is dropped on another thread the notice may be handled before the key is released, and
    nothing looks again. *)
Theorem C76_dropped_elsewhere_refuted :
  exists os,
    let w := krun [3] (kfresh 10) os in
    all_handled w /\ got_key 5 (kw_log w) /\ ~ kcleaned 5 (kw_log w) /\ ~ in_use 5 (kw_log w) /\
    kw_lives w = [] /\ key_usage [3] w 5 = false /\
    kw_log w = [KvActive 5 3; KvKey 5 11 3; KvDropped 5 11; KvCheck 5 true].
Proof.
  exists [KAccess 5; KDrop 11; KNotice; KCheck; KRelease 11].
  split; [split; reflexivity|]. split; [exists 11, 3; right; left; reflexivity|].
  split; [cbn; intros K; decompose [or] K; try discriminate; contradiction|].
  split; [|repeat split; reflexivity].
  intros (k & b & H1 & H2). cbn in H1. destruct H1 as [H1|[H1|[H1|[H1|[]]]]]; try discriminate.
  injection H1 as <- <-. cbn in H2. lia.
Qed.

(** A key goes out only for a buffer of the accessor which was made active for the session. *)
Theorem C76_buffers_are_active_before :
  forall bs n os l1 s k b l2,
    let w := krun bs (kfresh n) os in
    kw_log w = l1 ++ KvKey s k b :: l2 -> In b bs /\ In (KvActive s b) l1.
Proof.
  intros bs n os l1 s k b l2 w H. pose proof (KInv_krun bs os _ (KInv_fresh bs n)) as I. fold w in I. split.
  - apply (k_log _ _ I s k b). rewrite H. apply in_or_app. right. left. reflexivity.
  - exact (k_order _ _ I _ _ _ _ _ H).
Qed.

(** After the cleanup of its session by the scope nothing is in use, other sessions are not
    affected, and a cleanup by something else (a trim) leaves the tracking of keys alone. *)
Theorem C76_cleanup_takes_only_its_session :
  forall bs n os s,
    let w := krun bs (kfresh n) os in
    let w' := kstep bs w (KClean true s) in
    key_usage bs w' s = false /\
    (forall s', s' <> s -> key_usage bs w' s' = key_usage bs w s') /\
    (forall s', key_usage bs (kstep bs w (KClean false s)) s' = key_usage bs w s').
Proof.
  intros bs n os s w w'. pose proof (KInv_krun bs os _ (KInv_fresh bs n)) as I. fold w in I.
  assert (E : kw_held w' = emap_set (kw_held w) s None /\
    forall t, kw_held w s <> Some t -> kw_count w' t = kw_count w t).
  { unfold w'. cbn [kstep kclean]. destruct (kw_held w s) as [t|]; [|split; reflexivity].
    match goal with |- context [fold_left _ bs ?v] => destruct (drop_held_same s t bs v) as (_ & B2 & _ & _ & _ & B6 & _) end.
    cbn zeta in *. rewrite B2. split; [reflexivity|]. intros t' H. rewrite B6 by congruence. reflexivity. }
  destruct E as [E1 E2]. split; [|split; [|reflexivity]].
  - unfold key_usage. rewrite E1, emap_set_eq. reflexivity.
  - intros s' Hs. unfold key_usage. rewrite E1, emap_set_neq by exact Hs.
    destruct (kw_held w s') as [t|] eqn:Eh; [|reflexivity].
    rewrite E2; [reflexivity|]. intros K. apply Hs. symmetry. exact (k_inj _ _ I _ _ _ K Eh).
Qed.

(** ** Cases *)

(** Two sessions; session 5 has two keys, of which one was copied; two copies are left. *)
Example C76_in_use_case :
  exists os,
    let w := krun [3] (kfresh 10) (flat_map at_once os) in
    in_use 5 (kw_log w) /\ in_use 6 (kw_log w) /\ ~ kcleaned 5 (kw_log w) /\
    kw_log w = [KvActive 5 3; KvKey 5 11 3; KvKey 5 12 3; KvCopied 5 11; KvActive 6 3; KvKey 6 14 3;
                KvDropped 5 12; KvCheck 5 true; KvDropped 5 11].
Proof.
  exists [KAccess 5; KAccess 5; KCopy 11; KAccess 6; KDrop 12; KNotice; KCheck; KDrop 11].
  split; [exists 11, 3; split; [right; left; reflexivity|cbn; lia]|].
  split; [exists 14, 3; split; [do 5 right; left; reflexivity|cbn; lia]|].
  split; [|reflexivity]. cbn. intros K. decompose [or] K; try discriminate; contradiction.
Qed.

(** All keys were dropped and the last check says so. *)
Example C76_dropped_keys_are_noticed_case :
  exists os,
    let w := krun [3] (kfresh 10) (flat_map at_once os) in
    all_handled w /\ got_key 5 (kw_log w) /\ ~ kcleaned 5 (kw_log w) /\ ~ in_use 5 (kw_log w) /\
    kw_log w = [KvActive 5 3; KvKey 5 11 3; KvKey 5 12 3; KvDropped 5 12; KvCheck 5 true; KvDropped 5 11;
                KvCheck 5 false].
Proof.
  exists [KAccess 5; KAccess 5; KDrop 12; KNotice; KCheck; KDrop 11; KNotice; KCheck].
  split; [split; reflexivity|]. split; [exists 11, 3; right; left; reflexivity|].
  split; [cbn; intros K; decompose [or] K; try discriminate; contradiction|]. split; [|reflexivity].
  intros (k & b & H1 & H2). cbn in H1.
  destruct H1 as [H1|[H1|[H1|[H1|[H1|[H1|[H1|[]]]]]]]]; try discriminate; injection H1 as <- <-; cbn in H2; lia.
Qed.

(** Two buffers: all keys are gone and all notices handled, and every check says they are in use. *)
Example C76_several_buffers_case :
  exists os,
    let w := krun [3; 4] (kfresh 10) (flat_map at_once os) in
    all_handled w /\ got_key 5 (kw_log w) /\ ~ kcleaned 5 (kw_log w) /\ ~ in_use 5 (kw_log w) /\ kw_lives w = [] /\
    kw_log w = [KvActive 5 3; KvActive 5 4; KvKey 5 11 3; KvKey 5 12 4; KvDropped 5 11; KvDropped 5 12;
                KvCheck 5 true; KvCheck 5 true].
Proof.
  exists [KAccess 5; KDrop 11; KDrop 12; KNotice; KNotice; KCheck; KCheck].
  split; [split; reflexivity|]. split; [exists 11, 3; do 2 right; left; reflexivity|].
  split; [cbn; intros K; decompose [or] K; try discriminate; contradiction|]. split; [|split; reflexivity].
  intros (k & b & H1 & H2). cbn in H1.
  destruct H1 as [H1|[H1|[H1|[H1|[H1|[H1|[H1|[H1|[]]]]]]]]]; try discriminate; injection H1 as <- <-; cbn in H2; lia.
Qed.

(** The session is cleaned up while a key is held. *)
Example C76_cleanup_case :
  exists os,
    let w := krun [3] (kfresh 10) os in
    key_usage [3] w 5 = true /\ key_usage [3] w 6 = true /\
    key_usage [3] (kstep [3] w (KClean true 5)) 5 = false /\
    key_usage [3] (kstep [3] w (KClean true 5)) 6 = true.
Proof. exists [KAccess 5; KAccess 6]. repeat split; reflexivity. Qed.

Print Assumptions C76_held_keys_are_in_use.
Print Assumptions C76_in_use_only_while_held_partial.
Print Assumptions C76_several_buffers_refuted.
Print Assumptions C76_dropped_keys_are_noticed_partial.
Print Assumptions C76_dropped_elsewhere_refuted.
Print Assumptions C76_buffers_are_active_before.
Print Assumptions C76_cleanup_takes_only_its_session.
