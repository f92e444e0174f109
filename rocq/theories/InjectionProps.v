(** C75: requests that are injected together with their service. *)
From Verif Require Import Base ScopeModel InjectionModel InjectionSpec InjectionProofs InjectionProofs2
  InjectionProofs3 InjectionProofs4.

(** ** Responses *)

(** While the session is not cleaned up, all responses that services gave are the ones that went on
    to the next operation, and those which are on their way there. *)
Theorem C75_responses_are_passed_on :
  forall (V R : Type) n (os : list (iop V R)) s,
    let w := irun (ifresh n) os in
    ~ cleaned s (iw_log w) ->
    Permutation (responses_of s (iw_log w)) (outs_of s (iw_log w) ++ at_finish w s).
Proof. intros V R n os s w. apply (v_resp _ (Inv_irun os _ (Inv_fresh n))). Qed.

(** Whatever happens, only responses which the service of that request gave for that session come
    out, and at most one for each request. *)
Theorem C75_responses_come_out_once :
  forall (V R : Type) n (os : list (iop V R)),
    let w := irun (ifresh n) os in
    (forall s t r, In (JvOut s t r) (iw_log w) -> In (JvResponse s t r) (iw_log w)) /\
    NoDup (flat_map (fun e => match e with JvOut _ t _ => [t] | _ => [] end) (iw_log w)).
Proof.
  intros V R n os w. pose proof (Inv_irun os _ (Inv_fresh n)) as I. split.
  - intros s t r H. apply (v_out _ I s t r H).
  - apply (v_once _ I).
Qed.

(** ** Order *)

Theorem C75_requests_start_in_order :
  forall (V R : Type) n (os : list (iop V R)) s,
    let w := irun (ifresh n) os in
    ~ cleaned s (iw_log w) ->
    issued_of s (iw_log w) = started_of s (iw_log w) ++ requests_waiting s [] (iw_log w).
Proof.
  intros V R n os s w C. pose proof (Inv_irun os _ (Inv_fresh n)) as I.
  assert (O : ordered w).
  { apply ordered_irun; [apply Inv_fresh|]. intros s' _. reflexivity. }
  rewrite <- (v_inputs _ I). exact (O s C).
Qed.

(** ** Reachability *)

(** The node keeps its session going exactly while one of its requests is waiting or in progress. *)
Theorem C75_reachable_while_in_progress :
  forall (V R : Type) n (os : list (iop V R)) s,
    let w := irun (ifresh n) os in
    ireachable w s = true <->
    requests_waiting s [] (iw_log w) <> [] \/ tasks_open s [] (iw_log w) <> [].
Proof.
  intros V R n os s w. pose proof (Inv_irun os _ (Inv_fresh n)) as I. fold w in I.
  rewrite <- (v_inputs _ I), <- (v_open _ I). unfold ireachable, of_session.
  rewrite orb_true_iff, !existsb_exists. split.
  - intros [[[s' v] [H E]]|[i [H E]]]; [left|right]; intros K; apply map_eq_nil in K.
    + eapply (in_nil (a := (s', v))). rewrite <- K. apply filter_In. split; assumption.
    + eapply (in_nil (a := i)). rewrite <- K. apply filter_In. split; assumption.
  - intros [K|K]; [left|right].
    + destruct (filter _ (iw_inputs w)) as [|x l] eqn:E; [contradiction|].
      exists x. apply (filter_In (fun sv => Nat.eqb (fst sv) s)). rewrite E. left. reflexivity.
    + destruct (filter _ (iw_list w)) as [|x l] eqn:E; [contradiction|].
      exists x. apply (filter_In (fun i => Nat.eqb (in_sess i) s)). rewrite E. left. reflexivity.
Qed.

(** It also does so for ever when the request was disposed of, although no response can come: the
    session only ends when it is cleaned up. *)
Theorem C75_disposed_request_ends_refuted :
  forall (V R : Type) n (os : list (iop V R)) s t,
    let w := irun (ifresh n) os in
    In (JvDisposed s t) (iw_log w) -> ~ cleaned s (iw_log w) ->
    ireachable w s = true /\
    forall r, ~ In (JvOut s t r) (iw_log w).
Proof.
  intros V R n os s t w H C. pose proof (Inv_irun os _ (Inv_fresh n)) as I. fold w in I.
  destruct (v_disp _ I s t H) as [K|(f & K & T)]; [contradiction|]. split.
  - unfold ireachable. rewrite orb_true_iff. right. apply existsb_exists. eexists. split; [exact K|].
    apply Nat.eqb_refl.
  - intros r O. destruct (v_out _ I s t r O) as (_ & T' & _). congruence.
Qed.

(** ** Cleanup *)

Lemma C75_Inv2 (V R : Type) n (os : list (iop V R)) :
  NoDup (cleanup_ids (iw_log (irun (ifresh n) os))) -> Inv2 (irun (ifresh n) os).
Proof. intros H. apply Inv2_irun; [apply Inv_fresh|apply Inv2_fresh|exact H]. Qed.

(** A cleanup is confirmed only if it was asked for, at most once, and once when nothing is left to
    be done; it never finds something missing. *)
Theorem C75_cleanup_is_confirmed_once :
  forall (V R : Type) n (os : list (iop V R)),
    let w := irun (ifresh n) os in
    NoDup (cleanup_ids (iw_log w)) ->
    NoDup (confirmed (iw_log w)) /\
    (forall id, In id (confirmed (iw_log w)) -> In id (cleanup_ids (iw_log w))) /\
    (settled w -> forall id, In id (cleanup_ids (iw_log w)) -> In id (confirmed (iw_log w))) /\
    ~ In JvBroken (iw_log w).
Proof.
  intros V R n os w H. pose proof (C75_Inv2 V R n os H) as I. fold w in I.
  split; [|split; [|split]].
  - apply (NoDup_count_occ Nat.eq_dec). intros id. change (count (confirmed (iw_log w)) id <= 1).
    destruct (p_phase _ I id) as [[_ K]|[_ [K|[K|K]]]].
    + destruct K as (_ & _ & _ & ->). lia.
    + destruct K as (_ & _ & _ & ->). lia.
    + destruct K as (_ & _ & _ & _ & ->). lia.
    + destruct K as (_ & _ & _ & ->). lia.
  - intros id C. destruct (p_phase _ I id) as [[_ K]|[K _]]; [|exact K].
    destruct K as (_ & _ & _ & K). apply count_zero in K. contradiction.
  - intros [S1 S2] id C. destruct (p_phase _ I id) as [[K _]|[_ [K|[K|K]]]]; [contradiction| | |].
    + destruct K as ((ns & Hn & _ & K) & _). destruct ns as [|t ns]; [contradiction|].
      destruct (proj1 (K t) (or_introl eq_refl)) as (x & E1 & E2). exfalso. exact (S2 t x id E1 E2).
    + destruct K as (_ & _ & _ & K & _). rewrite S1 in K. discriminate.
    + destruct K as (_ & _ & _ & K). destruct (in_dec Nat.eq_dec id (confirmed (iw_log w))) as [D|D]; [exact D|].
      apply count_zero in D. congruence.
  - apply (p_broken _ I).
Qed.

(** A cleanup is confirmed after all tasks have stopped which were in progress for its session when
    it was asked for. This leaves out tasks that an earlier cleanup of the session still waits for. *)
Theorem C75_cleanup_waits_for_tasks_partial :
  forall (V R : Type) n (os : list (iop V R)) l1 id s l2 l3 t,
    let w := irun (ifresh n) os in
    NoDup (cleanup_ids (iw_log w)) ->
    iw_log w = l1 ++ JvClean id s :: l2 ++ JvConfirmed id :: l3 ->
    In t (tasks_open s [] l1) -> In (JvStopped t) l2.
Proof.
  intros V R n os l1 id s l2 l3 t w H E K. exact (p_order _ (C75_Inv2 V R n os H) _ _ _ _ _ _ E K).
Qed.

(** A second cleanup of the session is confirmed while a task of the session is still stopping. *)
Theorem C75_overlapping_cleanups_refuted :
  exists (os : list (iop nat nat)),
    let w := irun (ifresh 10) os in
    NoDup (cleanup_ids (iw_log w)) /\
    iw_log w = [JvIssued 5 1; JvStarted 5 11 1; JvClean 7 5; JvClean 8 5; JvConfirmed 8] /\
    ~ settled w.
Proof.
  exists [OGive 5 1; OExec; OCleanup (fun _ => false) 7 5; OCleanup (fun _ => false) 8 5]. split; [|split].
  - cbn. repeat constructor; cbn; intuition discriminate.
  - reflexivity.
  - intros [_ K]. exact (K 11 (mk_itask 5 10 (TStopping 7)) 7 eq_refl eq_refl).
Qed.

(** After a cleanup nothing of the session is waiting or in progress, and other sessions are not
    affected. *)
Theorem C75_cleanup_takes_only_its_session :
  forall (V R : Type) n (os : list (iop V R)) now id s,
    let w := irun (ifresh n) os in
    let w' := istep w (OCleanup now id s) in
    ireachable w' s = false /\
    (forall s', s' <> s -> ireachable w' s' = ireachable w s') /\
    (forall s', s' <> s -> at_finish w' s' = at_finish w s') /\
    (forall t x, iw_tasks w t = Some x -> it_sess x <> s -> iw_tasks w' t = Some x).
Proof.
  intros V R n os now id s w w'. pose proof (Inv_irun os _ (Inv_fresh n)) as I. fold w in I.
  destruct (icleanup_effect now id s w I) as (_ & E2 & E3 & E4 & ET & _).
  change (icleanup now id s w) with w' in *.
  assert (B : forall {A} (key : A -> nat) (l : list A) s',
    existsb (fun x => Nat.eqb (key x) s') (filter (fun x => negb (Nat.eqb (key x) s)) l)
    = if Nat.eqb s s' then false else existsb (fun x => Nat.eqb (key x) s') l).
  { intros A key l s'. induction l as [|a l IH]; cbn [filter existsb]; [destruct (Nat.eqb s s'); reflexivity|].
    destruct (Nat.eqb_spec (key a) s) as [E|E]; cbn [negb existsb]; rewrite IH;
      destruct (Nat.eqb_spec s s') as [F|F], (Nat.eqb_spec (key a) s') as [G|G]; try reflexivity; congruence. }
  split; [|split; [|split]].
  - unfold ireachable. rewrite E2, E3, (B _ fst), (B _ in_sess), Nat.eqb_refl. reflexivity.
  - intros s' Hs. unfold ireachable. rewrite E2, E3, (B _ fst), (B _ in_sess).
    destruct (Nat.eqb_spec s s') as [F|F]; [congruence|reflexivity].
  - intros s' Hs. unfold at_finish. rewrite E3, E4. clear E3. induction (iw_list w) as [|a l IH]; [reflexivity|].
    cbn [filter flat_map]. destruct (Nat.eqb_spec (in_sess a) s) as [E|E]; cbn [negb flat_map]; rewrite IH; [|reflexivity].
    destruct (Nat.eqb_spec (in_sess a) s') as [F|F]; [congruence|reflexivity].
  - intros t x H Hx. rewrite ET. unfold stop_all. destruct (in_dec Nat.eq_dec t (nodes_of s w)) as [K|K]; [|exact H].
    exfalso. apply in_nodes_of in K as (i & K1 & K2 & K3). destruct (v_list _ I i K1) as (st & T & _).
    rewrite K3, H in T. injection T as ->. exact (Hx K2).
Qed.

(** ** Errors and what is left *)

(** A response is only lost, with an error, in a session that was cleaned up. *)
Theorem C75_errors_only_after_cleanup :
  forall (V R : Type) n (os : list (iop V R)) s r,
    let w := irun (ifresh n) os in
    In (JvLost s r) (iw_log w) -> cleaned s (iw_log w).
Proof. intros V R n os s r w. apply (v_lost _ (Inv_irun os _ (Inv_fresh n))). Qed.

(** There such an error does happen, although nothing went wrong: the response was on its way. *)
Theorem C75_cleanup_makes_no_errors_refuted :
  exists (os : list (iop nat nat)),
    let w := irun (ifresh 10) os in
    settled w /\ NoDup (cleanup_ids (iw_log w)) /\
    iw_log w = [JvIssued 5 1; JvStarted 5 11 1; JvResponse 5 11 2; JvClean 7 5; JvStopped 11;
                JvConfirmed 7; JvLost 5 2].
Proof.
  exists [OGive 5 1; OExec; ORespond 11 2; OCleanup (fun _ => true) 7 5; OFinalize; OFinish 10]. split; [|split].
  - split; [reflexivity|]. intros t x id. cbn. unfold emap_set, emap_empty.
    destruct (Nat.eqb t 11); [intros [= <-]; discriminate|discriminate].
  - cbn. repeat constructor; cbn; intuition discriminate.
  - reflexivity.
Qed.

(** Nothing is left of a request whose response came out. *)
Theorem C75_nothing_left_of_answered :
  forall (V R : Type) n (os : list (iop V R)) s t r,
    let w := irun (ifresh n) os in
    In (JvOut s t r) (iw_log w) ->
    iw_tasks w t = None /\ ~ In t (map in_task (iw_list w)).
Proof.
  intros V R n os s t r w H. pose proof (Inv_irun os _ (Inv_fresh n)) as I. fold w in I.
  destruct (v_out _ I s t r H) as (_ & T & _). split; [exact T|].
  intros K. apply in_map_iff in K as (i & E & K). destruct (v_list _ I i K) as (st & T' & _). congruence.
Qed.

(** The entity of a request that was cleaned up is never despawned. *)
Theorem C75_nothing_left_after_cleanup_refuted :
  forall (V R : Type) n (os : list (iop V R)) t,
    let w := irun (ifresh n) os in
    In (JvStopped t) (iw_log w) -> forall os', iw_tasks (irun w os') t <> None.
Proof.
  intros V R n os t w H os'. pose proof (Inv_irun os _ (Inv_fresh n)) as I. fold w in I.
  assert (S : stopped w t).
  { apply stopped_remain; [apply Inv_fresh|intros []|exact H]. }
  destruct (stopped_remain os' w t I (fun _ => S)) as (x & E & _); [|rewrite E; discriminate].
  destruct (run_log os' w I) as [q ->]. apply in_or_app. left. exact H.
Qed.

(** ** Cases *)

(** Two sessions; the answers come in the opposite order; one answer is on its way, one request is
    still waiting and one was disposed of. *)
Example C75_requests_case :
  exists (os : list (iop nat nat)),
    let w := irun (ifresh 10) os in
    iw_log w = [JvIssued 5 1; JvIssued 6 2; JvIssued 5 3; JvIssued 5 4; JvStarted 5 11 1;
                JvStarted 6 13 2; JvStarted 5 15 3; JvResponse 5 15 33; JvOut 5 15 33;
                JvResponse 5 11 11; JvDisposed 6 13] /\
    at_finish w 5 = [(11, 11)] /\ requests_waiting 5 [] (iw_log w) = [4] /\
    tasks_open 5 [] (iw_log w) = [11] /\ ireachable w 5 = true /\
    ~ cleaned 5 (iw_log w) /\ ~ cleaned 6 (iw_log w).
Proof.
  exists [OGive 5 1; OGive 6 2; OGive 5 3; OGive 5 4; OExec; OExec; OExec; ORespond 15 33; OFinish 14;
          ORespond 11 11; ODispose 13].
  repeat split; try reflexivity; intros [id K]; cbn in K; intuition discriminate.
Qed.

(** A cleanup with two tasks, of which one stops at once, while another session goes on. *)
Example C75_cleanup_case :
  exists (os : list (iop nat nat)),
    let w := irun (ifresh 10) os in
    settled w /\ NoDup (cleanup_ids (iw_log w)) /\
    iw_log w = [JvIssued 5 1; JvIssued 6 2; JvIssued 5 3; JvStarted 5 11 1; JvStarted 6 13 2;
                JvStarted 5 15 3] ++ JvClean 7 5 :: [JvStopped 11; JvResponse 6 13 22; JvStopped 15] ++
                JvConfirmed 7 :: [JvOut 6 13 22] /\
    tasks_open 5 [] [JvIssued 5 1; JvIssued 6 2; JvIssued 5 3; JvStarted 5 11 1; JvStarted 6 13 2;
                @JvStarted nat nat 5 15 3] = [11; 15] /\
    ireachable w 5 = false /\ ireachable w 6 = false.
Proof.
  exists [OGive 5 1; OGive 6 2; OGive 5 3; OExec; OExec; OExec; OCleanup (Nat.eqb 11) 7 5; ORespond 13 22;
          OStopped 15; OFinalize; OFinish 12].
  split; [|split; [|repeat split; reflexivity]].
  - split; [reflexivity|]. intros t x id. cbn. unfold emap_set, emap_empty.
    repeat match goal with |- context [if Nat.eqb t ?a then _ else _] => destruct (Nat.eqb t a) end;
      intros [=]; subst; discriminate.
  - cbn. repeat constructor; cbn; intuition discriminate.
Qed.

Print Assumptions C75_responses_are_passed_on.
Print Assumptions C75_responses_come_out_once.
Print Assumptions C75_requests_start_in_order.
Print Assumptions C75_reachable_while_in_progress.
Print Assumptions C75_disposed_request_ends_refuted.
Print Assumptions C75_cleanup_is_confirmed_once.
Print Assumptions C75_cleanup_waits_for_tasks_partial.
Print Assumptions C75_overlapping_cleanups_refuted.
Print Assumptions C75_cleanup_takes_only_its_session.
Print Assumptions C75_errors_only_after_cleanup.
Print Assumptions C75_cleanup_makes_no_errors_refuted.
Print Assumptions C75_nothing_left_of_answered.
Print Assumptions C75_nothing_left_after_cleanup_refuted.
