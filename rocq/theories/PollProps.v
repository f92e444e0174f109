(** C86: the single threaded executor. See PollSpec.v. *)
From Verif Require Import Base PollModel PollSpec PollProofs.

(** Cancelled tasks are started in the order in which they were sent, none twice and none left
    out; those which were not started wait, in order. The executor polls what was sent. *)
Theorem C86_started_in_order acts :
  let p := prun pool_init acts in
  p_started p ++ p_cancel p = seq 0 (length (sends acts)) /\
  forall k d, k < length (sends acts) -> p_future p k = nth k (sends acts) d.
Proof.
  cbn zeta. split.
  - destruct (sent_run acts pool_init [] (fun _ => Ready)) as [S _]; [reflexivity|cbn; lia|]. cbn in S. rewrite <- S. apply ok_sent, ok_prun, ok_init.
  - intros k d K. destruct (sent_run acts pool_init [] d) as [_ F]; [reflexivity|cbn; lia|]. apply (F k K).
Qed.
Print Assumptions C86_started_in_order.

(** A future is polled until it is ready and never again; it finishes once, when it is ready. One
    that was woken while it was polled is in line, once; and what is in line is not finished. *)
Theorem C86_polled_until_ready acts k :
  let p := prun pool_init acts in let n := times k (p_polled p) in
  pending_before (p_future p k) n /\ NoDup (p_finished p) /\ NoDup (p_runnable p) /\
  (0 < n <-> In k (p_started p)) /\
  (In k (p_finished p) <-> exists m, n = S m /\ p_future p k m = Ready) /\
  (forall m, n = S m -> p_future p k m = Yield -> In k (p_runnable p)) /\
  (In k (p_runnable p) -> In k (p_started p) /\ ~ In k (p_finished p)).
Proof.
  cbn zeta. destruct (ok_prun acts pool_init ok_init) as [T NR NF C S]. set (p := prun pool_init acts) in *. rewrite <- (C k).
  destruct (T k) as (R & F & B & U & P & L). split; [exact P|]. split; [exact NF|]. split; [exact NR|]. split; [|split; [|split]].
  - rewrite B. split; [intros H E; apply U in E; lia|intros H]. destruct (p_polls p k) eqn:Z; [exfalso; apply H, U; reflexivity|lia].
  - rewrite F. split.
    + intros H. destruct (p_polls p k) as [|m] eqn:Z; [rewrite (proj2 U eq_refl) in H; discriminate|]. exists m. split; [reflexivity|].
      specialize (L m eq_refl). destruct (p_future p k m); [reflexivity|congruence|destruct L; congruence].
    + intros (m & Z & A). specialize (L m Z). rewrite A in L. exact L.
  - intros m Z A. apply R. specialize (L m Z). rewrite A in L. exact L.
  - intros H. apply R in H. rewrite B, F, H. split; discriminate.
Qed.
Print Assumptions C86_polled_until_ready.

(** Waking a future which waits puts it in line. *)
Theorem C86_wakes acts k :
  let p := prun pool_init acts in
  In k (p_started p) -> ~ In k (p_finished p) -> In k (p_runnable (pstep p (PWake k))).
Proof.
  cbn zeta. destruct (ok_prun acts pool_init ok_init) as [T NR NF C S]. set (p := prun pool_init acts) in *.
  destruct (T k) as (R & F & B & _). intros H1 H2. cbn [pstep]. destruct (p_state p k) eqn:E.
  - exfalso. apply B in H1. congruence.
  - cbn. apply in_or_app. right. left. reflexivity.
  - apply R. reflexivity.
  - exfalso. apply H2, F. reflexivity.
Qed.
Print Assumptions C86_wakes.

(** With a limit, a flush starts no more than that many cancelled tasks and polls no more than
    twice as many futures, whatever they do and whatever is sent and woken meanwhile; and it comes
    to its end. A limit of zero counts as one. *)
Theorem C86_bounded p l acts :
  p_phase p = Resting -> forallb (fun a => negb (begins a)) acts = true ->
  let p' := prun p (PBegin (Some l) :: acts) in
  length (p_started p') <= length (p_started p) + share l /\
  length (p_polled p') <= length (p_polled p) + 2 * share l /\
  (2 * share l + 2 <= rounds acts -> p_phase p' = Resting).
Proof.
  intros R N. cbn zeta. change (prun p (PBegin (Some l) :: acts)) with (prun (pstep p (PBegin (Some l))) acts).
  destruct (run_within l acts (pstep p (PBegin (Some l))) N) as (W & A & B & C).
  - cbn [pstep]. rewrite R. cbn [p_phase within]. split; [reflexivity|apply share_pos].
  - assert (E : pstep p (PBegin (Some l)) = mk_pool (p_sent p) (p_cancel p) (p_runnable p) (p_future p) (p_polls p) (p_state p) (Starting (Some l) 0) (p_started p) (p_polled p) (p_finished p)).
    { cbn [pstep]. rewrite R. reflexivity. }
    rewrite E in *. cbn [p_phase p_started p_polled left_start left_poll left_round] in A, B, C. repeat split; [lia|lia|]. intros H.
    destruct (p_phase (prun _ acts)) as [|l' c|l' c]; [reflexivity| |]; cbn [left_round] in C; lia.
Qed.
Print Assumptions C86_bounded.

(** A flush which comes to its end has started the cancelled tasks which waited, up to the limit,
    oldest first; then it has polled what was in line, up to the limit, oldest first. *)
Theorem C86_one_flush p l acts :
  p_phase p = Resting -> forallb (fun a => negb (begins a)) acts = true ->
  let p' := prun p (PBegin l :: acts) in p_phase p' = Resting ->
  exists a b, p_started p' = p_started p ++ a /\ p_polled p' = p_polled p ++ a ++ b /\
    prefix (quota l (p_cancel p)) a /\ prefix (quota l (p_runnable p)) b.
Proof.
  intros R N. cbn zeta. intros E. destruct (one_poll p l acts R N E) as (a & b & A & B & C & D & _). exists a, b. auto.
Qed.
Print Assumptions C86_one_flush.

(** No task starves: with any limits, each of the tasks which were sent is started when as many
    flushes have ended as there are tasks up to it; and what is in line is polled when as many
    flushes have ended as there are futures in line up to it. *)
Theorem C86_no_starvation acts n p' :
  let p := prun pool_init acts in flushes p n p' ->
  (forall k, k < length (sends acts) -> k < n -> In k (p_started p')) /\
  (forall i k, nth_error (p_cancel p) i = Some k -> i < n -> In k (p_started p')) /\
  (forall i k, nth_error (p_runnable p) i = Some k -> i < n -> times k (p_polled p) < times k (p_polled p')).
Proof.
  cbn zeta. intros F. pose proof (ok_prun acts pool_init ok_init) as O. destruct (flushes_start _ _ _ F O) as [_ G].
  destruct (sent_run acts pool_init [] (fun _ => Ready)) as [S _]; [reflexivity|cbn; lia|]. cbn in S.
  assert (Q : ok p'). { clear -F O. induction F; [apply ok_prun, O|apply IHF, ok_prun, O]. }
  assert (I : forall k, k < length (p_started p') -> In k (p_started p')).
  { intros k K. pose proof (ok_sent _ Q) as E. assert (L : length (p_started p') <= p_sent p').
    { pose proof (f_equal (@length nat) E) as Z. rewrite app_length, seq_length in Z. lia. }
    assert (E' : p_started p' = seq 0 (length (p_started p'))).
    { pose proof (f_equal (firstn (length (p_started p'))) E) as Z. rewrite firstn_app, Nat.sub_diag, firstn_all, app_nil_r in Z. cbn [firstn] in Z.
      rewrite app_nil_r in Z || idtac. rewrite Z at 1.
      replace (p_sent p') with (length (p_started p') + (p_sent p' - length (p_started p'))) by lia.
      rewrite seq_app, firstn_app, seq_length, Nat.sub_diag, app_nil_r. apply firstn_all2. rewrite seq_length. lia. }
    rewrite E'. apply in_seq. lia. }
  split; [|split].
  - intros k K L. apply I, G; [rewrite S; exact K|lia].
  - intros i k H L. pose proof (ok_sent _ O) as E. set (p := prun pool_init acts) in *.
    assert (J : nth_error (seq 0 (p_sent p)) (length (p_started p) + i) = Some k).
    { rewrite <- E, nth_error_app2 by lia. replace (_ + i - _) with i by lia. exact H. }
    assert (J' : length (p_started p) + i < p_sent p).
    { rewrite <- (seq_length (p_sent p) 0). apply nth_error_Some. congruence. }
    assert (k = length (p_started p) + i).
    { apply (nth_error_nth _ _ 0) in J. rewrite seq_nth in J by exact J'. lia. }
    apply I, G; lia.
  - apply (flushes_run _ _ _ F).
Qed.
Print Assumptions C86_no_starvation.

(** Without a limit, a flush comes to its end if there is a bound on how often futures wake
    themselves. *)
Theorem C86_unlimited_ends acts b :
  let p := prun pool_init acts in
  p_phase p = Resting -> (forall k n, b <= n -> p_future p k n <> Yield) ->
  exists n, p_phase (prun p (PBegin None :: repeat PRound n)) = Resting.
Proof.
  cbn zeta. intros R F. set (p := prun pool_init acts) in *. exists (todo b (pstep p (PBegin None))).
  change (prun p (PBegin None :: ?x)) with (prun (pstep p (PBegin None)) x). apply (todo_resting b).
  match goal with |- context [repeat PRound ?n] => pose proof (todo_rounds b n (pstep p (PBegin None))) as H end.
  assert (G : forall k n, b <= n -> p_future (pstep p (PBegin None)) k n <> Yield) by (cbn [pstep]; rewrite R; exact F).
  specialize (H G). lia.
Qed.
Print Assumptions C86_unlimited_ends.

(** One future that always wakes itself keeps it from ending. *)
Theorem C86_unlimited_hangs : exists acts, forall n,
  p_phase (prun pool_init acts) = Resting /\
  p_phase (prun pool_init (acts ++ PBegin None :: repeat PRound n)) <> Resting.
Proof.
  exists [PSend (fun _ => Yield)]. intros n. split; [reflexivity|]. cbn [app].
  destruct n as [|n]; [discriminate|].
  change (p_phase (prun (prun pool_init [PSend (fun _ => Yield); PBegin None; PRound]) (repeat PRound n)) <> Resting).
  destruct (stuck_rounds n (prun pool_init [PSend (fun _ => Yield); PBegin None; PRound])) as (_ & _ & _ & c & [E|E]).
  - unfold stuck. cbn. repeat split; auto. eauto.
  - rewrite E. discriminate.
  - rewrite E. discriminate.
Qed.
Print Assumptions C86_unlimited_hangs.

(** The limit is not one on how many futures get polled: with a limit of one, or of none at all, a
    flush polls two. *)
Theorem C86_limit_refuted : forall l, l <= 1 -> exists acts,
  forallb (fun a => negb (begins a)) acts = true /\
  let p := prun pool_init [PSend (fun _ => Yield)] in
  let p' := prun p (PBegin (Some l) :: acts) in
  p_phase p = Resting /\ p_phase p' = Resting /\ l < length (p_polled p').
Proof.
  intros l L. exists [PRound; PRound]. split; [reflexivity|]. destruct l as [|[|l]]; [| |lia]; cbn; repeat split; lia.
Qed.
Print Assumptions C86_limit_refuted.

(** Three tasks are cancelled; the first wakes itself twice, the second waits to be woken, the
    third is ready. With a limit of two, two flushes are needed for all to be started. *)
Definition ex_futures : list paction :=
  [PSend (fun n => if Nat.ltb n 2 then Yield else Ready); PSend (fun n => if Nat.eqb n 0 then Wait else Ready); PSend (fun _ => Ready)].
Definition ex_p0 : pool := prun pool_init ex_futures.
Definition ex_p1 : pool := prun ex_p0 ([] ++ PBegin (Some 2) :: repeat PRound 6).
Definition ex_p2 : pool := prun ex_p1 ([PWake 1] ++ PBegin (Some 2) :: repeat PRound 6).

Example C86_case :
  p_phase ex_p0 = Resting /\
  (p_started ex_p1, p_cancel ex_p1, p_polled ex_p1, p_finished ex_p1) = ([0; 1], [2], [0; 1; 0; 0], [0]) /\
  (p_polled ex_p2, p_finished ex_p2) = ([0; 1; 0; 0; 2; 1], [0; 2; 1]).
Proof. vm_compute. auto. Qed.

Lemma flush_then p q r before l acts n :
  q = prun p (before ++ PBegin l :: acts) -> p_phase p = Resting -> p_phase q = Resting ->
  forallb (fun a => negb (begins a)) before = true -> forallb (fun a => negb (begins a)) acts = true ->
  flushes q n r -> flushes p (S n) r.
Proof. intros -> P Q N1 N2 F. exact (flushes_more p before l acts n r P N1 N2 Q F). Qed.

Lemma flush_none p : p_phase p = Resting -> flushes p 0 p.
Proof. intros R. exact (flushes_none p [] R eq_refl). Qed.

Example C86_case_flushes : flushes ex_p0 2 ex_p2.
Proof.
  apply (flush_then ex_p0 ex_p1 ex_p2 [] (Some 2) (repeat PRound 6)); [unfold ex_p1; exact eq_refl|vm_compute; reflexivity..|].
  apply (flush_then ex_p1 ex_p2 ex_p2 [PWake 1] (Some 2) (repeat PRound 6)); [unfold ex_p2; exact eq_refl|vm_compute; reflexivity..|].
  apply flush_none. vm_compute. reflexivity.
Qed.

Example C86_case_bound : forall k n, 2 <= n -> p_future ex_p0 k n <> Yield.
Proof.
  intros k n H. unfold ex_p0, ex_futures, prun. cbn [fold_left pstep pool_init p_future p_sent]. unfold set_at.
  destruct (Nat.eqb k 2); [discriminate|]. destruct (Nat.eqb k 1); [destruct (Nat.eqb n 0); discriminate|].
  destruct (Nat.eqb k 0); [|discriminate]. destruct (Nat.ltb_spec n 2); [lia|discriminate].
Qed.
