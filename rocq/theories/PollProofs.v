From Verif Require Import Base PollModel PollSpec.

Lemma set_at_eq {A} (m : nat -> A) k v : set_at m k v k = v.
Proof. unfold set_at. rewrite Nat.eqb_refl. reflexivity. Qed.
Lemma set_at_neq {A} (m : nat -> A) k k' v : k' <> k -> set_at m k v k' = m k'.
Proof. intros H. unfold set_at. destruct (Nat.eqb_spec k' k); [contradiction|reflexivity]. Qed.

Lemma times_app k l l' : times k (l ++ l') = times k l + times k l'.
Proof. apply count_occ_app. Qed.
Lemma times_one k : times k [k] = 1.
Proof. unfold times. cbn. destruct (Nat.eq_dec k k); congruence. Qed.
Lemma times_other k j : k <> j -> times j [k] = 0.
Proof. intros H. unfold times. cbn. destruct (Nat.eq_dec k j); congruence. Qed.
Lemma NoDup_snoc (l : list nat) k : NoDup l -> ~ In k l -> NoDup (l ++ [k]).
Proof.
  intros N H. apply NoDup_rev in N. rewrite <- (rev_involutive (l ++ [k])). apply NoDup_rev. rewrite rev_app_distr. cbn.
  constructor; [rewrite <- in_rev; exact H|exact N].
Qed.

(** What holds of one task at all times: [run] says whether it is in the channel of runnables. *)
Definition task_ok (f : nat -> answer) (polls : nat) (st : tstate) (run fin beg : Prop) : Prop :=
  (run <-> st = Scheduled) /\ (fin <-> st = Finished) /\ (beg <-> st <> Unknown) /\ (st = Unknown <-> polls = 0) /\
  pending_before f polls /\
  forall n, polls = S n -> match f n with Ready => st = Finished | Yield => st = Scheduled | Wait => st = Waiting \/ st = Scheduled end.

Record ok (p : pool) : Prop := mk_ok {
  ok_task : forall k, task_ok (p_future p k) (p_polls p k) (p_state p k) (In k (p_runnable p)) (In k (p_finished p)) (In k (p_started p));
  ok_run : NoDup (p_runnable p);
  ok_fin : NoDup (p_finished p);
  ok_polls : forall k, p_polls p k = times k (p_polled p);
  ok_sent : p_started p ++ p_cancel p = seq 0 (p_sent p);
}.

Lemma ok_init : ok pool_init.
Proof.
  split; cbn; auto using NoDup_nil. intros k. unfold task_ok. cbn.
  repeat split; try tauto; try discriminate; try congruence. intros i H. lia.
Qed.

Lemma in_snoc (l : list nat) j k : In k (l ++ [j]) <-> k = j \/ In k l.
Proof. rewrite in_app_iff. cbn. split; [intros [H|[H|[]]]; auto|intros [->|H]; auto]. Qed.

(** A task that is started or taken from the channel may be run. *)
Lemma ok_run_task p k ph :
  (forall j, j <> k -> task_ok (p_future p j) (p_polls p j) (p_state p j) (In j (p_runnable p)) (In j (p_finished p)) (In j (p_started p))) ->
  ~ In k (p_runnable p) -> ~ In k (p_finished p) -> In k (p_started p) ->
  pending_before (p_future p k) (p_polls p k) ->
  (forall n, p_polls p k = S n -> p_future p k n <> Ready) ->
  NoDup (p_runnable p) -> NoDup (p_finished p) -> (forall j, p_polls p j = times j (p_polled p)) ->
  p_started p ++ p_cancel p = seq 0 (p_sent p) ->
  ok (run_task p k ph).
Proof.
  intros T R F B P L NR NF C S. unfold run_task. remember (p_future p k (p_polls p k)) as a eqn:A.
  assert (P' : pending_before (p_future p k) (Datatypes.S (p_polls p k))).
  { intros i H. destruct (p_polls p k) as [|m] eqn:E; [lia|]. destruct (Nat.eq_dec i m) as [->|D]; [exact (L m eq_refl)|]. apply P. lia. }
  assert (C' : forall j, set_at (p_polls p) k (Datatypes.S (p_polls p k)) j = times j (p_polled p ++ [k])).
  { intros j. rewrite times_app. destruct (Nat.eq_dec j k) as [->|D].
    - rewrite set_at_eq, times_one, C. lia.
    - rewrite (set_at_neq _ _ _ _ D), times_other by congruence. rewrite C. lia. }
  destruct a; split; cbn [p_sent p_cancel p_runnable p_future p_polls p_state p_started p_polled p_finished];
    try exact NR; try exact NF; try exact C'; try exact S; try (apply NoDup_snoc; assumption).
  all: intros j; destruct (Nat.eq_dec j k) as [->|D];
    [rewrite !set_at_eq|rewrite !set_at_neq by exact D; specialize (T j D); unfold task_ok in *; rewrite ?in_snoc; intuition congruence].
  all: unfold task_ok; rewrite ?in_snoc; repeat split; intros; try discriminate; try tauto; auto.
  all: match goal with H : Datatypes.S _ = Datatypes.S _ |- _ => injection H as <-; rewrite <- A; auto | _ => idtac end.
Qed.

Lemma ok_round p : ok p -> ok (round p).
Proof.
  intros [T NR NF C S]. unfold round. destruct (p_phase p) as [|l c|l c]; [split; assumption| |].
  - destruct (p_cancel p) as [|k rest] eqn:E; [split; cbn; rewrite ?E; auto|].
    assert (K : ~ In k (p_started p)).
    { intros H. pose proof (seq_NoDup (p_sent p) 0) as N. rewrite <- S in N. apply NoDup_remove_2 in N. apply N, in_or_app; auto. }
    destruct (T k) as (R & F & B & U & P & L).
    assert (Z : p_state p k = Unknown). { destruct (p_state p k); auto; exfalso; apply K, B; discriminate. }
    apply ok_run_task; cbn [p_sent p_cancel p_runnable p_future p_polls p_state p_started p_polled p_finished]; auto.
    + intros j D. specialize (T j). unfold task_ok in *. rewrite in_snoc. intuition congruence.
    + rewrite R, Z. discriminate.
    + rewrite F, Z. discriminate.
    + apply in_snoc. auto.
    + intros n H. rewrite (proj1 U Z) in H. discriminate.
    + rewrite <- app_assoc. exact S.
  - destruct (p_runnable p) as [|k rest] eqn:E; [split; cbn; rewrite ?E; auto; intros j; specialize (T j); exact T|].
    destruct (T k) as (R & F & B & U & P & L).
    assert (Z : p_state p k = Scheduled) by (apply R; left; reflexivity).
    apply NoDup_cons_iff in NR as [K NR].
    apply ok_run_task; cbn [p_sent p_cancel p_runnable p_future p_polls p_state p_started p_polled p_finished]; auto.
    + intros j D. specialize (T j). unfold task_ok in *. cbn [In] in T. intuition congruence.
    + rewrite F, Z. discriminate.
    + apply B. rewrite Z. discriminate.
    + intros n H A. specialize (L n H). rewrite A in L. congruence.
Qed.

Lemma ok_step p a : ok p -> ok (pstep p a).
Proof.
  intros O. destruct a as [l| |f|k]; cbn [pstep].
  - destruct (p_phase p); [|exact O|exact O]. destruct O; split; assumption.
  - apply ok_round. exact O.
  - destruct O as [T NR NF C S]. split; cbn [p_sent p_cancel p_runnable p_future p_polls p_state p_started p_polled p_finished]; auto.
    + intros k. destruct (Nat.eq_dec k (p_sent p)) as [->|D]; [|rewrite set_at_neq by exact D; apply T].
      rewrite set_at_eq. destruct (T (p_sent p)) as (R & F & B & U & P & L).
      assert (K : ~ In (p_sent p) (p_started p)).
      { intros H. assert (In (p_sent p) (seq 0 (p_sent p))) by (rewrite <- S; apply in_or_app; auto). apply in_seq in H0. lia. }
      assert (Z : p_polls p (p_sent p) = 0).
      { apply U. destruct (p_state p (p_sent p)); auto; exfalso; apply K, B; discriminate. }
      repeat split; try apply R; try apply F; try apply B; try apply U; rewrite Z; [intros i H; lia|intros n H; discriminate].
    + rewrite app_assoc, S, seq_S. reflexivity.
  - destruct (p_state p k) eqn:E; [exact O| |exact O|exact O].
    destruct O as [T NR NF C S]. split; cbn [p_sent p_cancel p_runnable p_future p_polls p_state p_started p_polled p_finished]; auto.
    + intros j. specialize (T j). unfold task_ok in *. rewrite in_snoc. destruct (Nat.eq_dec j k) as [->|D]; [|rewrite set_at_neq by exact D; unfold task_ok in *; intuition].
      rewrite set_at_eq. destruct T as (R & F & B & U & P & L). rewrite E in *. repeat split; auto; try tauto; try congruence.
      * intros H. apply F in H. discriminate.
      * intros _. apply B. discriminate.
      * intros H. apply U in H. discriminate.
      * intros n H. specialize (L n H). destruct (p_future p k n); [discriminate|reflexivity|auto].
    + apply NoDup_snoc; [exact NR|]. destruct (T k) as (R & _). rewrite R, E. discriminate.
Qed.

Lemma ok_prun acts : forall p, ok p -> ok (prun p acts).
Proof. induction acts as [|a acts IH]; intros p O; [exact O|]. apply IH, ok_step, O. Qed.

(** What is sent: the futures are as they were sent. *)
Lemma run_task_same p k ph :
  p_sent (run_task p k ph) = p_sent p /\ p_cancel (run_task p k ph) = p_cancel p /\ p_future (run_task p k ph) = p_future p /\
  p_started (run_task p k ph) = p_started p /\ p_polled (run_task p k ph) = p_polled p ++ [k] /\ p_phase (run_task p k ph) = ph /\
  exists new, p_runnable (run_task p k ph) = p_runnable p ++ new.
Proof.
  unfold run_task. destruct (p_future p k (p_polls p k)); cbn; repeat split; try (exists []; rewrite app_nil_r; reflexivity).
  exists [k]. reflexivity.
Qed.

Lemma round_same p : p_sent (round p) = p_sent p /\ p_future (round p) = p_future p.
Proof.
  unfold round. destruct (p_phase p); [auto| |].
  - destruct (p_cancel p); [auto|]. match goal with |- context [run_task ?q ?k ?ph] => destruct (run_task_same q k ph) as (A & _ & B & _) end. auto.
  - destruct (p_runnable p); [auto|]. match goal with |- context [run_task ?q ?k ?ph] => destruct (run_task_same q k ph) as (A & _ & B & _) end. auto.
Qed.

Lemma sent_run acts : forall p done d,
  p_sent p = length done -> (forall k, k < length done -> p_future p k = nth k done d) ->
  p_sent (prun p acts) = length (done ++ sends acts) /\
  forall k, k < length (done ++ sends acts) -> p_future (prun p acts) k = nth k (done ++ sends acts) d.
Proof.
  induction acts as [|a acts IH]; intros p done d S F; [cbn; rewrite app_nil_r; auto|].
  change (prun p (a :: acts)) with (prun (pstep p a) acts). destruct a as [l| |f|k]; cbn [sends].
  - apply IH; cbn; destruct (p_phase p); auto.
  - cbn [pstep]. destruct (round_same p) as [A B]. apply IH; rewrite ?A, ?B; auto.
  - replace (done ++ f :: sends acts) with ((done ++ [f]) ++ sends acts) by (rewrite <- app_assoc; reflexivity). apply IH.
    + cbn. rewrite app_length, S. cbn. lia.
    + rewrite app_length. cbn. intros k H. rewrite S. destruct (Nat.eq_dec k (length done)) as [->|D].
      * rewrite set_at_eq, app_nth2, Nat.sub_diag by lia. reflexivity.
      * rewrite set_at_neq, app_nth1 by lia. apply F. lia.
  - apply IH; cbn; destruct (p_state p k); auto.
Qed.

(** * How much one [poll] does *)

Definition within (l : nat) (ph : phase) : Prop :=
  match ph with
  | Resting => True
  | Starting l' c | Running l' c => l' = Some l /\ c < share l
  end.

(** The futures that may yet be started, those that may yet be polled, and the rounds left *)
Definition left_start (l : nat) (ph : phase) : nat := match ph with Starting _ c => share l - c | _ => 0 end.
Definition left_poll (l : nat) (ph : phase) : nat :=
  match ph with Resting => 0 | Running _ c => share l - c | Starting _ c => share l - c + share l end.
Definition left_round (l : nat) (ph : phase) : nat :=
  match ph with Resting => 0 | Running _ c => S (share l - c) | Starting _ c => S (share l - c) + S (share l) end.

Lemma share_pos l : 0 < share l.
Proof. unfold share. lia. Qed.

Lemma round_within l p : within l (p_phase p) ->
  within l (p_phase (round p)) /\
  length (p_started (round p)) + left_start l (p_phase (round p)) <= length (p_started p) + left_start l (p_phase p) /\
  length (p_polled (round p)) + left_poll l (p_phase (round p)) <= length (p_polled p) + left_poll l (p_phase p) /\
  left_round l (p_phase (round p)) <= Nat.pred (left_round l (p_phase p)).
Proof.
  pose proof (share_pos l) as Q. unfold round. destruct (p_phase p) as [|l' c|l' c] eqn:E; cbn [within]; [intros _; rewrite E; cbn; auto| |]; intros [-> H].
  - destruct (p_cancel p) as [|k rest]; [cbn [p_phase p_started p_polled within left_start left_poll left_round]; repeat split; lia|].
    match goal with |- context [run_task ?q ?k ?ph] => destruct (run_task_same q k ph) as (_ & _ & _ & A & B & C & _) end.
    rewrite A, B, C. cbn [p_started p_polled]. rewrite !app_length. cbn [length].
    cbn [reached]. destruct (Nat.leb_spec l (S c)); cbn [within left_start left_poll left_round]; unfold share in *; repeat split; lia.
  - destruct (p_runnable p) as [|k rest]; [cbn [p_phase p_started p_polled within left_start left_poll left_round]; repeat split; lia|].
    match goal with |- context [run_task ?q ?k ?ph] => destruct (run_task_same q k ph) as (_ & _ & _ & A & B & C & _) end.
    rewrite A, B, C. cbn [p_started p_polled]. rewrite !app_length. cbn [length].
    cbn [reached]. destruct (Nat.leb_spec l (S c)); cbn [within left_start left_poll left_round]; unfold share in *; repeat split; lia.
Qed.

(** What does not begin a poll and is no round leaves the histories alone. *)
Lemma other_same p a : begins a = false -> is_round a = false ->
  p_phase (pstep p a) = p_phase p /\ p_started (pstep p a) = p_started p /\ p_polled (pstep p a) = p_polled p /\
  (exists m, p_cancel (pstep p a) = p_cancel p ++ m) /\ exists m, p_runnable (pstep p a) = p_runnable p ++ m.
Proof.
  destruct a as [l| |f|k]; try discriminate; intros _ _; cbn [pstep]; [|destruct (p_state p k)]; cbn; repeat split;
    try (exists []; rewrite app_nil_r; reflexivity); try (eexists; reflexivity).
Qed.

Lemma run_within l acts : forall p, forallb (fun a => negb (begins a)) acts = true -> within l (p_phase p) ->
  within l (p_phase (prun p acts)) /\
  length (p_started (prun p acts)) + left_start l (p_phase (prun p acts)) <= length (p_started p) + left_start l (p_phase p) /\
  length (p_polled (prun p acts)) + left_poll l (p_phase (prun p acts)) <= length (p_polled p) + left_poll l (p_phase p) /\
  left_round l (p_phase (prun p acts)) <= left_round l (p_phase p) - rounds acts.
Proof.
  induction acts as [|a acts IH]; intros p N W; [cbn; repeat split; auto; lia|].
  change (prun p (a :: acts)) with (prun (pstep p a) acts). cbn [forallb] in N. apply andb_true_iff in N as [N1 N]. apply negb_true_iff in N1.
  destruct (is_round a) eqn:R.
  - destruct a; try discriminate. cbn [pstep]. destruct (round_within l p W) as (A & B & C & D). destruct (IH (round p) N A) as (A' & B' & C' & D').
    repeat split; auto; [lia|lia|]. unfold rounds in *. cbn [filter is_round length]. lia.
  - destruct (other_same p a N1 R) as (A & B & C & _). assert (W' : within l (p_phase (pstep p a))) by (rewrite A; exact W).
    destruct (IH _ N W') as (A' & B' & C' & D'). rewrite A, B, C in *. unfold rounds in *. cbn [filter]. rewrite R. auto.
Qed.

(** * What one [poll] must do *)

Lemma prefix_firstn k (a x q n : list nat) : a ++ x = q ++ n -> k <= length a -> prefix (firstn k q) a.
Proof.
  intros E H. assert (F : firstn k a = firstn k q ++ firstn (k - length q) n).
  { rewrite <- firstn_app, <- E, firstn_app. replace (k - length a) with 0 by lia. cbn. rewrite app_nil_r. reflexivity. }
  exists (firstn (k - length q) n ++ skipn k a). rewrite app_assoc, <- F. symmetry. apply firstn_skipn.
Qed.

Lemma prefix_quota_all l q n : prefix (quota l q) (q ++ n).
Proof.
  destruct l as [l|]; cbn; [|exists n; reflexivity]. exists (skipn (share l) q ++ n). rewrite app_assoc, firstn_skipn. reflexivity.
Qed.

Lemma reached_quota l (a x q n : list nat) c : a ++ x = q ++ n -> reached l (S c) = true -> length a = S c -> prefix (quota l q) a.
Proof.
  intros E R H. destruct l as [l|]; cbn in R; [|discriminate]. apply Nat.leb_le in R. cbn [quota].
  eapply prefix_firstn; [exact E|]. unfold share. lia.
Qed.

(** Where a poll that began in [p0] is *)
Definition progress (p0 : pool) (l : option nat) (p : pool) : Prop :=
  match p_phase p with
  | Starting l' c => l' = l /\ exists a, p_started p = p_started p0 ++ a /\ p_polled p = p_polled p0 ++ a /\ length a = c /\
      (exists n, a ++ p_cancel p = p_cancel p0 ++ n) /\ exists m, p_runnable p = p_runnable p0 ++ m
  | Running l' c => l' = l /\ exists a b, p_started p = p_started p0 ++ a /\ p_polled p = p_polled p0 ++ a ++ b /\ length b = c /\
      prefix (quota l (p_cancel p0)) a /\ exists m, b ++ p_runnable p = p_runnable p0 ++ m
  | Resting => exists a b, p_started p = p_started p0 ++ a /\ p_polled p = p_polled p0 ++ a ++ b /\
      prefix (quota l (p_cancel p0)) a /\ prefix (quota l (p_runnable p0)) b /\ exists m, b ++ p_runnable p = p_runnable p0 ++ m
  end.

Lemma progress_step p0 l p a : begins a = false -> progress p0 l p -> progress p0 l (pstep p a).
Proof.
  intros N G. destruct (is_round a) eqn:R.
  - destruct a; try discriminate. cbn [pstep]. unfold progress in *. unfold round. destruct (p_phase p) as [|l' c|l' c] eqn:E; [rewrite E; exact G| |].
    + destruct G as (-> & a & A & B & C & [n D] & [m F]). destruct (p_cancel p) as [|k rest].
      * cbn [p_phase p_started p_polled p_runnable]. split; [reflexivity|]. exists a, []. rewrite app_nil_r in D. rewrite !app_nil_r. repeat split; auto.
        -- rewrite D. apply prefix_quota_all.
        -- exists m. exact F.
      * match goal with |- context [run_task ?q ?k ?ph] => destruct (run_task_same q k ph) as (_ & T1 & _ & T2 & T3 & T4 & [new T5]) end.
        cbn [p_cancel p_started p_polled p_runnable] in T1, T2, T3, T5. rewrite T4.
        assert (D' : (a ++ [k]) ++ rest = p_cancel p0 ++ n) by (rewrite <- app_assoc; exact D).
        assert (C' : length (a ++ [k]) = S c) by (rewrite app_length, C; cbn; lia).
        destruct (reached l (S c)) eqn:Q; (split; [reflexivity|]).
        -- exists (a ++ [k]), []. rewrite T2, T3, T5, A, B, !app_nil_r, !app_assoc. repeat split.
           ++ eapply reached_quota; [exact D'|exact Q|exact C'].
           ++ exists (m ++ new). cbn. rewrite F, app_assoc. reflexivity.
        -- exists (a ++ [k]). rewrite T1, T2, T3, T5, A, B, !app_assoc. repeat split; auto.
           ++ exists n. rewrite <- app_assoc in D'. rewrite <- D'. rewrite <- app_assoc. reflexivity.
           ++ exists (m ++ new). rewrite F, app_assoc. reflexivity.
    + destruct G as (-> & a & b & A & B & C & P & [m D]). destruct (p_runnable p) as [|k rest].
      * cbn [p_phase p_started p_polled p_runnable]. exists a, b. rewrite app_nil_r in D |- *. repeat split; auto.
        -- rewrite D. apply prefix_quota_all.
        -- exists m. exact D.
      * match goal with |- context [run_task ?q ?k ?ph] => destruct (run_task_same q k ph) as (_ & T1 & _ & T2 & T3 & T4 & [new T5]) end.
        cbn [p_cancel p_started p_polled p_runnable] in T1, T2, T3, T5. rewrite T4.
        assert (D' : (b ++ [k]) ++ rest = p_runnable p0 ++ m) by (rewrite <- app_assoc; exact D).
        assert (C' : length (b ++ [k]) = S c) by (rewrite app_length, C; cbn; lia).
        destruct (reached l (S c)) eqn:Q.
        -- exists a, (b ++ [k]). rewrite T2, T3, T5, A, B. repeat split; auto.
           ++ rewrite !app_assoc. reflexivity.
           ++ eapply reached_quota; [exact D'|exact Q|exact C'].
           ++ exists (m ++ new). rewrite app_assoc, D', app_assoc. reflexivity.
        -- split; [reflexivity|]. exists a, (b ++ [k]). rewrite T2, T3, T5, A, B. repeat split; auto.
           ++ rewrite !app_assoc. reflexivity.
           ++ exists (m ++ new). rewrite app_assoc, D', app_assoc. reflexivity.
  - destruct (other_same p a N R) as (A & B & C & [n D] & [m E]). unfold progress in *. rewrite A, B, C, D, E. destruct (p_phase p) as [|l' c|l' c].
    + destruct G as (x & y & G1 & G2 & G3 & G4 & [z G5]). exists x, y. repeat split; auto. exists (z ++ m). rewrite !app_assoc, G5. reflexivity.
    + destruct G as (-> & x & G1 & G2 & G3 & [y G4] & [z G5]). split; [reflexivity|]. exists x. repeat split; auto.
      * exists (y ++ n). rewrite !app_assoc, G4. reflexivity.
      * exists (z ++ m). rewrite app_assoc, G5. reflexivity.
    + destruct G as (-> & x & y & G1 & G2 & G3 & G4 & [z G5]). split; [reflexivity|]. exists x, y. repeat split; auto. exists (z ++ m). rewrite !app_assoc, G5. reflexivity.
Qed.

Lemma progress_run p0 l acts : forall p, forallb (fun a => negb (begins a)) acts = true -> progress p0 l p -> progress p0 l (prun p acts).
Proof.
  induction acts as [|a acts IH]; intros p N G; [exact G|]. cbn [forallb] in N. apply andb_true_iff in N as [N1 N]. apply negb_true_iff in N1.
  apply (IH (pstep p a)); [exact N|]. apply progress_step; assumption.
Qed.

Lemma one_poll p l acts : p_phase p = Resting -> forallb (fun a => negb (begins a)) acts = true ->
  p_phase (prun p (PBegin l :: acts)) = Resting ->
  exists a b, p_started (prun p (PBegin l :: acts)) = p_started p ++ a /\ p_polled (prun p (PBegin l :: acts)) = p_polled p ++ a ++ b /\
    prefix (quota l (p_cancel p)) a /\ prefix (quota l (p_runnable p)) b /\ exists m, b ++ p_runnable (prun p (PBegin l :: acts)) = p_runnable p ++ m.
Proof.
  intros R N E. change (prun p (PBegin l :: acts)) with (prun (pstep p (PBegin l)) acts) in *.
  assert (G : progress p l (prun (pstep p (PBegin l)) acts)).
  { apply progress_run; [exact N|]. cbn [pstep]. rewrite R. unfold progress. cbn. split; [reflexivity|]. exists []. rewrite !app_nil_r. cbn. repeat split; auto;
      exists []; rewrite app_nil_r; reflexivity. }
  unfold progress in G. rewrite E in G. exact G.
Qed.

(** Between polls nothing is polled. *)
Lemma idle_run acts : forall p, p_phase p = Resting -> forallb (fun a => negb (begins a)) acts = true ->
  p_phase (prun p acts) = Resting /\ p_started (prun p acts) = p_started p /\ p_polled (prun p acts) = p_polled p /\
  (exists m, p_cancel (prun p acts) = p_cancel p ++ m) /\ exists m, p_runnable (prun p acts) = p_runnable p ++ m.
Proof.
  induction acts as [|a acts IH]; intros p R N; [cbn; repeat split; auto; exists []; rewrite app_nil_r; reflexivity|].
  cbn [forallb] in N. apply andb_true_iff in N as [N1 N]. apply negb_true_iff in N1. change (prun p (a :: acts)) with (prun (pstep p a) acts).
  assert (H : p_phase (pstep p a) = p_phase p /\ p_started (pstep p a) = p_started p /\ p_polled (pstep p a) = p_polled p /\
    (exists m, p_cancel (pstep p a) = p_cancel p ++ m) /\ exists m, p_runnable (pstep p a) = p_runnable p ++ m).
  { destruct (is_round a) eqn:Q; [|apply other_same; assumption]. destruct a; try discriminate. cbn [pstep]. unfold round. rewrite R.
    repeat split; auto; exists []; rewrite app_nil_r; reflexivity. }
  destruct H as (A & B & C & [n D] & [m E]). destruct (IH (pstep p a)) as (A' & B' & C' & [n' D'] & [m' E']); [rewrite A; exact R|exact N|].
  rewrite B', C', D', E', B, C, D, E. repeat split; auto; [exists (n ++ n')|exists (m ++ m')]; rewrite app_assoc; reflexivity.
Qed.

Lemma prun_app p a b : prun p (a ++ b) = prun (prun p a) b.
Proof. apply fold_left_app. Qed.

Lemma quota_head l k (q : list nat) : exists r, quota l (k :: q) = k :: r.
Proof. destruct l as [l|]; cbn; [|eauto]. unfold share. destruct l as [|l]; [exists []; reflexivity|]. cbn. eauto. Qed.

(** Tasks are started in order, at least one by each poll while any waits. *)
Lemma flushes_start p n p' : flushes p n p' -> ok p ->
  length (p_started p) <= length (p_started p') /\
  forall k, k < p_sent p -> k < length (p_started p) + n -> k < length (p_started p').
Proof.
  induction 1 as [p acts R N|p before l acts n p' R N1 N2 E F IH]; intros O.
  - destruct (idle_run acts p R N) as (_ & S & _). rewrite S. split; [lia|]. intros; lia.
  - rewrite prun_app in *. set (q := prun p before) in *.
    destruct (idle_run before p R N1) as (Rq & Sq & _ & [m Cq] & _). fold q in Rq, Sq, Cq.
    destruct (one_poll q l acts Rq N2 E) as (a & b & A & _ & [r P] & _).
    assert (Oq : ok q) by (apply ok_prun, O). set (z := prun q (PBegin l :: acts)) in *. assert (Oz : ok z) by (apply ok_prun, Oq).
    specialize (IH Oz) as [IH1 IH2]. rewrite A, Sq, app_length in *. split; [lia|]. intros k K L.
    pose proof (f_equal (@length nat) (ok_sent p O)) as G. rewrite app_length, seq_length in G.
    assert (Z : p_sent p <= p_sent z).
    { clear -z q. unfold z, q. rewrite <- prun_app. generalize (before ++ PBegin l :: acts) as l0. intros l0. revert p q z. induction l0 as [|x l0 IH]; intros p q z; [cbn; lia|].
      change (prun p (x :: l0)) with (prun (pstep p x) l0). specialize (IH (pstep p x)). cbn zeta in IH. etransitivity; [|exact IH].
      destruct x; cbn [pstep]; [destruct (p_phase p); cbn; lia|rewrite (proj1 (round_same p)); lia|cbn; lia|destruct (p_state p k); cbn; lia]. }
    destruct (Nat.lt_ge_cases k (length (p_started p))) as [H|H]; [lia|]. apply IH2; [lia|].
    destruct (p_cancel p) as [|c rest] eqn:Ec; [cbn in G; lia|]. rewrite Cq in P. cbn [app] in P.
    destruct (quota_head l c (rest ++ m)) as [r' Q]. rewrite Q in P. rewrite P. cbn. lia.
Qed.

(** What is woken is polled, and does not wait for what was woken later. *)
Lemma flushes_run p n p' : flushes p n p' ->
  (forall k, times k (p_polled p) <= times k (p_polled p')) /\
  forall i k, nth_error (p_runnable p) i = Some k -> i < n -> times k (p_polled p) < times k (p_polled p').
Proof.
  induction 1 as [p acts R N|p before l acts n p' R N1 N2 E F IH].
  - destruct (idle_run acts p R N) as (_ & _ & S & _). rewrite S. split; [lia|]. intros; lia.
  - rewrite prun_app in *. set (q := prun p before) in *.
    destruct (idle_run before p R N1) as (Rq & _ & Pq & _ & [m Cq]). fold q in Rq, Pq, Cq.
    destruct (one_poll q l acts Rq N2 E) as (a & b & _ & A & _ & [r P] & [x B]).
    set (z := prun q (PBegin l :: acts)) in *. destruct IH as [IH1 IH2].
    assert (M : forall k, times k (p_polled p) + times k b <= times k (p_polled z)).
    { intros k. rewrite A, !times_app, Pq. lia. }
    split; [intros k; specialize (M k); specialize (IH1 k); lia|]. intros i k I L. specialize (IH1 k).
    rewrite Cq in B, P. rewrite <- app_assoc in B.
    assert (I' : nth_error (b ++ p_runnable z) i = Some k).
    { rewrite B, nth_error_app1; [exact I|]. apply nth_error_Some. congruence. }
    destruct (Nat.lt_ge_cases i (length b)) as [H|H].
    + rewrite nth_error_app1 in I' by exact H. apply nth_error_In in I'. apply (count_occ_In Nat.eq_dec) in I'. fold (times k b) in I'. specialize (M k). lia.
    + rewrite nth_error_app2 in I' by exact H. specialize (M k).
      assert (0 < length b).
      { destruct (p_runnable p) as [|c rest]; [destruct i; discriminate|]. destruct (quota_head l c (rest ++ m)) as [r' Q]. cbn [app] in P. rewrite Q in P. rewrite P. cbn. lia. }
      specialize (IH2 _ _ I'). lia.
Qed.

(** * Without a limit *)

Definition work (b : nat) (polls : nat -> nat) (l : list nat) : nat := list_sum (map (fun k => S (b - polls k)) l).
Definition todo (b : nat) (p : pool) : nat :=
  match p_phase p with
  | Resting => 0
  | Starting _ _ => 2 + work b (p_polls p) (p_cancel p) + work b (p_polls p) (p_runnable p)
  | Running _ _ => 1 + work b (p_polls p) (p_runnable p)
  end.

Lemma work_mono b polls k l : work b (set_at polls k (S (polls k))) l <= work b polls l.
Proof.
  unfold work. induction l as [|j l IH]; cbn [map list_sum fold_right]; [lia|]. unfold list_sum in *. cbn [fold_right].
  destruct (Nat.eq_dec j k) as [->|D]; [rewrite set_at_eq|rewrite set_at_neq by exact D]; lia.
Qed.
Lemma work_snoc b polls l k : work b polls (l ++ [k]) = work b polls l + S (b - polls k).
Proof. unfold work. rewrite map_app, list_sum_app. cbn. lia. Qed.
Lemma work_cons b polls l k : work b polls (k :: l) = S (b - polls k) + work b polls l.
Proof. reflexivity. Qed.

Lemma todo_round b p : (forall k n, b <= n -> p_future p k n <> Yield) -> todo b (round p) <= Nat.pred (todo b p).
Proof.
  intros F. unfold todo, round. destruct (p_phase p) as [|l c|l c] eqn:E; [rewrite E; lia| |].
  - destruct (p_cancel p) as [|k rest]; [cbn [p_phase p_polls p_runnable]; change (work b (p_polls p) []) with 0; lia|].
    rewrite work_cons. unfold run_task. cbn [p_polls p_future p_runnable p_cancel].
    pose proof (work_mono b (p_polls p) k rest). pose proof (work_mono b (p_polls p) k (p_runnable p)).
    destruct (p_future p k (p_polls p k)) eqn:A; cbn [p_phase p_polls p_runnable p_cancel];
      destruct (reached l (S c)); rewrite ?work_snoc, ?set_at_eq; try lia.
    all: assert (p_polls p k < b) by (destruct (Nat.lt_ge_cases (p_polls p k) b); auto; exfalso; eapply F; eassumption); lia.
  - destruct (p_runnable p) as [|k rest]; [cbn [p_phase]; lia|].
    rewrite work_cons. unfold run_task. cbn [p_polls p_future p_runnable p_cancel].
    pose proof (work_mono b (p_polls p) k rest).
    destruct (p_future p k (p_polls p k)) eqn:A; cbn [p_phase p_polls p_runnable p_cancel];
      destruct (reached l (S c)); rewrite ?work_snoc, ?set_at_eq; try lia.
    all: assert (p_polls p k < b) by (destruct (Nat.lt_ge_cases (p_polls p k) b); auto; exfalso; eapply F; eassumption); lia.
Qed.

Lemma todo_rounds b n : forall p, (forall k n, b <= n -> p_future p k n <> Yield) -> todo b (prun p (repeat PRound n)) <= todo b p - n.
Proof.
  induction n as [|n IH]; intros p F; [cbn; lia|]. change (prun p (repeat PRound (S n))) with (prun (round p) (repeat PRound n)).
  pose proof (todo_round b p F). specialize (IH (round p)). rewrite (proj2 (round_same p)) in IH. specialize (IH F). lia.
Qed.

Lemma todo_resting b p : todo b p = 0 -> p_phase p = Resting.
Proof. unfold todo. destruct (p_phase p); [auto|lia|lia]. Qed.

(** A future which always wakes itself *)
Definition stuck (p : pool) : Prop :=
  p_cancel p = [] /\ p_runnable p = [0] /\ (forall n, p_future p 0 n = Yield) /\ exists c, p_phase p = Starting None c \/ p_phase p = Running None c.

Lemma stuck_round p : stuck p -> stuck (round p).
Proof.
  intros (C & R & F & c & [E|E]); unfold round; rewrite E.
  - rewrite C. unfold stuck. cbn. rewrite R. repeat split; auto. exists 0. auto.
  - rewrite R. unfold run_task. cbn [p_future p_polls]. rewrite F. unfold stuck. cbn. repeat split; auto. eauto.
Qed.

Lemma stuck_rounds n : forall p, stuck p -> stuck (prun p (repeat PRound n)).
Proof. induction n as [|n IH]; intros p S; [exact S|]. apply (IH (round p)), stuck_round, S. Qed.
