(** Proofs about promises. *)
From Verif Require Import Base PromiseModel PromiseSpec.

Section PromiseProofs.
  Context {T : Type}.
  Implicit Types (l : list (pevent T)) (w : pworld T).

  Lemma run_ind (P : pworld T -> Prop) :
    P fresh -> (forall w a, P w -> P (step w a)) -> forall acts : list (paction T), P (run acts).
  Proof.
    intros H0 HS acts. unfold run. assert (G : forall w, P w -> P (fold_left step acts w)).
    { induction acts as [|a acts IH]; intros w H; [exact H|]. cbn. apply IH, HS, H. }
    apply G, H0.
  Qed.

  Lemma run_snoc (acts : list (paction T)) a : run (acts ++ [a]) = step (run acts) a.
  Proof. unfold run. rewrite fold_left_app. reflexivity. Qed.

  (** ** What is known after a list of observations *)
  Fixpoint known (cur : pstate T) l : pstate T :=
    match l with
    | [] => cur
    | e :: l' => known (match seen e with Some s => then_known e s | None => cur end) l'
    end.

  Lemma known_snoc cur l e :
    known cur (l ++ [e]) = match seen e with Some s => then_known e s | None => known cur l end.
  Proof. revert cur. induction l as [|x l IH]; intros cur; [reflexivity|]. cbn. apply IH. Qed.

  Lemma stable_snoc cur l e :
    stable cur (l ++ [e]) <->
    stable cur l /\ match seen e with Some s => may_follow (known cur l) s | None => True end.
  Proof.
    revert cur. induction l as [|x l IH]; intros cur.
    - cbn. destruct (seen e); tauto.
    - cbn [app stable known]. destruct (seen x) as [s|]; rewrite IH; tauto.
  Qed.

  Lemma count_snoc p l e : count p (l ++ [e]) = count p l + if p e then 1 else 0.
  Proof.
    unfold count. rewrite filter_app, app_length. cbn. destruct (p e); reflexivity.
  Qed.

  Lemma snoc_split l (x : pevent T) l1 e l2 :
    l ++ [x] = l1 ++ e :: l2 ->
    (l2 = [] /\ l = l1 /\ x = e) \/ (exists l2', l2 = l2' ++ [x] /\ l = l1 ++ e :: l2').
  Proof.
    revert l1. induction l as [|y l IH]; intros l1 E.
    - destruct l1 as [|? l1]; cbn in E.
      + injection E as <- <-. left. auto.
      + injection E as _ E. destruct l1; discriminate.
    - destruct l1 as [|z l1]; cbn in E; injection E as <- E.
      + right. exists l. subst l2. auto.
      + destruct (IH _ E) as [(-> & -> & ->)|(l2' & -> & ->)]; [left; auto|right; exists l2'; auto].
  Qed.

  Lemma truthful_snoc l e :
    truthful l ->
    (forall s, seen e = Some s -> s <> Pending -> s <> Taken -> exists r, In (Sent r) l /\ s = shows r) ->
    truthful (l ++ [e]).
  Proof.
    intros H HE l1 e' l2 s E S P Q. destruct (snoc_split _ _ _ _ _ E) as [(-> & <- & ->)|(l2' & -> & ->)].
    - apply HE; assumption.
    - apply (H l1 e' l2' s eq_refl S P Q).
  Qed.

  (** ** The main invariant *)
  Definition core (st : pstate T) (res : option (presult T)) (snd : @sphase T) l : Prop :=
    stable Pending l /\ may_follow (known Pending l) st /\ truthful l /\
    ((nothing_sent l /\ res = None /\ st = Pending /\ count is_sent l = 0 /\ count is_success l = 0) \/
     (exists r, snd = SGone /\ In (Sent r) l /\ count is_sent l = 1 /\
        ((res = Some r /\ st = Pending /\ count is_success l = 0) \/
         (res = None /\ st = shows r /\ count is_success l = 0) \/
         (res = None /\ st = Taken /\ count is_success l = 1 /\ exists v, r = RAvailable v)))).

  Definition inv w := core (w_state w) (w_result w) (w_send w) (w_log w).

  Lemma nothing_sent_snoc l e : nothing_sent l -> is_sent e = false -> nothing_sent (l ++ [e]).
  Proof.
    intros H E r Hi. apply in_app_or in Hi as [Hi|[->|[]]]; [exact (H r Hi)|discriminate].
  Qed.

  Lemma core_silent st res snd l e :
    core st res snd l -> seen e = None -> is_sent e = false -> core st res snd (l ++ [e]).
  Proof.
    intros (A & B & C & D) S E. assert (SU : is_success e = false) by (destruct e; try reflexivity; discriminate).
    split; [apply stable_snoc; rewrite S; auto|]. split; [rewrite known_snoc, S; exact B|].
    split; [apply truthful_snoc; [exact C|intros s Hs; congruence]|].
    rewrite !count_snoc, E, SU, !Nat.add_0_r.
    destruct D as [(D1 & D2)|(r & D1 & D2 & D3)].
    - left. split; [apply nothing_sent_snoc; assumption|exact D2].
    - right. exists r. split; [exact D1|]. split; [apply in_or_app; auto|exact D3].
  Qed.

  Lemma core_see st res snd l e :
    core st res snd l -> seen e = Some st -> takes e = false -> core st res snd (l ++ [e]).
  Proof.
    intros (A & B & C & D) S E.
    assert (SU : is_success e = false) by (destruct e; try reflexivity; discriminate).
    assert (SE : is_sent e = false) by (destruct e; try reflexivity; discriminate).
    split; [apply stable_snoc; rewrite S; auto|]. split.
    { rewrite known_snoc, S. left. unfold then_known. rewrite E. destruct st; reflexivity. }
    split.
    { apply truthful_snoc; [exact C|]. intros s Hs HP HT. rewrite S in Hs. injection Hs as <-.
      destruct D as [(_ & _ & D & _)|(r & _ & Hi & _ & [(_ & D & _)|[(_ & D & _)|(_ & D & _)]])]; try contradiction.
      exists r. auto. }
    rewrite !count_snoc, SE, SU, !Nat.add_0_r.
    destruct D as [(D1 & D2)|(r & D1 & D2 & D3)].
    - left. split; [apply nothing_sent_snoc; assumption|exact D2].
    - right. exists r. split; [exact D1|]. split; [apply in_or_app; auto|exact D3].
  Qed.

  Lemma core_took st res snd l :
    core st res snd l ->
    core (match st with Available _ => Taken | _ => st end) res snd (l ++ [Took st]).
  Proof.
    intros (A & B & C & D).
    split; [apply stable_snoc; cbn; auto|]. split.
    { rewrite known_snoc. cbn. left. destruct st; reflexivity. }
    split.
    { apply truthful_snoc; [exact C|]. cbn. intros s Hs HP HT. injection Hs as <-.
      destruct D as [(_ & _ & D & _)|(r & _ & Hi & _ & [(_ & D & _)|[(_ & D & _)|(_ & D & _)]])]; try contradiction.
      exists r. auto. }
    rewrite !count_snoc. cbn [is_sent is_success].
    destruct D as [(D1 & D2 & -> & D4 & D5)|(r & D1 & D2 & D3 & D4)].
    - left. split; [apply nothing_sent_snoc; [assumption|reflexivity]|]. auto with arith.
      cbn. rewrite !Nat.add_0_r. auto.
    - right. exists r. split; [exact D1|]. split; [apply in_or_app; auto|]. split; [lia|].
      destruct D4 as [(E1 & -> & E3)|[(E1 & -> & E3)|(E1 & -> & E3)]].
      + left. cbn. rewrite Nat.add_0_r. auto.
      + right. destruct r; cbn; rewrite ?Nat.add_0_r; auto. right. rewrite E3. eauto.
      + right. right. cbn. rewrite Nat.add_0_r. auto.
  Qed.

  Lemma core_update st res snd l :
    core st res snd l -> is_pending st = true -> core (state_update st res) None snd l.
  Proof.
    intros (A & B & C & D) P. destruct st; try discriminate.
    split; [exact A|]. split.
    { assert (K : known Pending l = Pending) by (destruct B as [B|[B _]]; congruence).
      rewrite K. right. split; [reflexivity|]. destruct res as [[]|]; cbn; discriminate. }
    split; [exact C|].
    destruct D as [(D1 & -> & D3)|(r & D1 & D2 & D3 & [(-> & _ & D4)|[(-> & D4 & D5)|(_ & D4 & _)]])].
    - left. auto.
    - right. exists r. repeat (split; [assumption|]). right. left. destruct r; auto.
    - right. exists r. repeat (split; [assumption|]). right. left. auto.
    - discriminate.
  Qed.

  Lemma core_sent st res snd l r :
    core st res snd l -> snd <> SGone -> core st (Some r) SGone (l ++ [Sent r]).
  Proof.
    intros (A & B & C & D) N.
    destruct D as [(D1 & -> & -> & D3 & D4)|(r' & D1 & _)]; [|contradiction].
    split; [apply stable_snoc; cbn; auto|]. split; [rewrite known_snoc; exact B|].
    split; [apply truthful_snoc; [exact C|discriminate]|].
    rewrite !count_snoc. cbn. right. exists r. split; [reflexivity|]. split; [apply in_or_app; cbn; auto|].
    split; [lia|]. left. rewrite D4. auto.
  Qed.

  Lemma core_phase st res snd snd' l :
    core st res snd l -> snd <> SGone -> core st res snd' l.
  Proof.
    intros (A & B & C & [D|(r & D & _)]) N; [|contradiction]. repeat (split; [assumption|]). left. exact D.
  Qed.

  Lemma inv_fresh : inv fresh.
  Proof.
    split; [exact I|]. split; [left; reflexivity|]. split.
    { intros [|] e l2 s E; discriminate. }
    left. split; [intros r []|]. auto.
  Qed.

  Lemma inv_eq w w' :
    w_state w' = w_state w -> w_result w' = w_result w -> w_send w' = w_send w -> w_log w' = w_log w ->
    inv w -> inv w'.
  Proof. unfold inv. intros -> -> -> -> H. exact H. Qed.

  Lemma inv_update w : inv w -> inv (update w).
  Proof.
    unfold update. intros H. destruct (is_pending (w_state w)) eqn:P; [|exact H].
    apply core_update; assumption.
  Qed.

  Lemma inv_notify w : inv w -> inv (notify w).
  Proof. unfold notify. destruct (w_recv w); auto. Qed.

  Lemma inv_wait_return g m w : inv w -> is_pending (w_state w) = true \/ g = false -> inv (wait_return g m w).
  Proof.
    intros H P. unfold wait_return.
    assert (G : inv (if g && m then set_result (set_state w (state_update (w_state w) (w_result w))) None else w)).
    { destruct g, m; cbn; try exact H. destruct P as [P|P]; [|discriminate]. apply core_update; assumption. }
    set (w1 := if g && m then _ else w) in *. clearbody w1. apply core_see; [exact G|reflexivity|reflexivity].
  Qed.

  Lemma inv_check m i w : inv w -> is_pending (w_state w) = true -> inv (check m i w).
  Proof.
    intros H P. unfold check. destruct (keeps_waiting i w); [exact H|]. apply inv_wait_return; auto.
  Qed.

  Lemma inv_wait m i w : inv w -> inv (wait m i w).
  Proof.
    intros H. unfold wait. destruct (is_pending (w_state w)) eqn:P; [|apply inv_wait_return; auto].
    assert (G : forall w', inv w' -> is_pending (w_state w') = true -> inv (impl_wait m i w')).
    { intros w' H' P'. unfold impl_wait. destruct (w_result w'); [apply inv_wait_return; auto|apply inv_check; auto]. }
    destruct i; [|apply G; assumption]. destruct (w_triggered w); [apply inv_wait_return; auto|].
    apply G; assumption.
  Qed.

  Lemma inv_take w : inv w ->
    let '(r, w') := take w in inv (say w' (Took r)) /\ (is_pending r = true -> inv w') /\ r = w_state (update w).
  Proof.
    intros H. apply inv_update in H. unfold take. set (w1 := update w) in *. clearbody w1.
    cbn. split; [|split].
    - apply (core_took _ _ _ _ H).
    - intros P. destruct (w_state w1) eqn:E; try discriminate. unfold inv in *. cbn. rewrite E in H. exact H.
    - reflexivity.
  Qed.

  Lemma inv_drop w : inv w -> inv (drop w).
  Proof.
    intros H. unfold drop.
    assert (G : inv (say (set_recv w RGone) (Dropped (w_state w)))) by (apply core_see; [exact H|reflexivity|reflexivity]).
    set (w1 := say _ _) in *. clearbody w1. destruct (is_pending (w_state w1)); [|exact G].
    destruct (w_drop w1); [|exact G]. apply core_silent; [exact G|reflexivity|reflexivity].
  Qed.

  Lemma inv_store r w : inv w -> w_send w = SSet r -> inv (store r w).
  Proof.
    intros H S. unfold store.
    assert (G : core (w_state w) (Some r) SGone (w_log w ++ [Sent r])).
    { apply (core_sent (w_state w) (w_result w) (w_send w)); [exact H|congruence]. }
    unfold inv, notify. cbn. destruct (w_waker w) eqn:K; cbn; rewrite ?K; cbn.
    - destruct (w_recv w); cbn; apply core_silent; auto.
    - destruct (w_recv w); cbn; exact G.
  Qed.

  (** While the receiver waits, the cached state is pending. *)
  Definition waits w : Prop :=
    match w_recv w with
    | RChecked _ _ | RAsleep _ _ | RAwake _ _ | RPoll _ => is_pending (w_state w) = true
    | _ => True
    end.

  Lemma waits_wait_return g m w : waits (wait_return g m w).
  Proof. exact I. Qed.

  Lemma waits_check m i w : is_pending (w_state w) = true -> waits (check m i w).
  Proof.
    intros H. unfold check. destruct (keeps_waiting i w); [exact H|exact I].
  Qed.

  Lemma waits_impl_wait m i w : is_pending (w_state w) = true -> waits (impl_wait m i w).
  Proof. intros H. unfold impl_wait. destruct (w_result w); [exact I|apply waits_check, H]. Qed.

  Lemma waits_idle w : w_recv w = RIdle -> waits w.
  Proof. intros R. unfold waits. rewrite R. exact I. Qed.

  Lemma waits_gone w : w_recv w = RGone -> waits w.
  Proof. intros R. unfold waits. rewrite R. exact I. Qed.

  Lemma waits_same w w' : w_recv w' = w_recv w -> w_state w' = w_state w -> waits w -> waits w'.
  Proof. unfold waits. intros -> -> H. exact H. Qed.

  Lemma update_recv w : w_recv (update w) = w_recv w.
  Proof. unfold update. destruct (is_pending (w_state w)); reflexivity. Qed.

  Lemma waits_notify w : waits w -> waits (notify w).
  Proof. unfold waits, notify. destruct (w_recv w) eqn:R; cbn; rewrite ?R; auto. Qed.

  Lemma waits_step w a : waits w -> waits (step w a).
  Proof.
    intros W. destruct a; cbn [step].
    - destruct (w_recv w) eqn:R; try exact W; apply waits_idle; exact R.
    - destruct (w_recv w) eqn:R; try exact W; apply waits_idle; unfold peek; cbn; rewrite update_recv; exact R.
    - destruct (w_recv w) eqn:R; try exact W; apply waits_idle; cbn; rewrite update_recv; exact R.
    - destruct (w_recv w) eqn:R; try exact W. unfold poll, take.
      unfold state_take. destruct (w_state (update w)) eqn:E; cbn [is_pending].
      all: try (apply waits_idle; cbn; rewrite update_recv; exact R). reflexivity.
    - destruct (w_recv w) eqn:R; try exact W. apply waits_idle. reflexivity.
    - destruct (w_recv w) eqn:R; try exact W. set (w1 := say w _). assert (R1 : w_recv w1 = RIdle) by exact R. clearbody w1.
      unfold wait. destruct (is_pending (w_state w1)) eqn:P; [|exact I].
      destruct intr; [destruct (w_triggered w1); [exact I|]|]; apply waits_impl_wait; exact P.
    - destruct (w_recv w) eqn:R; try exact W. unfold waits in *. rewrite R in W. exact W.
    - destruct (w_recv w) eqn:R; try exact W. apply waits_check. unfold waits in *. rewrite R in W. exact W.
    - destruct (w_recv w) eqn:R; try exact W. unfold waits in *. rewrite R in W. exact W.
    - destruct (w_recv w) eqn:R; try exact W. apply waits_gone. unfold drop. cbn.
      destruct (is_pending (w_state w)); [destruct (w_drop w)|]; reflexivity.
    - destruct (w_send w); try exact W. unfold send. destruct (upgrades w); exact W.
    - destruct (w_send w); try exact W. destruct (locked w); [exact W|]. unfold store. cbn [w_waker say set_result].
      destruct (w_waker w).
      + apply (waits_same (notify (say (set_waker (say (set_result w (Some r)) (Sent r)) None) (Woken n)))); try reflexivity.
        apply waits_notify. exact W.
      + apply (waits_same (notify (say (set_result w (Some r)) (Sent r)))); try reflexivity. apply waits_notify. exact W.
    - destruct (w_send w); try exact W. unfold on_promise_drop. destruct (upgrades _); exact W.
    - destruct (w_send w); try exact W. destruct (locked w); exact W.
    - unfold interrupt. cbn. destruct (w_listed w); [apply waits_notify|]; exact W.
    - exact W.
  Qed.

  Lemma inv_step w a : inv w -> waits w -> inv (step w a).
  Proof.
    intros H W.
    assert (HS : forall e, seen e = None -> is_sent e = false -> inv (say w e)).
    { intros e E1 E2. apply core_silent; assumption. }
    destruct a; cbn [step].
    - destruct (w_recv w); try exact H. apply core_see; [exact H|reflexivity|reflexivity].
    - destruct (w_recv w); try exact H. unfold peek. apply core_see; [apply (inv_update w H)|reflexivity|reflexivity].
    - destruct (w_recv w); try exact H. pose proof (inv_take w H) as G. destruct (take w) as [r w']. apply G.
    - destruct (w_recv w); try exact H. unfold poll.
      pose proof (inv_take w H) as G. destruct (take w) as [r w']. destruct (is_pending r) eqn:P; [|apply G].
      destruct G as (_ & G & _). exact (G eq_refl).
    - destruct (w_recv w); try exact H. apply core_silent; [exact H|reflexivity|reflexivity].
    - destruct (w_recv w); try exact H. apply inv_wait. apply HS; reflexivity.
    - destruct (w_recv w); exact H.
    - destruct (w_recv w) eqn:R; try exact H. apply inv_check; [exact H|]. unfold waits in W. rewrite R in W. exact W.
    - destruct (w_recv w); exact H.
    - destruct (w_recv w); try exact H. apply inv_drop, H.
    - destruct (w_send w) eqn:S; try exact H. unfold send. destruct (upgrades w).
      + apply (core_phase _ _ (w_send w)); [exact H|congruence].
      + apply core_silent; [|reflexivity|reflexivity]. apply (core_phase _ _ (w_send w)); [exact H|congruence].
    - destruct (w_send w) eqn:S; try exact H. destruct (locked w); [exact H|]. apply inv_store; assumption.
    - destruct (w_send w) eqn:S; try exact H. unfold on_promise_drop.
      assert (G : inv (say w (Register f))) by (apply HS; reflexivity).
      destruct (upgrades _).
      + apply (core_phase _ _ (w_send w)); [exact G|congruence].
      + apply core_silent; [exact G|reflexivity|reflexivity].
    - destruct (w_send w) eqn:S; try exact H. destruct (locked w); [exact H|]. unfold register.
      apply core_silent; [|reflexivity|reflexivity]. apply (core_phase _ _ (w_send w)); [exact H|congruence].
    - unfold interrupt. assert (G : inv (say w Interrupt)) by (apply HS; reflexivity).
      cbn. destruct (w_listed w); [apply inv_notify|]; exact G.
    - exact H.
  Qed.

  Lemma inv_run (acts : list (paction T)) : inv (run acts) /\ waits (run acts).
  Proof.
    apply run_ind.
    - split; [apply inv_fresh|exact I].
    - intros w a [H W]. split; [apply inv_step|apply waits_step]; assumption.
  Qed.

  Lemma run_stable (acts : list (paction T)) : stable Pending (w_log (run acts)).
  Proof. apply inv_run. Qed.

  Lemma run_truthful (acts : list (paction T)) : truthful (w_log (run acts)).
  Proof. apply inv_run. Qed.

  Lemma run_once (acts : list (paction T)) :
    count is_sent (w_log (run acts)) <= 1 /\ count is_success (w_log (run acts)) <= 1.
  Proof.
    destruct (inv_run acts) as [(_ & _ & _ & [(_ & _ & _ & A & B)|(r & _ & _ & A & [(_ & _ & B)|[(_ & _ & B)|(_ & _ & B & _)]])]) _]; lia.
  Qed.

  (** A result which was sent is there for the next look. *)
  Lemma run_delivered (acts : list (paction T)) r :
    In (Sent r) (w_log (run acts)) -> w_recv (run acts) = RIdle ->
    exists s, w_log (run (acts ++ [APeek])) = w_log (run acts) ++ [Saw s] /\
      (count is_success (w_log (run acts)) = 0 -> s = shows r) /\
      (count is_success (w_log (run acts)) = 1 -> s = Taken).
  Proof.
    intros Hi R. rewrite run_snoc. cbn [step]. rewrite R. destruct (inv_run acts) as [(_ & _ & _ & D) _].
    destruct D as [(D & _)|(r' & _ & Hi' & C & D)]; [destruct (D r Hi)|].
    assert (E : r' = r).
    { clear - Hi Hi' C. unfold count in C.
      assert (A : forall q, In (Sent q) (w_log (run acts)) -> In (Sent q) (filter is_sent (w_log (run acts)))).
      { intros q Hq. apply filter_In. split; [exact Hq|reflexivity]. }
      apply A in Hi. apply A in Hi'. destruct (filter is_sent (w_log (run acts))) as [|x [|]]; try discriminate.
      destruct Hi as [->|[]], Hi' as [E|[]]. congruence. }
    subst r'. unfold peek, update.
    destruct D as [(D1 & D2 & D3)|[(D1 & D2 & D3)|(D1 & D2 & D3 & v & ->)]]; rewrite D2.
    - cbn. rewrite ?D1, ?D2. eexists. split; [reflexivity|]. split; [destruct r; reflexivity|lia].
    - assert (P : is_pending (shows r) = false) by (destruct r; reflexivity). rewrite P. cbn. rewrite D2.
      eexists. split; [reflexivity|]. split; [reflexivity|lia].
    - cbn. rewrite D2. eexists. split; [reflexivity|]. split; [lia|reflexivity].
  Qed.

  (** ** Waiting *)

  (** The wait which has begun and not ended. *)
  Fixpoint open_wait (cur : option (bool * bool)) l : option (bool * bool) :=
    match l with
    | [] => cur
    | Waits m i :: l' => open_wait (Some (m, i)) l'
    | Waited _ _ :: l' => open_wait None l'
    | _ :: l' => open_wait cur l'
    end.

  Definition phase_wait (p : rphase) : option (bool * bool) :=
    match p with RChecked m i | RAsleep m i | RAwake m i => Some (m, i) | _ => None end.

  Definition wait_step (cur : option (bool * bool)) (e : pevent T) :=
    match e with Waits m i => Some (m, i) | Waited _ _ => None | _ => cur end.

  Lemma open_wait_snoc cur l e : open_wait cur (l ++ [e]) = wait_step (open_wait cur l) e.
  Proof.
    revert cur. induction l as [|x l IH]; intros cur; [destruct e; reflexivity|].
    cbn [app]. destruct x; cbn; apply IH.
  Qed.

  Lemma open_wait_quiet cur l : no_wait l -> open_wait cur l = cur.
  Proof.
    revert cur. induction l as [|x l IH]; intros cur H; [reflexivity|].
    assert (Hx := H x (or_introl eq_refl)). assert (Hl : no_wait l) by (intros e He; apply H; right; exact He).
    destruct x; try contradiction; cbn; apply IH, Hl.
  Qed.

  Lemma open_wait_app cur l1 l2 : open_wait cur (l1 ++ l2) = open_wait (open_wait cur l1) l2.
  Proof. revert cur. induction l1 as [|x l1 IH]; intros cur; [reflexivity|]. destruct x; cbn; apply IH. Qed.

  Definition is_wait (e : pevent T) : bool := match e with Waits _ _ | Waited _ _ => true | _ => false end.

  Lemma open_wait_silent cur l e : is_wait e = false -> open_wait cur (l ++ [e]) = open_wait cur l.
  Proof. intros H. rewrite open_wait_snoc. destruct e; try reflexivity; discriminate. Qed.

  Lemma waited_snoc b l e :
    waited b l ->
    (forall s l1 l2, e = Waited true s -> l = l1 ++ Waits true false :: l2 -> no_wait l2 ->
      b = true \/ nothing_sent l1 -> s <> Pending) ->
    waited b (l ++ [e]).
  Proof.
    intros H HE l1 l2 s l3 E N B.
    change (l1 ++ Waits true false :: l2 ++ Waited true s :: l3) with (l1 ++ (Waits true false :: l2) ++ Waited true s :: l3) in E.
    rewrite app_assoc in E.
    destruct (snoc_split _ _ _ _ _ E) as [(-> & E1 & E2)|(l3' & -> & E1)].
    - apply (HE s l1 l2); auto.
    - apply (H l1 l2 s l3'); auto. rewrite E1, <- app_assoc. reflexivity.
  Qed.

  Lemma waited_quiet b l e : waited b l -> (forall s, e <> Waited true s) -> waited b (l ++ [e]).
  Proof. intros H N. apply waited_snoc; [exact H|]. intros s l1 l2 E. destruct (N s E). Qed.

  (** The end of a wait whose beginning is [Some (m, i)]. *)
  Lemma waited_end l m i s :
    waited false l -> open_wait None l = Some (m, i) -> (m = true -> i = false -> s <> Pending) ->
    waited false (l ++ [Waited m s]).
  Proof.
    intros H O HS. apply waited_snoc; [exact H|]. intros s' l1 l2 E El N _. injection E as -> ->.
    rewrite El, open_wait_app in O. cbn in O. rewrite (open_wait_quiet _ l2 N) in O. injection O as <-. auto.
  Qed.

  (** A result which is stored was sent. *)
  Lemma stored_sent w r : inv w -> w_result w = Some r -> In (Sent r) (w_log w).
  Proof.
    intros (_ & _ & _ & [(_ & E & _)|(r' & _ & Hi & _ & [(E & _)|[(E & _)|(E & _)]])]) R; congruence.
  Qed.

  Definition winv w : Prop := waited false (w_log w) /\ open_wait None (w_log w) = phase_wait (w_recv w).

  Lemma winv_say w e : winv w -> is_wait e = false -> winv (say w e).
  Proof.
    intros [A B] E. split.
    - apply waited_quiet; [exact A|]. intros s ->. discriminate.
    - cbn. rewrite open_wait_silent; assumption.
  Qed.

  Lemma winv_same w w' : w_log w' = w_log w -> phase_wait (w_recv w') = phase_wait (w_recv w) -> winv w -> winv w'.
  Proof. unfold winv. intros -> -> H. exact H. Qed.

  Lemma winv_update w : winv w -> winv (update w).
  Proof. unfold update. intros H. destruct (is_pending (w_state w)); exact H. Qed.

  Lemma winv_notify w : winv w -> winv (notify w).
  Proof.
    unfold notify. destruct (w_recv w) eqn:R; try (intros H; exact H). intros [A B].
    split; [exact A|]. cbn. rewrite B, R. reflexivity.
  Qed.

  (** A wait returns: either there is no guard, or the condition was false. *)
  Lemma winv_return w m i g :
    waited false (w_log w) -> open_wait None (w_log w) = Some (m, i) ->
    (m = true -> i = false ->
       is_pending (w_state w) = false /\ g = false \/ g = true /\ w_result w <> None \/
       (exists l1, w_log w = l1 ++ [Waits m i] /\ ~ nothing_sent l1)) ->
    winv (wait_return g m w).
  Proof.
    intros A B C. unfold wait_return.
    set (w1 := if g && m then _ else w).
    assert (L : w_log w1 = w_log w) by (unfold w1; destruct (g && m); reflexivity).
    assert (S : g = false -> w_state w1 = w_state w) by (unfold w1; intros ->; reflexivity).
    assert (S2 : g = true -> m = true -> w_result w <> None -> w_state w1 <> Pending).
    { unfold w1. intros -> -> R. cbn. destruct (w_result w) as [[]|]; cbn; congruence. }
    clearbody w1. split.
    - cbn [w_log say set_recv]. rewrite L. apply waited_snoc; [exact A|]. intros s l1 l2 E El N [Bf|NS]; [discriminate|].
      injection E as -> <-.
      assert (Ei : i = false).
      { rewrite El, open_wait_app in B. cbn in B. rewrite (open_wait_quiet _ l2 N) in B. congruence. }
      destruct (C eq_refl Ei) as [[P ->]|[[-> P]|(l1' & Ew & P)]].
      + rewrite S by reflexivity. intros Q. rewrite Q in P. discriminate.
      + auto.
      + rewrite El in Ew. exfalso. apply P.
        assert (l2 = []) as ->.
        { revert N Ew. clear. destruct l2 as [|x l2' _] using rev_ind; intros N Ew; [reflexivity|]. exfalso.
          change (l1 ++ Waits true false :: l2' ++ [x]) with (l1 ++ (Waits true false :: l2') ++ [x]) in Ew.
          rewrite app_assoc in Ew. apply app_inj_tail in Ew as [_ ->].
          apply (N (Waits true i)). apply in_or_app. cbn. auto. }
        apply app_inj_tail in Ew as [-> _]. exact NS.
    - cbn. rewrite open_wait_snoc. reflexivity.
  Qed.

  Lemma winv_check m i w : waited false (w_log w) -> open_wait None (w_log w) = Some (m, i) -> winv (check m i w).
  Proof.
    intros A B. unfold check. destruct (keeps_waiting i w) eqn:K.
    - split; [exact A|exact B].
    - apply (winv_return w m i); [exact A|exact B|]. intros _ ->. unfold keeps_waiting in K. cbn in K.
      right. left. split; [reflexivity|]. destruct (w_result w); [discriminate|discriminate].
  Qed.

  Lemma winv_step w a : inv w -> winv w -> winv (step w a).
  Proof.
    intros V H. pose proof (winv_say w) as HS.
    destruct a; cbn [step].
    - destruct (w_recv w); try exact H. apply HS; auto.
    - destruct (w_recv w); try exact H. unfold peek. apply winv_say; [apply winv_update, H|reflexivity].
    - destruct (w_recv w); try exact H. unfold take. cbn. apply winv_say; [|reflexivity]. apply winv_update, H.
    - destruct (w_recv w) eqn:R; try exact H. unfold poll, take. cbn.
      destruct (is_pending (w_state (update w))).
      + apply (winv_same (update w)); [reflexivity|cbn; rewrite update_recv, R; reflexivity|apply winv_update, H].
      + apply winv_say; [|reflexivity]. apply winv_update, H.
    - destruct (w_recv w) eqn:R; try exact H. apply winv_say; [|reflexivity].
      apply (winv_same w); [reflexivity|cbn; rewrite R; reflexivity|exact H].
    - destruct (w_recv w) eqn:R; try exact H. destruct H as [A B]. rewrite R in B. cbn in B.
      set (w1 := say w (Waits mut intr)).
      assert (A1 : waited false (w_log w1)) by (apply waited_quiet; [exact A|discriminate]).
      assert (B1 : open_wait None (w_log w1) = Some (mut, intr)) by (unfold w1; cbn; rewrite open_wait_snoc; reflexivity).
      assert (L1 : w_log w1 = w_log w ++ [Waits mut intr]) by reflexivity.
      assert (R1 : w_result w1 = w_result w) by reflexivity. clearbody w1.
      assert (G : forall w2, w_log w2 = w_log w1 -> w_result w2 = w_result w1 -> winv (impl_wait mut intr w2)).
      { intros w2 L2 R2. unfold impl_wait. destruct (w_result w2) eqn:Q.
        - apply (winv_return w2 mut intr); rewrite ?L2; [exact A1|exact B1|]. intros _ _. right. right.
          exists (w_log w). split; [exact L1|]. intros N. apply (N p). apply stored_sent; [exact V|congruence].
        - apply winv_check; rewrite L2; assumption. }
      unfold wait. destruct (is_pending (w_state w1)) eqn:P.
      + destruct intr; [destruct (w_triggered w1)|].
        * apply (winv_return w1 mut true); [exact A1|exact B1|discriminate].
        * apply G; reflexivity.
        * apply G; reflexivity.
      + apply (winv_return w1 mut intr); [exact A1|exact B1|]. auto.
    - destruct (w_recv w) eqn:R; try exact H. apply (winv_same w); [reflexivity|cbn; rewrite R; reflexivity|exact H].
    - destruct (w_recv w) eqn:R; try exact H. destruct H as [A B]. rewrite R in B. apply winv_check; assumption.
    - destruct (w_recv w) eqn:R; try exact H. apply (winv_same w); [reflexivity|cbn; rewrite R; reflexivity|exact H].
    - destruct (w_recv w) eqn:R; try exact H. unfold drop.
      assert (G : winv (say (set_recv w RGone) (Dropped (w_state w)))).
      { apply winv_say; [|reflexivity]. apply (winv_same w); [reflexivity|cbn; rewrite R; reflexivity|exact H]. }
      cbn. destruct (is_pending (w_state w)); [|exact G]. destruct (w_drop w); [|exact G].
      apply winv_say; [exact G|reflexivity].
    - destruct (w_send w); try exact H. unfold send. destruct (upgrades w); [exact H|]. apply winv_say; [exact H|reflexivity].
    - destruct (w_send w); try exact H. destruct (locked w); [exact H|]. unfold store.
      assert (G : winv (say (set_result w (Some r)) (Sent r))) by (apply winv_say; [exact H|reflexivity]).
      set (w1 := say _ (Sent r)) in *. clearbody w1. destruct (w_waker w1).
      + apply (winv_same (notify (say (set_waker w1 None) (Woken n)))); try reflexivity.
        apply winv_notify, winv_say; [exact G|reflexivity].
      + apply (winv_same (notify w1)); try reflexivity. apply winv_notify, G.
    - destruct (w_send w); try exact H. unfold on_promise_drop.
      assert (G : winv (say w (Register f))) by (apply HS; auto). destruct (upgrades _); [exact G|].
      apply winv_say; [exact G|reflexivity].
    - destruct (w_send w); try exact H. destruct (locked w); [exact H|]. apply winv_say; [exact H|reflexivity].
    - unfold interrupt. assert (G : winv (say w Interrupt)) by (apply HS; auto). cbn.
      destruct (w_listed w); [apply winv_notify|]; exact G.
    - exact H.
  Qed.

  Lemma winv_run (acts : list (paction T)) : winv (run acts).
  Proof.
    cut ((inv (run acts) /\ waits (run acts)) /\ winv (run acts)); [tauto|].
    apply run_ind.
    - split; [split; [apply inv_fresh|exact I]|]. split; [|reflexivity]. intros [|] l2 s l3 E; discriminate.
    - intros w a [[H1 H2] H3]. split; [split; [apply inv_step|apply waits_step]|apply winv_step]; assumption.
  Qed.

  Lemma run_waited (acts : list (paction T)) : waited false (w_log (run acts)).
  Proof. apply winv_run. Qed.

  (** ** Wake-ups *)
  Fixpoint last_parked (cur : option nat) l : option nat :=
    match l with
    | [] => cur
    | Parked k :: l' => last_parked (Some k) l'
    | _ :: l' => last_parked cur l'
    end.

  Definition is_parked (e : pevent T) : bool := match e with Parked _ => true | _ => false end.

  Lemma last_parked_app cur l1 l2 : last_parked cur (l1 ++ l2) = last_parked (last_parked cur l1) l2.
  Proof. revert cur. induction l1 as [|x l1 IH]; intros cur; [reflexivity|]. destruct x; cbn; apply IH. Qed.

  Lemma last_parked_none cur l : (forall k, ~ In (Parked k) l) -> last_parked cur l = cur.
  Proof.
    revert cur. induction l as [|x l IH]; intros cur H; [reflexivity|].
    assert (Hl : forall k, ~ In (Parked k) l) by (intros k Hk; apply (H k); right; exact Hk).
    destruct x; cbn; try (apply IH, Hl). exfalso. apply (H k). left. reflexivity.
  Qed.

  Lemma wakes_silent b l e : wakes b l -> is_parked e = false -> is_sent e = false -> wakes b (l ++ [e]).
  Proof.
    intros H P S l1 k l2 E N (r & Hr) B.
    destruct (snoc_split _ _ _ _ _ E) as [(-> & -> & ->)|(l2' & -> & ->)]; [discriminate|].
    apply in_or_app. left. apply (H l1 k l2' eq_refl); auto.
    - intros k' Hk. apply (N k'). apply in_or_app. auto.
    - exists r. apply in_app_or in Hr as [Hr|[->|[]]]; [exact Hr|discriminate].
  Qed.

  Lemma wakes_parked l k : wakes false l -> wakes false (l ++ [Parked k]).
  Proof.
    intros H l1 k' l2 E N (r & Hr) [B|B]; [discriminate|].
    destruct (snoc_split _ _ _ _ _ E) as [(-> & -> & _)|(l2' & -> & ->)].
    - apply in_app_or in Hr as [Hr|[Hr|[]]]; [destruct (B r Hr)|discriminate].
    - exfalso. apply (N k). apply in_or_app. cbn. auto.
  Qed.

  Lemma wakes_sent_none l r :
    last_parked None l = None -> wakes false l -> wakes false (l ++ [Sent r]).
  Proof.
    intros L H l1 k l2 E N _ _. exfalso.
    destruct (snoc_split _ _ _ _ _ E) as [(_ & _ & ?)|(l2' & -> & ->)]; [discriminate|].
    rewrite last_parked_app in L. cbn in L. rewrite last_parked_none in L; [discriminate|].
    intros k' Hk. apply (N k'). apply in_or_app. auto.
  Qed.

  Lemma wakes_sent_some l r k :
    last_parked None l = Some k -> wakes false l -> wakes false ((l ++ [Sent r]) ++ [Woken k]).
  Proof.
    intros L H l1 k' l2 E N _ _.
    destruct (snoc_split _ _ _ _ _ E) as [(_ & _ & ?)|(l2' & -> & E1)]; [discriminate|].
    destruct (snoc_split _ _ _ _ _ E1) as [(_ & _ & ?)|(l3 & -> & ->)]; [discriminate|].
    rewrite last_parked_app in L. cbn in L. rewrite last_parked_none in L.
    - injection L as ->. apply in_or_app. cbn. auto.
    - intros q Hq. apply (N q). apply in_or_app. left. apply in_or_app. auto.
  Qed.

  Definition kinv w : Prop :=
    wakes false (w_log w) /\ (nothing_sent (w_log w) -> w_waker w = last_parked None (w_log w)).

  Lemma kinv_same w w' : w_log w' = w_log w -> w_waker w' = w_waker w -> kinv w -> kinv w'.
  Proof. unfold kinv. intros -> -> H. exact H. Qed.

  Lemma kinv_say w e : kinv w -> is_parked e = false -> is_sent e = false -> kinv (say w e).
  Proof.
    intros [A B] P S. split; [apply wakes_silent; assumption|]. cbn. intros N.
    rewrite last_parked_app. rewrite B.
    - destruct e; try reflexivity; discriminate.
    - intros r Hr. apply (N r). apply in_or_app. auto.
  Qed.

  Lemma kinv_update w : kinv w -> kinv (update w).
  Proof. unfold update. intros H. destruct (is_pending (w_state w)); exact H. Qed.

  Lemma kinv_notify w : kinv w -> kinv (notify w).
  Proof. unfold notify. intros H. destruct (w_recv w); exact H. Qed.

  Lemma kinv_return g m w : kinv w -> kinv (wait_return g m w).
  Proof.
    intros H. unfold wait_return. apply kinv_say; [|reflexivity|reflexivity]. destruct (g && m); exact H.
  Qed.

  Lemma kinv_impl_wait m i w : kinv w -> kinv (impl_wait m i w).
  Proof.
    intros H. unfold impl_wait. destruct (w_result w); [apply kinv_return, H|]. unfold check.
    destruct (keeps_waiting i w); [exact H|apply kinv_return, H].
  Qed.

  Lemma nothing_sent_inv w : inv w -> w_send w <> SGone -> nothing_sent (w_log w).
  Proof. intros (_ & _ & _ & [(H & _)|(r & H & _)]) N; [exact H|contradiction]. Qed.

  Lemma kinv_step w a : inv w -> kinv w -> kinv (step w a).
  Proof.
    intros V H. pose proof (kinv_say w) as HS.
    destruct a; cbn [step].
    - destruct (w_recv w); try exact H. apply HS; auto.
    - destruct (w_recv w); try exact H. unfold peek. apply kinv_say; [apply kinv_update, H|reflexivity|reflexivity].
    - destruct (w_recv w); try exact H. unfold take. cbn. apply kinv_say; [|reflexivity|reflexivity]. apply kinv_update, H.
    - destruct (w_recv w); try exact H. unfold poll, take. cbn.
      destruct (is_pending (w_state (update w))); [apply kinv_update, H|].
      apply kinv_say; [|reflexivity|reflexivity]. apply kinv_update, H.
    - destruct (w_recv w); try exact H. destruct H as [A B]. split; [apply wakes_parked, A|].
      cbn. intros _. rewrite last_parked_app. reflexivity.
    - destruct (w_recv w); try exact H. assert (G : kinv (say w (Waits mut intr))) by (apply HS; auto).
      set (w1 := say w _) in *. clearbody w1. unfold wait. destruct (is_pending (w_state w1)); [|apply kinv_return, G].
      destruct intr; [destruct (w_triggered w1); [apply kinv_return, G|]|]; apply kinv_impl_wait; exact G.
    - destruct (w_recv w); exact H.
    - destruct (w_recv w); try exact H. unfold check. destruct (keeps_waiting intr w); [exact H|apply kinv_return, H].
    - destruct (w_recv w); exact H.
    - destruct (w_recv w); try exact H. unfold drop.
      assert (G : kinv (say (set_recv w RGone) (Dropped (w_state w)))) by (apply kinv_say; [exact H|reflexivity|reflexivity]).
      cbn. destruct (is_pending (w_state w)); [|exact G]. destruct (w_drop w); [|exact G].
      apply kinv_say; [exact G|reflexivity|reflexivity].
    - destruct (w_send w); try exact H. unfold send. destruct (upgrades w); [exact H|].
      apply kinv_say; [exact H|reflexivity|reflexivity].
    - destruct (w_send w) eqn:S; try exact H. destruct (locked w); [exact H|]. unfold store.
      assert (NS : nothing_sent (w_log w)) by (apply nothing_sent_inv; [exact V|congruence]).
      destruct H as [A B]. specialize (B NS). cbn [w_waker say set_result].
      destruct (w_waker w) as [k|] eqn:K.
      + apply (kinv_same (notify (say (set_waker (say (set_result w (Some r)) (Sent r)) None) (Woken k)))); try reflexivity.
        apply kinv_notify. split; [apply wakes_sent_some; [cbn; congruence|exact A]|].
        intros N. exfalso. apply (N r). cbn. apply in_or_app. left. apply in_or_app. cbn. auto.
      + apply (kinv_same (notify (say (set_result w (Some r)) (Sent r)))); try reflexivity.
        apply kinv_notify. split; [apply wakes_sent_none; [cbn; congruence|exact A]|].
        intros N. exfalso. apply (N r). cbn. apply in_or_app. cbn. auto.
    - destruct (w_send w); try exact H. unfold on_promise_drop.
      assert (G : kinv (say w (Register f))) by (apply HS; auto). destruct (upgrades _); [exact G|].
      apply kinv_say; [exact G|reflexivity|reflexivity].
    - destruct (w_send w); try exact H. destruct (locked w); [exact H|]. apply kinv_say; [exact H|reflexivity|reflexivity].
    - unfold interrupt. assert (G : kinv (say w Interrupt)) by (apply HS; auto). cbn.
      destruct (w_listed w); [apply kinv_notify|]; exact G.
    - exact H.
  Qed.

  Lemma run_wakes (acts : list (paction T)) : wakes false (w_log (run acts)).
  Proof.
    cut ((inv (run acts) /\ waits (run acts)) /\ kinv (run acts)); [intros [_ [H _]]; exact H|].
    apply run_ind.
    - split; [split; [apply inv_fresh|exact I]|]. split; [|reflexivity]. intros [|] k l2 E; discriminate.
    - intros w a [[H1 H2] H3]. split; [split; [apply inv_step|apply waits_step]|apply kinv_step]; assumption.
  Qed.

  (** ** The callback *)
  Local Arguments registered : simpl never.
  Definition no_drop l : Prop := forall s, ~ In (Dropped s) l.

  Lemma in_time_prefix l1 l2 : in_time (l1 ++ l2) -> in_time l1.
  Proof.
    intros H a f b s c E. apply (H a f b s (c ++ l2)). rewrite E, <- app_assoc. cbn. rewrite <- app_assoc. reflexivity.
  Qed.

  Lemma registered_app l1 l2 : registered (l1 ++ l2) = registered l1 ++ registered l2.
  Proof. unfold registered. apply flat_map_app. Qed.

  Lemma registered_in l f : In f (registered l) <-> In (Register f) l.
  Proof.
    unfold registered. rewrite in_flat_map. split.
    - intros (e & He & Hf). destruct e; cbn in Hf; try contradiction; destruct Hf as [<-|[]]. exact He.
    - intros H. exists (Register f). cbn. auto.
  Qed.

  Definition gone (p : rphase) : bool := match p with RGone => true | _ => false end.

  Definition after_drop (snd : @sphase T) l : Prop :=
    (forall f, snd <> SReg f) /\ (exists s, In (Dropped s) l) /\
    (In (Dropped Pending) l ->
     forall f, last_opt (registered l) = Some f -> count (is_callback f) l = 1) /\
    (forall s, In (Dropped s) l -> s <> Pending -> no_callback l /\ snd = SGone).

  Definition before_drop (snd : @sphase T) (dr : option nat) l : Prop :=
    no_callback l /\ no_drop l /\
    match snd with
    | SReg f => last_opt (registered l) = Some f /\ exists l1 l2, l = l1 ++ Register f :: l2 /\ ~ In (Registered f) l2
    | _ => dr = last_opt (registered l)
    end.

  (** Entries of the interrupter keep the target alive only while somebody waits or after
      a result was stored. *)
  Definition ninv w : Prop :=
    (w_flag w = true -> w_clones w = 0) /\
    (w_clones w = 0 \/ (exists m, phase_wait (w_recv w) = Some (m, true)) \/ w_send w = SGone).

  Lemma ninv_same w w' :
    w_flag w' = w_flag w -> w_clones w' = w_clones w -> phase_wait (w_recv w') = phase_wait (w_recv w) ->
    (w_send w = SGone -> w_send w' = SGone) -> ninv w -> ninv w'.
  Proof.
    unfold ninv. intros -> -> -> S [A B]. split; [exact A|]. destruct B as [B|[B|B]]; auto.
  Qed.

  Lemma update_send w : w_send (update w) = w_send w.
  Proof. unfold update. destruct (is_pending (w_state w)); reflexivity. Qed.

  Lemma ninv_update w : ninv w -> ninv (update w).
  Proof. unfold update. intros H. destruct (is_pending (w_state w)); exact H. Qed.

  Lemma result_gone w : inv w -> w_result w <> None -> w_send w = SGone.
  Proof. intros (_ & _ & _ & [(_ & E & _)|(r & E & _)]) H; [contradiction|exact E]. Qed.

  Lemma state_gone w : inv w -> is_pending (w_state w) = false -> w_send w = SGone.
  Proof. intros (_ & _ & _ & [(_ & _ & E & _)|(r & E & _)]) H; [rewrite E in H; discriminate|exact E]. Qed.

  Lemma ninv_return g m w :
    (w_flag w = true -> w_clones w = 0) -> (w_clones w = 0 \/ w_send w = SGone) -> ninv (wait_return g m w).
  Proof. unfold wait_return. intros A B. destruct (g && m); cbn; split; cbn; tauto. Qed.

  Lemma ninv_check m i w :
    inv w -> (w_flag w = true -> w_clones w = 0) -> (i = true \/ w_clones w = 0 \/ w_send w = SGone) -> ninv (check m i w).
  Proof.
    intros V A B. unfold check. destruct (keeps_waiting i w) eqn:K.
    - split; [exact A|]. cbn. destruct B as [->|[B|B]]; eauto.
    - apply ninv_return; [exact A|]. unfold keeps_waiting in K. destruct (i && w_flag w) eqn:E.
      + apply andb_true_iff in E as [_ E]. auto.
      + destruct B as [->|B]; [|exact B]. right. apply result_gone; [exact V|]. destruct (w_result w); discriminate.
  Qed.

  Lemma ninv_step w a : inv w -> ninv w -> ninv (step w a).
  Proof.
    intros V H. destruct a; cbn [step].
    - destruct (w_recv w); exact H.
    - destruct (w_recv w); try exact H. apply (ninv_same (update w)); try reflexivity; [auto|apply ninv_update, H].
    - destruct (w_recv w); try exact H. apply (ninv_same (update w)); try reflexivity; [auto|apply ninv_update, H].
    - destruct (w_recv w) eqn:R; try exact H. unfold poll, take. cbn.
      destruct (is_pending (w_state (update w))); (apply (ninv_same (update w)); try reflexivity;
        try (apply ninv_update, H); auto; cbn; rewrite ?update_recv, ?R; reflexivity).
    - destruct (w_recv w) eqn:R; try exact H. apply (ninv_same w); try reflexivity; [rewrite R; reflexivity|auto|exact H].
    - destruct (w_recv w) eqn:R; try exact H.
      assert (V1 : inv (say w (Waits mut intr))) by (apply core_silent; [exact V|reflexivity|reflexivity]).
      assert (H1 : (w_flag w = true -> w_clones w = 0) /\ (w_clones w = 0 \/ w_send w = SGone)).
      { destruct H as [A B]. split; [exact A|]. rewrite R in B. destruct B as [B|[[m B]|B]]; [auto|discriminate|auto]. }
      destruct H1 as [A B]. unfold wait. cbn [w_state say w_triggered].
      destruct (is_pending (w_state w)); [|apply ninv_return; assumption].
      destruct intr.
      + destruct (w_triggered w); [apply ninv_return; assumption|]. unfold impl_wait. cbn [w_result set_intr say].
        destruct (w_result w) eqn:Q.
        * apply ninv_return; [discriminate|]. right. cbn. apply result_gone; [exact V|congruence].
        * apply ninv_check; [exact V1|discriminate|auto].
      + unfold impl_wait. cbn [w_result say]. destruct (w_result w).
        * apply ninv_return; assumption.
        * apply ninv_check; [exact V1|exact A|auto].
    - destruct (w_recv w) eqn:R; try exact H. apply (ninv_same w); try reflexivity; [rewrite R; reflexivity|auto|exact H].
    - destruct (w_recv w) eqn:R; try exact H. destruct H as [A B]. apply ninv_check; [exact V|exact A|].
      rewrite R in B. cbn in B. destruct B as [B|[[m' B]|B]]; auto. injection B as _ ->. auto.
    - destruct (w_recv w) eqn:R; try exact H. apply (ninv_same w); try reflexivity; [rewrite R; reflexivity|auto|exact H].
    - destruct (w_recv w) eqn:R; try exact H. unfold drop. cbn.
      destruct (is_pending (w_state w)); [destruct (w_drop w)|];
        (apply (ninv_same w); try reflexivity; [rewrite R; reflexivity|auto|exact H]).
    - destruct (w_send w) eqn:S; try exact H. unfold send. destruct (upgrades w);
        (apply (ninv_same w); try reflexivity; try exact H; congruence).
    - destruct (w_send w) eqn:S; try exact H. destruct (locked w); [exact H|]. unfold store. destruct H as [A B].
      split; [|right; right; reflexivity]. cbn [w_waker say set_result]. destruct (w_waker w); unfold notify; cbn;
        destruct (w_recv w); exact A.
    - destruct (w_send w) eqn:S; try exact H. unfold on_promise_drop. destruct (upgrades _);
        (apply (ninv_same w); try reflexivity; try exact H; congruence).
    - destruct (w_send w) eqn:S; try exact H. destruct (locked w); [exact H|].
      apply (ninv_same w); try reflexivity; try exact H; congruence.
    - unfold interrupt, notify. cbn. destruct (w_listed w); cbn; [destruct (w_recv w)|]; split; cbn; auto.
    - exact H.
  Qed.

  Definition cinv w : Prop :=
    in_time (w_log w) -> NoDup (registered (w_log w)) ->
    (forall f, In (Callback f) (w_log w) -> In f (registered (w_log w))) /\
    if gone (w_recv w) then after_drop (w_send w) (w_log w) else before_drop (w_send w) (w_drop w) (w_log w).

  Lemma cinv_same w w' :
    w_log w' = w_log w -> gone (w_recv w') = gone (w_recv w) ->
    w_send w' = w_send w -> w_drop w' = w_drop w -> cinv w -> cinv w'.
  Proof. unfold cinv. intros -> -> -> -> H. exact H. Qed.

  Definition neutral (e : pevent T) : bool :=
    match e with Register _ | Registered _ | Callback _ | Dropped _ => false | _ => true end.

  Lemma registered_neutral l e : neutral e = true -> registered (l ++ [e]) = registered l.
  Proof. intros N. rewrite registered_app. destruct e; try discriminate; cbn; apply app_nil_r. Qed.

  Lemma in_neutral l e x : neutral e = true -> In x (l ++ [e]) -> neutral x = false -> In x l.
  Proof. intros N H X. apply in_app_or in H as [H|[->|[]]]; [exact H|congruence]. Qed.

  Lemma after_neutral snd l e : neutral e = true -> after_drop snd l -> after_drop snd (l ++ [e]).
  Proof.
    intros N (A & (s & B) & C & D). split; [exact A|]. split; [exists s; apply in_or_app; auto|]. split.
    - intros Hd f Hf. rewrite registered_neutral in Hf by exact N. rewrite count_snoc.
      apply in_neutral in Hd; [|exact N|reflexivity]. rewrite (C Hd f Hf).
      destruct e; try discriminate; reflexivity.
    - intros s' Hs Hp. apply in_neutral in Hs; [|exact N|reflexivity]. destruct (D s' Hs Hp) as [D1 D2]. split; [|exact D2].
      intros f Hf. apply in_neutral in Hf; [|exact N|reflexivity]. exact (D1 f Hf).
  Qed.

  Lemma before_neutral snd dr l e : neutral e = true -> before_drop snd dr l -> before_drop snd dr (l ++ [e]).
  Proof.
    intros N (A & B & C). split; [|split].
    - intros f Hf. apply in_neutral in Hf; [|exact N|reflexivity]. exact (A f Hf).
    - intros f Hf. apply in_neutral in Hf; [|exact N|reflexivity]. exact (B f Hf).
    - rewrite registered_neutral by exact N. destruct snd; try exact C.
      destruct C as (C0 & l1 & l2 & -> & C). split; [exact C0|]. exists l1, (l2 ++ [e]). split; [rewrite <- app_assoc; reflexivity|].
      intros Hr. apply in_neutral in Hr; [|exact N|reflexivity]. exact (C Hr).
  Qed.

  Lemma cinv_say w e : cinv w -> neutral e = true -> cinv (say w e).
  Proof.
    intros B N. unfold cinv. cbn. intros I D.
    apply in_time_prefix in I. pose proof (registered_neutral (w_log w) e N) as RN. rewrite RN in D. rewrite RN. destruct (B I D) as [C E].
    split.
    - intros f Hf. apply C. apply in_neutral in Hf; [exact Hf|exact N|reflexivity].
    - destruct (gone (w_recv w)); [apply after_neutral|apply before_neutral]; assumption.
  Qed.

  Lemma cinv_update w : cinv w -> cinv (update w).
  Proof. unfold update. intros H. destruct (is_pending (w_state w)); exact H. Qed.

  Lemma cinv_notify w : cinv w -> cinv (notify w).
  Proof.
    unfold notify. intros H. destruct (w_recv w) eqn:R; try exact H.
    apply (cinv_same w); try reflexivity; [|exact H]. cbn. rewrite R. reflexivity.
  Qed.

  Lemma cinv_return g m w : cinv w -> gone (w_recv w) = false -> cinv (wait_return g m w).
  Proof.
    intros H R. unfold wait_return. apply cinv_say; [|reflexivity].
    apply (cinv_same w); try (destruct (g && m); reflexivity); [|exact H]. rewrite R. reflexivity.
  Qed.

  Lemma cinv_check m i w : cinv w -> gone (w_recv w) = false -> cinv (check m i w).
  Proof.
    intros H R. unfold check. destruct (keeps_waiting i w); [|apply cinv_return; assumption].
    apply (cinv_same w); try reflexivity; [rewrite R; reflexivity|exact H].
  Qed.

  Lemma cinv_impl_wait m i w : cinv w -> gone (w_recv w) = false -> cinv (impl_wait m i w).
  Proof.
    intros H R. unfold impl_wait. destruct (w_result w); [apply cinv_return|apply cinv_check]; assumption.
  Qed.

  Lemma count_zero p l : (forall e, In e l -> p e = false) -> count p l = 0.
  Proof.
    unfold count. induction l as [|x l IH]; intros H; [reflexivity|]. cbn.
    rewrite (H x (or_introl eq_refl)). apply IH. intros e He. apply H. right. exact He.
  Qed.

  Lemma count_callback_zero f l : ~ In (Callback f) l -> count (is_callback f) l = 0.
  Proof.
    intros H. apply count_zero. intros e He. destruct e; try reflexivity. cbn.
    destruct (Nat.eqb_spec f0 f) as [->|]; [contradiction|reflexivity].
  Qed.

  Lemma cinv_drop w : inv w -> cinv w -> gone (w_recv w) = false -> cinv (drop w).
  Proof.
    intros V B R.
    set (L := w_log w ++ [Dropped (w_state w)]).
    assert (RL : registered L = registered (w_log w)).
    { unfold L. rewrite registered_app. cbn. apply app_nil_r. }
    assert (NR : in_time L -> NoDup (registered L) -> forall f, w_send w <> SReg f).
    { intros I D f S. pose proof (in_time_prefix _ _ I) as I'. rewrite RL in D. destruct (B I' D) as (_ & E). rewrite R in E.
      destruct E as (_ & _ & E). rewrite S in E. destruct E as (_ & l1 & l2 & E1 & E2). apply E2.
      apply (I l1 f l2 (w_state w) []). unfold L. rewrite E1, <- app_assoc. reflexivity. }
    assert (BD : in_time L -> NoDup (registered L) ->
      (forall f, In (Callback f) (w_log w) -> In f (registered (w_log w))) /\
      no_callback (w_log w) /\ no_drop (w_log w) /\ w_drop w = last_opt (registered (w_log w))).
    { intros I D. pose proof (NR I D) as N. pose proof (in_time_prefix _ _ I) as I'. rewrite RL in D.
      destruct (B I' D) as (E0 & E). rewrite R in E. destruct E as (E1 & E2 & E3).
      split; [exact E0|]. split; [exact E1|]. split; [exact E2|].
      destruct (w_send w) eqn:S; try exact E3. destruct (N f eq_refl). }
    assert (FIRST : forall s, In (Dropped s) L -> in_time L -> NoDup (registered L) -> s = w_state w).
    { intros s Hs I D. destruct (BD I D) as (_ & _ & N & _). unfold L in Hs.
      apply in_app_or in Hs as [Hs|[Hs|[]]]; [destruct (N s Hs)|congruence]. }
    assert (SG : w_state w <> Pending -> w_send w = SGone).
    { intros P. destruct V as (_ & _ & _ & [(_ & _ & E & _)|(r & E & _)]); [contradiction|exact E]. }
    unfold drop. cbn. fold L. destruct (is_pending (w_state w)) eqn:P.
    - assert (EP : w_state w = Pending) by (destruct (w_state w); try discriminate; reflexivity).
      destruct (w_drop w) as [f|] eqn:DR.
      + unfold cinv. cbn. fold L. intros I D.
        assert (RL2 : registered (L ++ [Callback f]) = registered (w_log w)).
        { rewrite registered_app, RL. cbn. apply app_nil_r. }
        assert (ID : in_time L) by exact (in_time_prefix _ _ I).
        assert (DD : NoDup (registered L)) by (rewrite RL; rewrite RL2 in D; exact D).
        destruct (BD ID DD) as (E0 & E1 & E2 & E3). try rewrite DR in E3.
        assert (Hfr : In f (registered (w_log w))).
        { destruct (rev_case (registered (w_log w))) as [Er|(q & x & Er)]; rewrite Er in E3 |- *; [discriminate|].
          rewrite last_opt_app in E3. injection E3 as ->. apply in_or_app. cbn. auto. }
        rewrite RL2. split; [|split; [|split; [|split]]].
        * intros g Hg. apply in_app_or in Hg as [Hg|[Hg|[]]]; [|injection Hg as ->; exact Hfr].
          unfold L in Hg. apply in_app_or in Hg as [Hg|[Hg|[]]]; [destruct (E1 g Hg)|discriminate].
        * apply NR; assumption.
        * exists (w_state w). unfold L. apply in_or_app. left. apply in_or_app. cbn. auto.
        * intros _ g Hg. rewrite RL2 in Hg. assert (g = f) as -> by congruence. unfold L. rewrite !count_snoc.
          rewrite count_callback_zero by apply E1. cbn. rewrite Nat.eqb_refl. reflexivity.
        * intros s Hs Hp. exfalso. apply Hp. rewrite <- EP. apply FIRST; [|exact ID|exact DD].
          apply in_app_or in Hs as [Hs|[Hs|[]]]; [exact Hs|discriminate].
      + unfold cinv. cbn. fold L. intros ID DD. destruct (BD ID DD) as (E0 & E1 & E2 & E3).
        split; [|split; [|split; [|split]]].
        * intros g Hg. rewrite RL. apply E0. unfold L in Hg. apply in_app_or in Hg as [Hg|[Hg|[]]]; [exact Hg|discriminate].
        * apply NR; assumption.
        * exists (w_state w). unfold L. apply in_or_app. cbn. auto.
        * intros _ g Hg. rewrite RL in Hg. congruence.
        * intros s Hs Hp. exfalso. apply Hp. rewrite <- EP. apply FIRST; assumption.
    - assert (EP : w_state w <> Pending) by (intros EP; rewrite EP in P; discriminate).
      unfold cinv. cbn. fold L. intros ID DD. destruct (BD ID DD) as (E0 & E1 & E2 & E3).
      split; [|split; [|split; [|split]]].
      + intros g Hg. rewrite RL. apply E0. unfold L in Hg. apply in_app_or in Hg as [Hg|[Hg|[]]]; [exact Hg|discriminate].
      + apply NR; assumption.
      + exists (w_state w). unfold L. apply in_or_app. cbn. auto.
      + intros Hd. exfalso. apply EP. symmetry. apply FIRST; assumption.
      + intros s Hs Hp. split; [|apply SG, EP]. intros g Hg. unfold L in Hg.
        apply in_app_or in Hg as [Hg|[Hg|[]]]; [destruct (E1 g Hg)|discriminate].
  Qed.

  Lemma cinv_register_call w f : ninv w -> cinv w -> w_send w = SIdle -> cinv (on_promise_drop f w).
  Proof.
    intros [_ NV] B S. unfold on_promise_drop, upgrades. cbn [w_recv say].
    assert (RL : registered (w_log w ++ [Register f]) = registered (w_log w) ++ [f]) by (rewrite registered_app; reflexivity).
    assert (UP : (match w_recv w with RGone => Nat.ltb 0 (w_clones w) | _ => true end) = negb (gone (w_recv w))).
    { destruct (w_recv w); try reflexivity. cbn. destruct NV as [NV|[[m NV]|NV]]; [rewrite NV; reflexivity|discriminate|congruence]. }
    cbn [w_clones say]. rewrite UP. destruct (gone (w_recv w)) eqn:R; cbn.
    - unfold cinv. cbn. rewrite R. intros I D.
      set (L := w_log w ++ [Register f]) in *.
      assert (RL2 : registered (L ++ [Callback f]) = registered (w_log w) ++ [f]).
      { rewrite registered_app. rewrite RL. cbn. apply app_nil_r. }
      rewrite RL2 in *.
      assert (I1 : in_time (w_log w)) by (apply in_time_prefix in I; apply in_time_prefix in I; exact I).
      assert (D1 : NoDup (registered (w_log w)) /\ ~ In f (registered (w_log w))).
      { apply NoDup_remove in D. rewrite app_nil_r in D. exact D. }
      destruct D1 as [D1 D2]. pose proof (B I1 D1) as X0. rewrite R in X0. destruct X0 as (C & X1 & (sd & X2) & X3 & X4).
      split.
      + intros g Hg. apply in_or_app. apply in_app_or in Hg as [Hg|[Hg|[]]].
        * unfold L in Hg. apply in_app_or in Hg as [Hg|[Hg|[]]]; [left; apply C, Hg|discriminate].
        * injection Hg as ->. right. cbn. auto.
      + rewrite S. split; [discriminate|]. split.
        { exists sd. apply in_or_app. left. unfold L. apply in_or_app. auto. }
        split.
        * intros _ g Hg. rewrite RL2, last_opt_app in Hg. injection Hg as <-. unfold L. rewrite !count_snoc.
          rewrite count_callback_zero by (intros Hf; apply D2, C, Hf). cbn. rewrite Nat.eqb_refl. reflexivity.
        * intros s Hs Hp. exfalso. assert (Hs' : In (Dropped s) (w_log w)).
          { apply in_app_or in Hs as [Hs|[Hs|[]]]; [|discriminate]. unfold L in Hs.
            apply in_app_or in Hs as [Hs|[Hs|[]]]; [exact Hs|discriminate]. }
          destruct (X4 s Hs' Hp) as [_ X]. congruence.
    - unfold cinv. cbn. rewrite R. intros I D. rewrite RL in *.
      assert (I1 : in_time (w_log w)) by (apply in_time_prefix in I; exact I).
      assert (D1 : NoDup (registered (w_log w))) by (apply NoDup_remove_1 in D; rewrite app_nil_r in D; exact D).
      pose proof (B I1 D1) as X0. rewrite R in X0. destruct X0 as (C & X1 & X2 & X3). split.
      + intros g Hg. apply in_app_or in Hg as [Hg|[Hg|[]]]; [destruct (X1 g Hg)|discriminate].
      + split; [|split].
        * intros g Hg. apply in_app_or in Hg as [Hg|[Hg|[]]]; [destruct (X1 g Hg)|discriminate].
        * intros g Hg. apply in_app_or in Hg as [Hg|[Hg|[]]]; [destruct (X2 g Hg)|discriminate].
        * split; [rewrite RL; apply last_opt_app|]. exists (w_log w), []. split; [reflexivity|intros []].
  Qed.

  Lemma cinv_register w f : cinv w -> w_send w = SReg f -> cinv (register f w).
  Proof.
    intros B S. unfold register, cinv. cbn. intros I D.
    assert (I1 : in_time (w_log w)) by (apply in_time_prefix in I; exact I).
    assert (RL : registered (w_log w ++ [Registered f]) = registered (w_log w)).
    { rewrite registered_app. cbn. apply app_nil_r. }
    rewrite RL in *. destruct (B I1 D) as (C & X). split.
    - intros g Hg. apply in_app_or in Hg as [Hg|[Hg|[]]]; [apply C, Hg|discriminate].
    - destruct (gone (w_recv w)) eqn:R.
      + destruct X as (X & _). destruct (X f S).
      + destruct X as (X1 & X2 & X3). split; [|split].
        * intros g Hg. apply in_app_or in Hg as [Hg|[Hg|[]]]; [destruct (X1 g Hg)|discriminate].
        * intros g Hg. apply in_app_or in Hg as [Hg|[Hg|[]]]; [destruct (X2 g Hg)|discriminate].
        * rewrite RL. rewrite S in X3. destruct X3 as (X3 & _). symmetry. exact X3.
  Qed.

  Lemma cinv_step w a : ninv w -> inv w -> cinv w -> cinv (step w a).
  Proof.
    intros U V H. pose proof (cinv_say w) as HS.
    destruct a; cbn [step].
    - destruct (w_recv w); try exact H. apply HS; auto.
    - destruct (w_recv w); try exact H. unfold peek. apply cinv_say; [apply cinv_update, H|reflexivity].
    - destruct (w_recv w); try exact H. unfold take. cbn. apply cinv_say; [|reflexivity]. apply cinv_update, H.
    - destruct (w_recv w) eqn:R; try exact H. unfold poll, take. cbn.
      destruct (is_pending (w_state (update w))).
      + apply (cinv_same (update w)); try reflexivity; [cbn; rewrite update_recv, R; reflexivity|apply cinv_update, H].
      + apply cinv_say; [|reflexivity]. apply cinv_update, H.
    - destruct (w_recv w) eqn:R; try exact H. apply cinv_say; [|reflexivity].
      apply (cinv_same w); try reflexivity; [rewrite R; reflexivity|exact H].
    - destruct (w_recv w) eqn:R; try exact H. assert (G : cinv (say w (Waits mut intr))) by (apply HS; auto).
      assert (R1 : gone (w_recv (say w (Waits mut intr))) = false) by (cbn; rewrite R; reflexivity).
      set (w1 := say w _) in *. clearbody w1. unfold wait. destruct (is_pending (w_state w1)); [|apply cinv_return; assumption].
      destruct intr; [destruct (w_triggered w1); [apply cinv_return; assumption|]|]; apply cinv_impl_wait; assumption.
    - destruct (w_recv w) eqn:R; try exact H. apply (cinv_same w); try reflexivity; [rewrite R; reflexivity|exact H].
    - destruct (w_recv w) eqn:R; try exact H. apply cinv_check; [exact H|rewrite R; reflexivity].
    - destruct (w_recv w) eqn:R; try exact H. apply (cinv_same w); try reflexivity; [rewrite R; reflexivity|exact H].
    - destruct (w_recv w) eqn:R; try exact H. apply cinv_drop; [exact V|exact H|rewrite R; reflexivity].
    - destruct (w_send w) eqn:S; try exact H.
      assert (G : forall x, (forall f, x <> SReg f) -> cinv (set_send w x) \/ gone (w_recv w) = true).
      { intros x Hx. destruct (gone (w_recv w)) eqn:R; [auto|]. left. unfold cinv in *. cbn. rewrite R in *.
        intros I D. destruct (H I D) as (C & X1 & X2 & X3). split; [exact C|]. split; [exact X1|]. split; [exact X2|].
        rewrite S in X3. destruct x; try exact X3. destruct (Hx f eq_refl). }
      unfold send, upgrades. destruct (w_recv w) eqn:R; try (destruct (G (SSet r)) as [Q|Q]; [discriminate|exact Q|discriminate]).
      assert (A : w_clones w = 0).
      { destruct U as [_ [A|[[m A]|A]]]; [exact A|rewrite R in A; discriminate|congruence]. }
      rewrite A. cbn. apply cinv_say; [|reflexivity]. unfold cinv in *. cbn. rewrite R in *. cbn in *.
      intros I D. destruct (H I D) as (C & X1 & X2 & X3 & X4). split; [exact C|]. split; [discriminate|]. split; [exact X2|].
      split; [exact X3|]. intros s Hs Hp. destruct (X4 s Hs Hp). auto.
    - destruct (w_send w) eqn:S; try exact H. destruct (locked w); [exact H|]. unfold store.
      assert (G : cinv (set_send w SGone)).
      { unfold cinv in *. cbn. intros I D. destruct (H I D) as (C & X). split; [exact C|].
        rewrite S in X. destruct (gone (w_recv w)).
        - destruct X as (X1 & X2 & X3 & X4). split; [discriminate|]. split; [exact X2|]. split; [exact X3|].
          intros s Hs Hp. destruct (X4 s Hs Hp). auto.
        - exact X. }
      assert (G1 : cinv (say (set_result (set_send w SGone) (Some r)) (Sent r))) by (apply cinv_say; [exact G|reflexivity]).
      cbn [w_waker say set_result].
      destruct (w_waker w).
      + apply (cinv_same (notify (say (set_waker (say (set_result (set_send w SGone) (Some r)) (Sent r)) None) (Woken n))));
          try (unfold notify; cbn; destruct (w_recv w); reflexivity).
        apply cinv_notify, cinv_say; [exact G1|reflexivity].
      + apply (cinv_same (notify (say (set_result (set_send w SGone) (Some r)) (Sent r))));
          try (unfold notify; cbn; destruct (w_recv w); reflexivity).
        apply cinv_notify. exact G1.
    - destruct (w_send w) eqn:S; try exact H. apply cinv_register_call; assumption.
    - destruct (w_send w) eqn:S; try exact H. destruct (locked w); [exact H|]. apply cinv_register; assumption.
    - unfold interrupt. assert (G : cinv (say w Interrupt)) by (apply HS; auto). cbn.
      destruct (w_listed w); [apply cinv_notify|]; exact G.
    - exact H.
  Qed.

  Lemma cinv_run (acts : list (paction T)) : cinv (run acts).
  Proof.
    cut ((inv (run acts) /\ waits (run acts)) /\ ninv (run acts) /\ cinv (run acts)); [tauto|].
    apply run_ind.
    - split; [split; [apply inv_fresh|exact I]|]. split; [split; [reflexivity|left; reflexivity]|].
      intros _ _. split; [intros f []|]. split; [intros f []|]. split; [intros f []|reflexivity].
    - intros w a [[H1 H2] [H3 H4]]. split; [split; [apply inv_step|apply waits_step]; assumption|].
      split; [apply ninv_step|apply cinv_step]; assumption.
  Qed.

  (** The callback which was registered last runs exactly once if the promise is dropped
      while pending, and none runs before the promise is dropped or if it was dropped
      with a result. *)
  Lemma run_callback (acts : list (paction T)) :
    let l := w_log (run acts) in
    in_time l -> NoDup (registered l) ->
    (In (Dropped Pending) l -> forall f, last_opt (registered l) = Some f -> count (is_callback f) l = 1) /\
    (~ In (Dropped Pending) l -> no_callback l).
  Proof.
    intros l I D. pose proof (cinv_run acts) as H. unfold cinv in H. fold l in H. destruct (H I D) as (C & X). clear H.
    destruct (gone (w_recv (run acts))).
    - destruct X as (X1 & (s & X2) & X3 & X4). split; [exact X3|]. intros N.
      destruct (X4 s X2) as [Q _]; [|exact Q]. intros ->. exact (N X2).
    - destruct X as (X1 & X2 & X3). split; [|intros _; exact X1].
      intros Hd. destruct (X2 _ Hd).
  Qed.

  (** ** Interrupts *)
  Fixpoint heard (cur : bool) l : bool :=
    match l with
    | [] => cur
    | Waits _ _ :: l' => heard false l'
    | Interrupt :: l' => heard true l'
    | _ :: l' => heard cur l'
    end.

  Lemma heard_app cur l1 l2 : heard cur (l1 ++ l2) = heard (heard cur l1) l2.
  Proof. revert cur. induction l1 as [|x l1 IH]; intros cur; [reflexivity|]. destruct x; cbn; apply IH. Qed.

  (** A wait with an interrupter which was not interrupted is listed. *)
  Definition hinv w : Prop :=
    match phase_wait (w_recv w) with
    | Some (_, true) => heard false (w_log w) = false -> w_listed w = true
    | _ => True
    end.

  Lemma heard_silent l e : hears e = false -> heard false (l ++ [e]) = heard false l.
  Proof. intros H. rewrite heard_app. destruct e; try reflexivity; discriminate. Qed.

  Lemma hinv_idle w : phase_wait (w_recv w) = None -> hinv w.
  Proof. unfold hinv. intros ->. exact I. Qed.

  Lemma hinv_same w w' :
    phase_wait (w_recv w') = phase_wait (w_recv w) -> heard false (w_log w') = heard false (w_log w) ->
    w_listed w' = w_listed w -> hinv w -> hinv w'.
  Proof. unfold hinv. intros -> -> -> H. exact H. Qed.

  Lemma notify_phase w : phase_wait (w_recv (notify w)) = phase_wait (w_recv w).
  Proof. unfold notify. destruct (w_recv w) eqn:R; cbn; rewrite ?R; reflexivity. Qed.

  Lemma hinv_step w a : hinv w -> hinv (step w a).
  Proof.
    intros H. destruct a; cbn [step].
    - destruct (w_recv w) eqn:R; try exact H. apply hinv_idle. cbn. rewrite R. reflexivity.
    - destruct (w_recv w) eqn:R; try exact H. apply hinv_idle. cbn. rewrite update_recv, R. reflexivity.
    - destruct (w_recv w) eqn:R; try exact H. apply hinv_idle. cbn. rewrite update_recv, R. reflexivity.
    - destruct (w_recv w) eqn:R; try exact H. apply hinv_idle. unfold poll, take. cbn.
      destruct (is_pending _); cbn; [reflexivity|rewrite update_recv, R; reflexivity].
    - destruct (w_recv w) eqn:R; try exact H. apply hinv_idle. reflexivity.
    - destruct (w_recv w) eqn:R; try exact H. set (w1 := say w (Waits mut intr)).
      assert (G : forall w2, w_listed w2 = true \/ intr = false -> hinv (impl_wait mut intr w2)).
      { intros w2 Q. unfold impl_wait, check. destruct (w_result w2); [exact I|]. destruct (keeps_waiting intr w2); [|exact I].
        unfold hinv. cbn. destruct intr; [|exact I]. destruct Q as [Q|Q]; [auto|discriminate]. }
      unfold wait. destruct (is_pending (w_state w1)); [|exact I].
      destruct intr; [destruct (w_triggered w1); [exact I|]; apply G; auto|apply G; auto].
    - destruct (w_recv w) eqn:R; try exact H. apply (hinv_same w); try reflexivity; [rewrite R; reflexivity|exact H].
    - destruct (w_recv w) eqn:R; try exact H. unfold check. destruct (keeps_waiting intr w); [|exact I].
      apply (hinv_same w); try reflexivity; [rewrite R; reflexivity|exact H].
    - destruct (w_recv w) eqn:R; try exact H. apply (hinv_same w); try reflexivity; [rewrite R; reflexivity|exact H].
    - destruct (w_recv w) eqn:R; try exact H. apply hinv_idle. unfold drop. cbn.
      destruct (is_pending (w_state w)); [destruct (w_drop w)|]; reflexivity.
    - destruct (w_send w); try exact H. unfold send. destruct (upgrades w); [exact H|].
      apply (hinv_same w); try reflexivity; [apply heard_silent; reflexivity|exact H].
    - destruct (w_send w); try exact H. destruct (locked w); [exact H|]. unfold store. cbn [w_waker say set_result].
      destruct (w_waker w).
      + apply (hinv_same w); [cbn [w_recv set_send]; rewrite notify_phase; reflexivity| | |exact H].
        * unfold notify. cbn. destruct (w_recv w); cbn; rewrite !heard_silent by reflexivity; reflexivity.
        * unfold notify. cbn. destruct (w_recv w); reflexivity.
      + apply (hinv_same w); [cbn [w_recv set_send]; rewrite notify_phase; reflexivity| | |exact H].
        * unfold notify. cbn. destruct (w_recv w); cbn; rewrite !heard_silent by reflexivity; reflexivity.
        * unfold notify. cbn. destruct (w_recv w); reflexivity.
    - destruct (w_send w); try exact H. unfold on_promise_drop. destruct (upgrades _);
        (apply (hinv_same w); try reflexivity; [cbn; rewrite !heard_silent by reflexivity; reflexivity|exact H]).
    - destruct (w_send w); try exact H. destruct (locked w); [exact H|].
      apply (hinv_same w); try reflexivity; [cbn; rewrite !heard_silent by reflexivity; reflexivity|exact H].
    - unfold interrupt, hinv, notify. cbn. 
      assert (Q : heard false (w_log w ++ [Interrupt]) = false -> false = true) by (rewrite heard_app; discriminate).
      destruct (w_listed w); cbn; destruct (w_recv w) as [| |? []|? []|? []|] eqn:R; cbn; rewrite ?R; cbn; auto.
    - exact H.
  Qed.

  Lemma heard_none l : (forall e, In e l -> hears e = false) -> forall cur, heard cur l = cur.
  Proof.
    induction l as [|x l IH]; intros H cur; [reflexivity|].
    assert (Hx := H x (or_introl eq_refl)). assert (Hl := IH (fun e He => H e (or_intror He))).
    destruct x; try discriminate; cbn; apply Hl.
  Qed.

  (** An interrupt reaches a sleeping waiter. *)
  Lemma run_interrupt (acts : list (paction T)) m l1 l2 :
    w_recv (run acts) = RAsleep m true ->
    w_log (run acts) = l1 ++ Waits m true :: l2 -> (forall e, In e l2 -> hears e = false) ->
    exists s, w_log (run (acts ++ [AInterrupt; ARecheck])) = w_log (run acts) ++ [Interrupt; Waited m s].
  Proof.
    intros R L N. assert (H : hinv (run acts)) by (apply run_ind; [exact I|intros; apply hinv_step; assumption]).
    unfold hinv in H. rewrite R in H. cbn in H. rewrite L, heard_app in H. cbn in H. rewrite heard_none in H by exact N.
    specialize (H eq_refl). unfold run in *. rewrite fold_left_app. set (w := fold_left step acts fresh) in *. clearbody w.
    cbn. unfold interrupt, notify. cbn. rewrite H. cbn. rewrite R. cbn. unfold check, keeps_waiting. cbn.
    unfold wait_return. destruct m; cbn; rewrite <- app_assoc; eexists; reflexivity.
  Qed.

  (** A waiter which misses the interrupt sleeps on, whatever the interrupter does. *)
  Definition sleeper w : Prop :=
    (exists m, w_recv w = RAsleep m true) /\ w_listed w = false /\
    forall m s, ~ In (Waited m s) (w_log w).

  Lemma sleeper_step w a : no_help a -> sleeper w -> sleeper (step w a).
  Proof.
    intros N ((m & R) & L & W).
    assert (Q : forall e, (forall m s, e <> Waited m s) -> forall m s, ~ In (Waited m s) (w_log w ++ [e])).
    { intros e He m' s Hi. apply in_app_or in Hi as [Hi|[Hi|[]]]; [exact (W m' s Hi)|exact (He m' s Hi)]. }
    destruct a; cbn [step]; rewrite ?R; try (split; [exists m; exact R|split; assumption]); try destruct N.
    - destruct (w_send w); try (split; [exists m; exact R|split; assumption]).
      unfold send, upgrades. rewrite R. split; [exists m; exact R|split; assumption].
    - destruct (w_send w); try (split; [exists m; exact R|split; assumption]).
      unfold on_promise_drop, upgrades. cbn. rewrite R. cbn. split; [exists m; exact R|]. split; [exact L|]. apply Q. discriminate.
    - destruct (w_send w); try (split; [exists m; exact R|split; assumption]).
      destruct (locked w); [split; [exists m; exact R|split; assumption]|].
      split; [exists m; exact R|]. split; [exact L|]. apply Q. discriminate.
    - unfold interrupt. cbn. rewrite L. split; [exists m; exact R|]. split; [reflexivity|]. apply Q. discriminate.
  Qed.

  Lemma sleeper_run w (acts : list (paction T)) : Forall no_help acts -> sleeper w -> sleeper (fold_left step acts w).
  Proof.
    intros F. revert w. induction F as [|a acts N F IH]; intros w H; [exact H|]. cbn. apply IH, sleeper_step; assumption.
  Qed.
  (** ** A triggered interrupter *)
  Lemma update_triggered w : w_triggered (update w) = w_triggered w.
  Proof. unfold update. destruct (is_pending (w_state w)); reflexivity. Qed.

  Lemma notify_triggered w : w_triggered (notify w) = w_triggered w.
  Proof. unfold notify. destruct (w_recv w); reflexivity. Qed.

  Lemma wait_return_triggered g m w : w_triggered (wait_return g m w) = w_triggered w.
  Proof. unfold wait_return. destruct (g && m); reflexivity. Qed.

  Lemma check_triggered m i w : w_triggered (check m i w) = w_triggered w.
  Proof. unfold check. destruct (keeps_waiting i w); [reflexivity|apply wait_return_triggered]. Qed.

  Lemma triggered_step w a : a <> AReset -> w_triggered w = true -> w_triggered (step w a) = true.
  Proof.
    intros N H. destruct a; cbn [step]; try (destruct (w_recv w); exact H).
    - destruct (w_recv w); try exact H. unfold peek. cbn. rewrite update_triggered. exact H.
    - destruct (w_recv w); try exact H. cbn. rewrite update_triggered. exact H.
    - destruct (w_recv w); try exact H. unfold poll, take. cbn.
      destruct (is_pending (w_state (update w))); cbn; rewrite update_triggered; exact H.
    - destruct (w_recv w); try exact H. unfold wait. cbn [w_state w_triggered say]. rewrite H.
      destruct (is_pending (w_state w)); [|rewrite wait_return_triggered; exact H].
      destruct intr; [rewrite wait_return_triggered; exact H|]. unfold impl_wait.
      destruct (w_result _); [rewrite wait_return_triggered|rewrite check_triggered]; exact H.
    - destruct (w_recv w); try exact H. rewrite check_triggered. exact H.
    - destruct (w_recv w); try exact H. unfold drop. cbn.
      destruct (is_pending (w_state w)); [destruct (w_drop w)|]; exact H.
    - destruct (w_send w); try exact H. unfold send. destruct (upgrades w); exact H.
    - destruct (w_send w); try exact H. destruct (locked w); [exact H|]. unfold store. cbn [w_waker say set_result].
      cbn [w_triggered set_send]. rewrite notify_triggered. destruct (w_waker w); exact H.
    - destruct (w_send w); try exact H. unfold on_promise_drop. destruct (upgrades _); exact H.
    - destruct (w_send w); try exact H. destruct (locked w); exact H.
    - unfold interrupt. cbn. destruct (w_listed w); [rewrite notify_triggered|]; reflexivity.
    - destruct (N eq_refl).
  Qed.

  Lemma triggered_run w (acts : list (paction T)) :
    Forall (fun a => a <> AReset) acts -> w_triggered w = true -> w_triggered (fold_left step acts w) = true.
  Proof.
    intros F. revert w. induction F as [|a acts N F IH]; intros w H; [exact H|]. cbn. apply IH, triggered_step; assumption.
  Qed.

  (** A wait which begins after the interrupter was triggered, and not reset, returns at
      once. *)
  Lemma run_triggered (acts more : list (paction T)) m :
    Forall (fun a => a <> AReset) more ->
    w_recv (run (acts ++ AInterrupt :: more)) = RIdle ->
    exists s, w_log (run ((acts ++ AInterrupt :: more) ++ [AWait m true])) =
              w_log (run (acts ++ AInterrupt :: more)) ++ [Waits m true; Waited m s].
  Proof.
    intros F R. rewrite run_snoc. assert (G : w_triggered (run (acts ++ AInterrupt :: more)) = true).
    { unfold run. rewrite fold_left_app. cbn [fold_left]. apply triggered_run; [exact F|].
      cbn [step]. unfold interrupt. cbn. destruct (w_listed _); [rewrite notify_triggered|]; reflexivity. }
    set (w := run _) in *. clearbody w. cbn [step]. rewrite R. unfold wait. cbn [w_state w_triggered say]. rewrite G.
    exists (w_state w). destruct (is_pending (w_state w)); cbn; rewrite <- app_assoc; reflexivity.
  Qed.
End PromiseProofs.
