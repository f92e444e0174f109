(** The reasons are kept by every step. *)
From Verif Require Import Base RosterModel BufferModel InputModel InputSpec InputProofs GateModel
  OpsModel OpsSpec OpsProofs ReachModel ReachSpec ReachProofs ExecModel ExecSpec ExecProofs ExecProofs2 ExecProofs3
  ExecProofs4 ExecProofs5 ExecProofs6.

(** Requests to cancel are taken from the list. *)
Lemma traced_roster f E x r : traced f E x -> (forall c, In c (r_cancel r) -> In c (asked (x_o x))) ->
  traced f E (set_o x (with_roster (x_o x) r)).
Proof.
  intros T H. apply traced_set; auto. exact (t_room _ _ _ T).
Qed.

Lemma traced_cancelled f E x s c : built f -> base f x -> traced f E x -> wholes f x ->
  why f E (x_log x) s c ->
  traced f E (finish f s (ECancelled s c) x) /\ wholes f (finish f s (ECancelled s c) x).
Proof.
  intros Hb B T W Hw. split.
  - destruct (in_dec Nat.eq_dec s (x_ongoing x)) as [Hin|Hin]; [|rewrite finish_other; assumption].
    apply traced_finish; auto. discriminate.
  - apply wholes_finish; auto; discriminate.
Qed.

Lemma finish_log f s e x a : In a (x_log x) -> In a (x_log (finish f s e x)).
Proof.
  unfold finish. destruct (existsb (Nat.eqb s) (x_ongoing x)); [|auto]. cbn. intros H. apply in_or_app. auto.
Qed.

Lemma traced_cancelled_all f E c : built f -> forall l x, base f x -> traced f E x -> wholes f x ->
  (forall s, why f E (x_log x) s c) ->
  let x' := fold_left (fun x s => finish f s (ECancelled s c) x) l x in traced f E x' /\ wholes f x'.
Proof.
  intros Hb. induction l as [|s l IH]; intros x B T W Hw; cbn [fold_left]; [auto|].
  destruct (traced_cancelled f E x s c Hb B T W (Hw s)) as [T1 W1]. apply IH; auto.
  - apply base_finish; [exact Hb|exact B|reflexivity|discriminate].
  - intros s'. apply (why_grow f E (x_log x)); [|apply Hw]. intros a. apply finish_log.
Qed.

Lemma traced_do_cancel f E x : built f -> base f x -> traced f E x -> wholes f x ->
  traced f E (do_cancel f x) /\ wholes f (do_cancel f x).
Proof.
  intros Hb B T W. unfold do_cancel. destruct (asked (x_o x)) as [|c rest] eqn:Ea; [auto|].
  match goal with |- context [with_roster (x_o x) ?r] => set (r0 := r) end.
  assert (B0 : base f (set_o x (with_roster (x_o x) r0))) by (apply roster_base; [exact B|reflexivity]).
  assert (T0 : traced f E (set_o x (with_roster (x_o x) r0))).
  { apply traced_roster; [exact T|]. intros c' H. rewrite Ea. right. exact H. }
  assert (W0 : wholes f (set_o x (with_roster (x_o x) r0))) by exact W.
  destruct (Nat.eqb_spec (c_target c) (f_scope f)) as [Et|Et]; [|auto].
  destruct (c_session c) as [s|] eqn:Es.
  - apply traced_cancelled; auto. apply (t_asked _ _ _ T c s); [rewrite Ea; left; reflexivity|exact Es].
  - apply traced_cancelled_all; auto. intros s.
    destruct (t_all _ _ _ T c) as [Hc [n Hn]]; [rewrite Ea; left; reflexivity|exact Es|].
    rewrite Hc. exact (W_broken f E _ s n Hn).
Qed.

Lemma no_listeners f origin s : collect_free f -> forall l o, listeners f origin s l o = (o, true).
Proof.
  intros Hc. induction l as [|n l IH]; intros o; cbn [listeners]; [reflexivity|].
  specialize (Hc n). unfold is_collect in Hc. destruct (f_kind f n) as [[]|]; try discriminate; apply IH.
Qed.

Lemma traced_validate f E origin s x : built f -> base f x -> traced f E x -> wholes f x ->
  (exists v, In (EStart s v) (x_log x)) \/ ~ In s (x_ongoing x) ->
  traced f E (fst (validate f origin s x)) /\ wholes f (fst (validate f origin s x)).
Proof.
  intros Hb B T W Hs. unfold validate.
  destruct (listeners_ok f origin s Hb (f_nodes f) (x_o x) (b_shaped _ _ B))
    as [o1 [ms [ns [E1 [C [_ [[M Sh] [A _]]]]]]]]. rewrite E1.
  assert (Hact : ms <> [] -> In s (x_ongoing x)) by (intros H; apply (b_status _ _ B), A, H).
  assert (B1 : base f (set_o x o1)) by exact (base_change f x o1 s ms ns [] B C Hact).
  assert (Hsame : collect_free f -> o1 = x_o x).
  { intros Hc. rewrite no_listeners in E1 by exact Hc. congruence. }
  assert (W1 : wholes f (set_o x o1)).
  { intros Hc s' v Hs' Hv. cbn [set_o x_o]. rewrite (Hsame Hc). exact (W Hc s' v Hs' Hv). }
  assert (T1 : traced f E (set_o x o1)).
  { apply traced_set; [exact T| | | |].
    - intros s' w m H. rewrite (ch_pending _ _ _ _ _ _ _ C) in H. apply in_app_or in H. destruct H as [H|H]; [auto|].
      right. apply in_map_iff in H. destruct H as [w' [Ew H]]. injection Ew as <- <-. apply sent_in, live_in in H.
      destruct H as [H _]. assert (Hin : In s (x_ongoing x)) by (apply Hact; intros ->; destruct H). split; [|exact Hin].
      destruct (M _ H) as [n [min [max [l [Hk [El [Hmin Hl]]]]]]]. cbn [fst snd] in *. subst w'.
      assert (Hv : exists v, In (EStart s v) (x_log x)) by (apply known_start, (b_run _ _ B), Hin).
      destruct Hv as [v Hv]. exists v. split; [exact Hv|]. apply (O_batch f _ _ n min max m l Hk).
      + intros w Hw. destruct Hl as [-> | ->]; [|destruct Hw]. destruct (t_coll _ _ _ T _ _ _ Hw) as [v1 [Hv1 H1]].
        rewrite (t_once _ _ _ T s v v1 Hv Hv1). exact H1.
      + apply (within_batch f n min max m l Hb Hk); [|auto]. intros m' ->.
        pose proof (t_room _ _ _ T n s min m' m Hk). destruct Hl as [-> | ->]; cbn; lia.
    - intros n s' w H. left. exact (shrunk_in _ _ _ _ _ Sh H).
    - intros n s' min m t Hk. pose proof (t_room _ _ _ T n s' min m t Hk). pose proof (shrunk_length _ _ n s' Sh). lia.
    - intros c H. left. rewrite (ch_asked _ _ _ _ _ _ _ C), app_nil_r in H. exact H. }
  destruct (terminal_answer f o1 s (Some origin) Hb (ch_shaped _ _ _ _ _ _ _ C)) as [Er|Er]; rewrite Er; [auto|].
  cbn [fst]. destruct (in_dec Nat.eq_dec s (x_ongoing x)) as [Hin|Hin].
  2:{ rewrite finish_other by exact Hin. auto. }
  destruct Hs as [[v Hv]|Hs]; [|contradiction].
  apply traced_cancelled; auto. apply W_unreachable. intros Hc. exists v. split; [exact Hv|]. intros r Hr.
  destruct (W1 Hc s v Hin Hv r Hr) as [n [w [H1 H2]]].
  pose proof (occurs_leads f n w _ r Hc H2 (L_here f)) as Hl.
  rewrite (waits_terminal f o1 s (Some origin) n) in Er; [discriminate|exact Hb|exact (ch_shaped _ _ _ _ _ _ _ C)|exists w; exact H1|exact Hl].
Qed.

Lemma traced_notice f E x : built f -> base f x -> traced f E x -> wholes f x ->
  traced f E (notice f x) /\ wholes f (notice f x).
Proof.
  intros Hb B T W. unfold notice. destruct (pop_last (told (x_o x))) as [l [d|]]; [|auto].
  match goal with |- context [with_roster (x_o x) ?r] => set (r0 := r) end.
  assert (B0 : base f (set_o x (with_roster (x_o x) r0))) by (apply roster_base; [exact B|reflexivity]).
  assert (T0 : traced f E (set_o x (with_roster (x_o x) r0))) by (apply traced_roster; [exact T|auto]).
  assert (W0 : wholes f (set_o x (with_roster (x_o x) r0))) by exact W.
  destruct (Nat.eqb_spec (d_source d) (f_scope f)) as [Ed|Ed]; [|auto].
  apply traced_validate; auto. destruct (in_dec Nat.eq_dec (d_session d) (x_ongoing x)) as [H|H]; [|auto].
  left. apply known_start, (b_run _ _ B), H.
Qed.

Lemma traced_start f E s v x : built f -> base f x -> traced f E x -> wholes f x ->
  traced f E (start f s v x) /\ wholes f (start f s v x).
Proof.
  intros Hb B T W. unfold start. destruct (known s (x_log x)) eqn:Ek; [auto|].
  match goal with |- context [o_give ?o _ _ _] => set (o1 := o) end.
  assert (Hs1 : w_status (o_w o1) s = Some Active) by (cbn -[emap_set]; apply emap_set_eq).
  assert (He : f_kind f (f_entry f) <> None) by (apply (proj1 (proj2 Hb)), Hb).
  destruct (give_change f o1 (f_entry f) s v (b_shaped _ _ B) Hs1 He) as [o2 [Eo [C K]]]. rewrite Eo.
  set (x1 := mk_x o2 (x_ongoing x ++ [s]) (x_initial x) (x_log x ++ [EStart s v])).
  assert (B1 : base f x1) by (apply base_start; assumption).
  assert (Hno : forall v', ~ In (EStart s v') (x_log x)).
  { intros v' H. assert (known s (x_log x) = true) by (apply known_start; eauto). congruence. }
  assert (Hg : forall e, In e (x_log x) -> In e (x_log x ++ [EStart s v])) by (intros e H; apply in_or_app; auto).
  assert (Hst : forall s' v', In (EStart s' v') (x_log x ++ [EStart s v]) -> In (EStart s' v') (x_log x) \/ (s' = s /\ v' = v)).
  { intros s' v' H. apply in_app_or in H. destruct H as [H|[H|[]]]; [auto|]. injection H as <- <-. auto. }
  assert (Hp : forall s' w n, In (s', w) (pending (o_w o2) n) ->
             In (s', w) (pending (o_w (x_o x)) n) \/ (s' = s /\ w = v /\ n = f_entry f)).
  { intros s' w n H. rewrite (ch_pending _ _ _ _ _ _ _ C) in H. apply in_app_or in H. destruct H as [H|H]; [left; exact H|].
    right. apply in_map_iff in H. destruct H as [w' [Ew H]]. injection Ew as <- <-. apply sent_in, live_in in H.
    destruct H as [[H|[]] _]. injection H as <- <-. auto. }
  assert (T1 : traced f E x1).
  { split; cbn [x1 x_o x_ongoing x_log x_initial].
    - intros s' a b H1 H2. destruct (Hst _ _ H1) as [H3|[-> ->]], (Hst _ _ H2) as [H4|[E4 ->]].
      + exact (t_once _ _ _ T s' a b H3 H4).
      + subst s'. exfalso. exact (Hno _ H3).
      + exfalso. exact (Hno _ H4).
      + reflexivity.
    - intros s' w n H. destruct (Hp _ _ _ H) as [H1|[-> [-> ->]]].
      + apply (of_session_grow f _ _ Hg), (t_pend _ _ _ T), H1.
      + exists v. split; [apply in_or_app; right; left; reflexivity|constructor].
    - intros n s' w H. unfold progress in H. rewrite K in H.
      apply (of_session_grow f _ _ Hg), (t_coll _ _ _ T). exact H.
    - intros n s' min m t Hk. unfold progress. rewrite K. exact (t_room _ _ _ T n s' min m t Hk).
    - intros s' w H Hs'. destruct (Hp _ _ _ H) as [H1|[-> _]].
      + destruct (t_late _ _ _ T s' w H1) as [r Hr]; [|eauto]. intros H2. apply Hs', in_or_app. auto.
      + exfalso. apply Hs', in_or_app. right. left. reflexivity.
    - intros c s' H Hc. rewrite (ch_asked _ _ _ _ _ _ _ C), app_nil_r in H.
      apply (why_grow f E _ _ Hg), (t_asked _ _ _ T c s' H Hc).
    - intros c H Hc. rewrite (ch_asked _ _ _ _ _ _ _ C), app_nil_r in H.
      destruct (t_all _ _ _ T c H Hc) as [H1 [n H2]]. eauto.
    - intros e H. apply in_app_or in H. destruct H as [H|[<-|[]]]; [|exact I].
      apply (explained_grow f E _ _ Hg), (t_log _ _ _ T), H.
    - exact (t_init _ _ _ T). }
  assert (W1 : wholes f x1).
  { intros Hc s' v' Hs' Hv'. cbn [x1 x_o x_ongoing x_log] in *. intros r Hr.
    assert (Hin : forall n w, In (s', w) (pending (o_w (x_o x)) n) -> In (s', w) (pending (o_w o2) n)).
    { intros n w H. rewrite (ch_pending _ _ _ _ _ _ _ C). apply in_or_app. left. exact H. }
    destruct (Hst _ _ Hv') as [H1|[-> ->]].
    - apply in_app_or in Hs'. destruct Hs' as [Hs'|[<-|[]]]; [|exfalso; exact (Hno _ H1)].
      destruct (W Hc s' v' Hs' H1 r Hr) as [n [w [H2 H3]]]. eauto.
    - exists (f_entry f), v. split; [|exact Hr]. rewrite (ch_pending _ _ _ _ _ _ _ C). apply in_or_app. right.
      apply in_map, sent_in, live_in. split; [left; reflexivity|]. apply (leads_used f _ Hb).
      exact (occurs_leads f _ v _ r Hc Hr (L_here f)). }
  assert (Hini : forall i y, traced f E y /\ wholes f y -> (i = Some IError -> circular f (f_nodes f) = true) ->
            traced f E (mk_x (x_o y) (x_ongoing y) i (x_log y)) /\ wholes f (mk_x (x_o y) (x_ongoing y) i (x_log y))).
  { intros i y [[] Wy] Hi. split; [split; assumption|exact Wy]. }
  assert (Hval : traced f E (fst (validate f (f_scope f) s x1)) /\ wholes f (fst (validate f (f_scope f) s x1))).
  { apply traced_validate; auto. left. exists v. cbn. apply in_or_app. right. left. reflexivity. }
  assert (Hcirc : circular f (f_nodes f) = true ->
            let y := mk_x o2 (x_ongoing x1) (Some IError) (x_log x1) in
            traced f E (finish f s (ECancelled s cause_circular) y) /\ wholes f (finish f s (ECancelled s cause_circular) y)).
  { intros Ec y. destruct (Hini (Some IError) x1 (conj T1 W1) (fun _ => Ec)) as [Ti Wi].
    apply traced_cancelled; auto.
    - apply (base_initial f x1 (Some IError) B1); [intros [H|H]; discriminate|discriminate].
    - apply W_circular, Ec. }
  destruct (x_initial x) as [i|] eqn:Ei.
  - destruct i.
    + exact (conj T1 W1).
    + exact Hval.
    + apply Hcirc. exact (t_init _ _ _ T Ei).
  - destruct (circular f (f_nodes f)) eqn:Ec; [exact (Hcirc eq_refl)|].
    destruct (validate f (f_scope f) s x1) as [x2 [b|]]; [|exact Hval].
    apply Hini; [exact Hval|]. destruct b; discriminate.
Qed.

Lemma traced_ask f E x s : traced f E x -> wholes f x -> E s ->
  let x' := set_o x (ask_cancel f (x_o x) (f_scope f) (Some s) cause_external) in traced f E x' /\ wholes f x'.
Proof.
  intros T W He. split; [|exact W]. apply traced_set; auto.
  - exact (t_room _ _ _ T).
  - intros c H. cbn in H. apply in_app_or in H. destruct H as [H|[<-|[]]]; [auto|].
    right. exists s. split; [reflexivity|]. apply W_external, He.
Qed.

Lemma traced_step f E x a : built f -> sound f x -> traced f E x -> wholes f x ->
  (forall s, a = XCancel s -> E s) -> traced f E (xstep f x a) /\ wholes f (xstep f x a).
Proof.
  intros Hb (B & _ & _) T W Ha. destruct a as [s v| | | |s]; cbn [xstep].
  - apply traced_start; assumption.
  - apply traced_exec; assumption.
  - apply traced_do_cancel; assumption.
  - apply traced_notice; assumption.
  - apply traced_ask; auto.
Qed.

Lemma fresh_traced f E : built f -> traced f E (fresh f) /\ wholes f (fresh f).
Proof.
  intros Hb.
  assert (Hp : forall n, pending (o_w (x_o (fresh f))) n = []).
  { intros n. rewrite pending_node. cbn. destruct (f_kind f n) as [[]|]; reflexivity. }
  split; [|intros _ s v []]. split; try (intros; rewrite ?Hp in *; cbn in *; contradiction || discriminate).
  intros n s min m t Hk. cbn. pose proof (proj2 (proj2 (proj2 (proj2 (proj2 (proj2 (proj2 Hb)))))) _ _ _ _ Hk) as H.
  cbn [collect_setup_ok] in H. apply andb_prop in H. destruct H as [H _]. apply Nat.ltb_lt in H. exact H.
Qed.

Lemma traced_run f acts : built f ->
  let x := xrun f acts (fresh f) in traced f (fun s => In (XCancel s) acts) x /\ wholes f x.
Proof.
  intros Hb. cbn zeta. set (E := fun s => In (XCancel s) acts).
  assert (H : forall l x, (forall s, In (XCancel s) l -> E s) -> sound f x -> traced f E x -> wholes f x ->
            traced f E (xrun f l x) /\ wholes f (xrun f l x)).
  { induction l as [|a l IH]; intros x Hl S T W; [auto|]. cbn [xrun fold_left].
    destruct (traced_step f E x a Hb S T W) as [T1 W1].
    - intros s ->. apply Hl. left. reflexivity.
    - apply IH; auto; [|apply step_ok; assumption]. intros s Hs. apply Hl. right. exact Hs. }
  destruct (fresh_traced f E Hb) as [T W]. apply H; auto. apply fresh_sound, Hb.
Qed.

(** ** Cycles of collects *)
Lemma reaches_follows f a b : reaches f a b -> a <> b -> follows f a b.
Proof.
  intros H. induction H as [a|a x b Hs Hr IH]; intros Hne; [congruence|].
  destruct (Nat.eq_dec x b) as [->|Hx]; [apply F_next, Hs|]. apply (F_step f a x b Hs), IH, Hx.
Qed.

Lemma circular_cycle f : built f -> circular f (f_nodes f) = true -> collects_in_cycle f.
Proof.
  intros Hb. assert (Hn : NoDup (f_nodes f)) by apply Hb.
  assert (H : forall l, NoDup l -> circular f l = true -> collects_in_cycle f); [|eauto].
  clear Hn. induction l as [|n l IH]; cbn [circular]; [discriminate|].
  intros Hd Hc. inversion Hd as [|? ? H1 H2]; subst. apply Bool.orb_true_iff in Hc. destruct Hc as [Hc|Hc]; [|auto].
  apply andb_prop in Hc. destruct Hc as [Cn Hc]. apply existsb_exists in Hc. destruct Hc as [m [Hm Hc]].
  apply andb_prop in Hc. destruct Hc as [Hc D2]. apply andb_prop in Hc. destruct Hc as [Cm D1].
  assert (Hne : n <> m) by congruence.
  apply downstream_iff in D1; [|exact Hb|exact (proj2 (collect_node f n Hb Cn))].
  apply downstream_iff in D2; [|exact Hb|exact (proj2 (collect_node f m Hb Cm))].
  exists n, m. repeat (split; [assumption|]). split; apply reaches_follows; tauto.
Qed.
