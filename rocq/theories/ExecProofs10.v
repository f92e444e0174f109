(** A cancelling node breaks only if a message to it went with its session. *)
From Verif Require Import Base RosterModel BufferModel InputModel InputSpec InputProofs GateModel
  OpsModel OpsSpec OpsProofs ReachModel ReachSpec ReachProofs ExecModel ExecSpec ExecProofs ExecProofs2 ExecProofs3
  ExecProofs4 ExecProofs5 ExecProofs6 ExecProofs7 ExecProofs8 ExecProps RestProofs RestProofs2 ExecProofs9.

(** Every entry of the queue has its message. *)
Definition owed (o : oworld) (m : entity) : Prop :=
  count_occ Nat.eq_dec (queue o) m <= length (pending (o_w o) m).

(** A request led a message to the node, and its session is over. *)
Definition gone (f : workflow) (log : list xevent) (m : entity) : Prop :=
  exists s v w e, In (EStart s v) log /\ occurs f (f_entry f) v m w /\ In e log /\ ends s e = true.

Definition sourced (f : workflow) (x : xworld) : Prop :=
  forall s w n, In (s, w) (pending (o_w (x_o x)) n) -> of_session f (x_log x) s n w.

Lemma gone_grown f x x' m : grown x x' -> gone f (x_log x) m -> gone f (x_log x') m.
Proof.
  intros G (s & v & w & e & H1 & H2 & H3 & H4). exists s, v, w, e.
  split; [exact (grown_in _ _ _ G H1)|]. split; [exact H2|]. split; [exact (grown_in _ _ _ G H3)|exact H4].
Qed.

Lemma live_count f m ms : unused f m = false -> length (sent_to m (live f ms)) = count_occ Nat.eq_dec (map fst ms) m.
Proof.
  intros U. induction ms as [|[t v] ms IH]; [reflexivity|]. unfold sent_to, live in *. cbn [filter fst map count_occ].
  destruct (Nat.eq_dec t m) as [->|Hne].
  - rewrite U. cbn [negb filter fst]. rewrite Nat.eqb_refl. cbn [map length]. rewrite IH. reflexivity.
  - destruct (negb (unused f t)); [|exact IH]. cbn [filter fst]. rewrite (proj2 (Nat.eqb_neq t m) Hne). exact IH.
Qed.

Lemma others_same s l : length (others s l) = length l \/ exists w, In (s, w) l.
Proof.
  induction l as [|[a w] l IH]; [left; reflexivity|]. unfold others in *. cbn [filter fst].
  destruct (Nat.eqb_spec a s) as [->|Hne]; cbn [negb].
  - right. exists w. left. reflexivity.
  - destruct IH as [H|[u H]]; [left; cbn [length]; rewrite H; reflexivity|right; exists u; right; exact H].
Qed.

Lemma finish_owed f s e x m : built f -> shaped f (x_o x) -> sourced f x -> ends s e = true ->
  owed (x_o x) m \/ gone f (x_log x) m ->
  (owed (x_o (finish f s e x)) m \/ gone f (x_log (finish f s e x)) m) /\ sourced f (finish f s e x).
Proof.
  intros Hb S P He K. destruct (in_dec Nat.eq_dec s (x_ongoing x)) as [Hin|Hn]; [|rewrite (finish_other f s e x Hn); auto].
  pose proof (grown_finish f s e x Hb S) as G.
  destruct (finish_effect f s e x Hb S Hin) as (_ & A2 & _ & A4 & _ & _ & A7). cbn zeta in *.
  assert (Sub : forall s' w n, In (s', w) (pending (o_w (x_o (finish f s e x))) n) -> In (s', w) (pending (o_w (x_o x)) n)).
  { intros s' w n. rewrite A2. destruct (_ && _); [auto|]. intros H. apply others_in in H. apply H. }
  split.
  - destruct K as [K|K]; [|right; exact (gone_grown _ _ _ _ G K)].
    unfold owed in *. rewrite A2, A4. destruct (_ && _); [left; exact K|].
    destruct (others_same s (pending (o_w (x_o x)) m)) as [->|[w H]]; [left; exact K|]. right.
    destruct (P _ _ _ H) as [v [Hv O]]. exists s, v, w, e. split; [exact (grown_in _ _ _ G Hv)|]. split; [exact O|].
    split; [|exact He]. rewrite A7. apply in_or_app. right. left. reflexivity.
  - intros s' w n H. destruct (P _ _ _ (Sub _ _ _ H)) as [v [Hv O]]. exists v. split; [exact (grown_in _ _ _ G Hv)|exact O].
Qed.

Lemma validate_owed f origin s x m : built f -> collect_free f -> shaped f (x_o x) -> sourced f x ->
  owed (x_o x) m \/ gone f (x_log x) m ->
  owed (x_o (fst (validate f origin s x))) m \/ gone f (x_log (fst (validate f origin s x))) m.
Proof.
  intros Hb Hc S P K. unfold validate. rewrite no_listeners by exact Hc.
  assert (E : set_o x (x_o x) = x) by (destruct x; reflexivity). rewrite E.
  destruct (check_reachability _ _ _); cbn [fst]; try exact K.
  apply finish_owed; auto. cbn. apply Nat.eqb_refl.
Qed.

Lemma step_owed f x a E m : built f -> collect_free f -> base f x -> traced f E x -> unused f m = false ->
  owed (x_o x) m \/ gone f (x_log x) m -> owed (x_o (xstep f x a)) m \/ gone f (x_log (xstep f x a)) m.
Proof.
  intros Hb Hc B T U K. pose proof (b_shaped _ _ B) as S.
  assert (P : sourced f x) by (intros s w n; exact (t_pend _ _ _ T s w n)).
  destruct K as [K|K]; [|right; exact (gone_grown _ _ _ _ (step_grown f a x Hb Hc B) K)].
  destruct a as [s v| | | |s]; cbn [xstep].
  - unfold start. destruct (known s (x_log x)) eqn:Ek; [left; exact K|].
    match goal with |- context [o_give ?o _ _ _] => set (o1 := o) end.
    assert (Hs1 : w_status (o_w o1) s = Some Active) by (cbn -[emap_set]; apply emap_set_eq).
    assert (He : f_kind f (f_entry f) <> None) by (apply (proj1 (proj2 Hb)), Hb).
    destruct (give_change f o1 (f_entry f) s v S Hs1 He) as [o2 [-> [Ch _]]].
    set (x1 := mk_x o2 (x_ongoing x ++ [s]) (x_initial x) (x_log x ++ [EStart s v])).
    assert (S1 : shaped f (x_o x1)) by exact (ch_shaped _ _ _ _ _ _ _ Ch).
    assert (K1 : owed (x_o x1) m \/ gone f (x_log x1) m).
    { left. unfold owed in *. cbn [x1 x_o]. rewrite (ch_pending _ _ _ _ _ _ _ Ch), (ch_queue _ _ _ _ _ _ _ Ch), app_length, map_length, count_occ_app,
        (live_count f m _ U). change (pending (o_w o1) m) with (pending (o_w (x_o x)) m). change (queue o1) with (queue (x_o x)). lia. }
    assert (P1 : sourced f x1).
    { intros s' w n H. cbn [x1 x_o] in H. rewrite (ch_pending _ _ _ _ _ _ _ Ch) in H. apply in_app_or in H. destruct H as [H|H].
      - destruct (P s' w n H) as [u [Hu O]]. exists u. split; [apply in_or_app; left; exact Hu|exact O].
      - apply in_map_iff in H. destruct H as [u [E1 H]]. injection E1 as E1 E2. subst s' u. unfold sent_to, live in H. apply in_map_iff in H.
        destruct H as [[t w'] [E3 H]]. cbn [snd] in E3. subst w'. apply filter_In in H. destruct H as [H Et]. apply filter_In in H. destruct H as [H _].
        destruct H as [H|[]]. injection H as H1 H2. apply Nat.eqb_eq in Et. cbn in Et. subst. exists w. split; [apply in_or_app; right; left; reflexivity|constructor]. }
    rewrite (not_circular_free f Hc). destruct (x_initial x) as [[]|].
    + exact K1.
    + apply validate_owed; assumption.
    + apply finish_owed; try assumption. cbn. apply Nat.eqb_refl.
    + pose proof (validate_owed f (f_scope f) s x1 m Hb Hc S1 P1 K1) as H.
      destruct (validate f (f_scope f) s x1) as [x2 [b|]]; exact H.
  - destruct (queue (x_o x)) as [|n rest] eqn:Hq; [unfold exec; rewrite Hq; left; exact K|].
    assert (Kt : count_occ Nat.eq_dec rest m <= length (after_take (o_w (popped (x_o x) rest)) n m)).
    { unfold owed in K. rewrite Hq in K. unfold after_take. change (pending (o_w (popped (x_o x) rest)) ?a) with (pending (o_w (x_o x)) a) in *.
      cbn [count_occ] in K. destruct (Nat.eqb_spec m n) as [->|Hne].
      - destruct (Nat.eq_dec n n) as [_|]; [|congruence].
        change (pending (o_w (popped (x_o x) rest)) n) with (pending (o_w (x_o x)) n).
        destruct (pending (o_w (x_o x)) n); cbn [length tl] in *; lia.
      - destruct (Nat.eq_dec n m) as [->|_]; [congruence|]. exact K. }
    assert (Kp : forall o', pulled f (popped (x_o x) rest) o' n -> owed o' m).
    { intros o' Q. unfold owed. rewrite (pu_pending _ _ _ _ Q), (pu_roster _ _ _ _ Q). exact Kt. }
    assert (Kd : forall o' s ms ns cs, did f (popped (x_o x) rest) o' n s ms ns cs -> owed o' m).
    { intros o' s ms ns cs D. unfold owed. rewrite (di_pending _ _ _ _ _ _ _ _ D), (di_queue _ _ _ _ _ _ _ _ D), app_length, map_length, count_occ_app,
        (live_count f m _ U). change (queue (popped (x_o x) rest)) with rest. lia. }
    destruct (exec_executed f x n rest Hb B Hq) as
      [o' Hp Q|o' Hp Hk Q|o' k s v more ms dropped ns Hk Hr Hp Hs D F Hd' K'|o' k s v more c Hk Hr Hp Hs D Hcc K'
      |o' k s v more Hk Hr Hp Hs D K'|o' min max t s v more Hk Hp Hs Hcol|o' s v more Hn Hp Hs Q|o' s v more Hn Hp Hs Q].
    + left. exact (Kp _ Q).
    + left. exact (Kp _ Q).
    + left. exact (Kd _ _ _ _ _ D).
    + left. exact (Kd _ _ _ _ _ D).
    + left. exact (Kd _ _ _ _ _ D).
    + exfalso. specialize (Hc n). unfold is_collect in Hc. rewrite Hk in Hc. discriminate.
    + apply finish_owed; [exact Hb|exact (pu_shaped _ _ _ _ Q)| |cbn; apply Nat.eqb_refl|left; exact (Kp _ Q)].
      intros s' w b H. cbn [set_o x_o] in H. rewrite (pu_pending _ _ _ _ Q) in H. apply (P s' w b).
      unfold after_take in H. change (pending (o_w (popped (x_o x) rest))) with (pending (o_w (x_o x))) in H.
      destruct (b =? n); [|exact H]. destruct (pending (o_w (x_o x)) b); [destruct H|right; exact H].
    + left. exact (Kp _ Q).
  - unfold do_cancel. destruct (asked (x_o x)) as [|c rest]; [left; exact K|].
    destruct (c_target c =? f_scope f); [|left; exact K]. destruct (c_session c) as [s|].
    + apply finish_owed; [exact Hb|exact S|exact P|cbn; apply Nat.eqb_refl|left; exact K].
    + unfold finish_all. assert (Hg : forall l z, shaped f (x_o z) -> sourced f z -> owed (x_o z) m \/ gone f (x_log z) m ->
        let z' := fold_left (fun x s => finish f s (ECancelled s (c_cause c)) x) l z in owed (x_o z') m \/ gone f (x_log z') m).
      { induction l as [|a l IH]; intros z Sz Pz Kz; cbn [fold_left]; [exact Kz|].
        destruct (finish_owed f a (ECancelled a (c_cause c)) z m Hb Sz Pz) as [K1 P1]; [cbn; apply Nat.eqb_refl|exact Kz|].
        apply IH; [apply finish_shaped; assumption|exact P1|exact K1]. }
      apply Hg; [exact S|exact P|left; exact K].
  - unfold notice. destruct (pop_last (told (x_o x))) as [l [d|]]; [|left; exact K].
    destruct (d_source d =? f_scope f); [|left; exact K]. apply validate_owed; [exact Hb|exact Hc|exact S|exact P|left; exact K].
  - left. exact K.
Qed.

(** Nothing is reported about the node. *)
Definition silent (m : entity) (x x' : xworld) : Prop :=
  exists d, x_log x' = x_log x ++ d /\ ~ In (EBroken m) d.

Lemma silent_refl m x x' : x_log x' = x_log x -> silent m x x'.
Proof. intros E. exists []. rewrite E, app_nil_r. auto. Qed.

Lemma silent_trans m x y z : silent m x y -> silent m y z -> silent m x z.
Proof.
  intros [d [E H]] [d' [E' H']]. exists (d ++ d'). split; [rewrite E', E, app_assoc; reflexivity|].
  intros I. apply in_app_or in I. destruct I; contradiction.
Qed.

Lemma silent_finish m f s e x : ends s e = true -> silent m x (finish f s e x).
Proof.
  intros He. unfold finish. destruct (existsb (Nat.eqb s) (x_ongoing x)); [|apply silent_refl; reflexivity].
  exists [e]. split; [reflexivity|]. intros [->|[]]. discriminate.
Qed.

Lemma silent_validate m f o a x : silent m x (fst (validate f o a x)).
Proof.
  unfold validate. destruct (listeners f o a (f_nodes f) (x_o x)) as [o1 [|]]; [|apply silent_refl; reflexivity].
  destruct (check_reachability _ _ _); try (apply silent_refl; reflexivity). cbn [fst].
  eapply silent_trans; [apply (silent_refl m x (set_o x o1)); reflexivity|]. apply silent_finish. cbn. apply Nat.eqb_refl.
Qed.

(** What breaks without a message. *)
Lemma step_stale f x a m : built f -> collect_free f -> base f x -> f_kind f m = Some OCancel ->
  silent m x (xstep f x a) \/ (x_log (xstep f x a) = x_log x ++ [EBroken m] /\ ~ owed (x_o x) m).
Proof.
  intros Hb Hc B Hk. destruct a as [s v| | | |s]; cbn [xstep].
  - left. unfold start. destruct (known s (x_log x)); [apply silent_refl; reflexivity|].
    match goal with |- context [o_give ?o _ _ _] => set (o1 := o) end.
    assert (Hs1 : w_status (o_w o1) s = Some Active) by (cbn -[emap_set]; apply emap_set_eq).
    assert (He : f_kind f (f_entry f) <> None) by (apply (proj1 (proj2 Hb)), Hb).
    destruct (give_change f o1 (f_entry f) s v (b_shaped _ _ B) Hs1 He) as [o2 [-> [C _]]].
    set (x1 := mk_x o2 (x_ongoing x ++ [s]) (x_initial x) (x_log x ++ [EStart s v])).
    assert (S1 : silent m x x1) by (exists [EStart s v]; split; [reflexivity|intros [H|[]]; discriminate]).
    rewrite (not_circular_free f Hc). destruct (x_initial x) as [[]|].
    + exact S1.
    + exact (silent_trans _ _ _ _ S1 (silent_validate m f _ _ x1)).
    + refine (silent_trans _ _ _ _ S1 (silent_finish m f _ _ x1 _)). cbn. apply Nat.eqb_refl.
    + pose proof (silent_trans _ _ _ _ S1 (silent_validate m f (f_scope f) s x1)) as S2.
      destruct (validate f (f_scope f) s x1) as [x2 [b0|]]; exact S2.
  - destruct (queue (x_o x)) as [|n rest] eqn:Hq; [left; unfold exec; rewrite Hq; apply silent_refl; reflexivity|].
    destruct (exec_executed f x n rest Hb B Hq) as
      [o' Hp Q|o' Hp Hk' Q|o' k s v more ms dropped ns Hk' Hr Hp Hs D F Hd' K'|o' k s v more c Hk' Hr Hp Hs D Hcc K'
      |o' k s v more Hk' Hr Hp Hs D K'|o' min max t s v more Hk' Hp Hs Hcol|o' s v more Hn Hp Hs Q|o' s v more Hn Hp Hs Q];
      try (left; apply silent_refl; reflexivity).
    + destruct (Nat.eq_dec n m) as [->|Hne].
      * right. split; [reflexivity|]. unfold owed. rewrite Hq, Hp. cbn [count_occ length]. destruct (Nat.eq_dec m m); [lia|congruence].
      * left. exists [EBroken n]. split; [reflexivity|]. intros [[= ->]|[]]. congruence.
    + left. exists [EBroken n]. split; [reflexivity|]. intros [[= ->]|[]]. rewrite Hk in Hk'. injection Hk' as <-. discriminate.
    + left. eapply silent_trans; [apply (silent_refl m x (set_o x o')); reflexivity|]. apply silent_finish. cbn. apply Nat.eqb_refl.
    + left. exists [EBroken n]. split; [reflexivity|]. intros [[= ->]|[]].
      destruct Hb as (_ & _ & _ & _ & Ht & _). rewrite (proj2 (Ht _) Hn) in Hk. discriminate.
  - left. unfold do_cancel. destruct (asked (x_o x)) as [|c rest]; [apply silent_refl; reflexivity|].
    match goal with |- context [finish_all f _ ?y] => set (x0 := y) end.
    assert (S0 : silent m x x0) by (apply silent_refl; reflexivity).
    destruct (c_target c =? f_scope f); [|exact S0]. destruct (c_session c).
    + refine (silent_trans _ _ _ _ S0 (silent_finish m f _ _ x0 _)). cbn. apply Nat.eqb_refl.
    + apply (silent_trans _ _ _ _ S0). unfold finish_all. generalize (x_ongoing x0). intros l. generalize x0. clear.
      induction l as [|a l IH]; intros z; cbn [fold_left]; [apply silent_refl; reflexivity|].
      refine (silent_trans _ _ _ _ (silent_finish m f _ _ z _) (IH _)). cbn. apply Nat.eqb_refl.
  - left. unfold notice. destruct (pop_last (told (x_o x))) as [l [d|]]; [|apply silent_refl; reflexivity].
    destruct (d_source d =? f_scope f); [|apply silent_refl; reflexivity].
    eapply silent_trans; [|apply silent_validate]. apply silent_refl. reflexivity.
  - left. apply silent_refl. reflexivity.
Qed.

Lemma split_app (e : xevent) l1 l2 a b : l1 ++ e :: l2 = a ++ b ->
  (exists l, a = l1 ++ e :: l) \/ (exists l, l1 = a ++ l /\ b = l ++ e :: l2).
Proof.
  revert a. induction l1 as [|c l1 IH]; intros [|d a] H; cbn in *.
  - right. exists []. auto.
  - injection H as -> H. left. exists a. reflexivity.
  - right. exists (c :: l1). auto.
  - injection H as -> H. destruct (IH a H) as [[l ->]|(l & -> & ->)]; [left; eauto|right; eauto].
Qed.

Lemma run_stale f acts m : built f -> collect_free f -> f_kind f m = Some OCancel ->
  let x := xrun f acts (fresh f) in
  (owed (x_o x) m \/ gone f (x_log x) m) /\ (forall l1 l2, x_log x = l1 ++ EBroken m :: l2 -> gone f l1 m).
Proof.
  intros Hb Hc Hk. cbn zeta. assert (U : unused f m = false) by (unfold unused; rewrite Hk; reflexivity).
  induction acts as [|a acts IH] using rev_ind; [split; [left; apply Nat.le_0_l|intros [|] l2 H; discriminate H]|].
  assert (E : xrun f (acts ++ [a]) (fresh f) = xstep f (xrun f acts (fresh f)) a) by (unfold xrun; rewrite fold_left_app; reflexivity).
  pose proof (run_sound f acts Hb) as S. pose proof (proj1 S) as B. destruct (traced_run f acts Hb) as [T _].
  set (x := xrun f acts (fresh f)) in *. rewrite E. destruct IH as [K W].
  split; [eapply step_owed; eassumption|]. intros l1 l2 H.
  destruct (step_stale f x a m Hb Hc B Hk) as [[d [El Nd]]|[El No]]; rewrite El in H; symmetry in H; apply split_app in H.
  - destruct H as [[l H]|(l & _ & Hd)]; [exact (W _ _ H)|]. exfalso. apply Nd. rewrite Hd. apply in_or_app. right. left. reflexivity.
  - destruct H as [[l H]|(l & Hl & Hd)]; [exact (W _ _ H)|]. destruct l as [|c l]; [|destruct l; discriminate Hd].
    rewrite app_nil_r in Hl. subst l1. destruct K as [K|K]; [contradiction|exact K].
Qed.
