(** Nodes run, and break, only if something was on its way to them. *)
From Verif Require Import Base RosterModel BufferModel InputModel InputSpec InputProofs GateModel
  OpsModel OpsSpec OpsProofs ReachModel ReachSpec ReachProofs ExecModel ExecSpec ExecProofs ExecProofs2 ExecProofs3
  ExecProofs4 ExecProofs5 ExecProofs6 ExecProofs7 ExecProofs8 ExecProps RestProofs RestProofs2.

Lemma queue_step (P : nat -> Prop) f x a E : built f -> collect_free f -> base f x -> traced f E x ->
  (forall s v, In (EStart s v) (x_log x) -> forall n w, occurs f (f_entry f) v n w -> P n) ->
  (forall s v, a = XStart s v -> known s (x_log x) = false -> forall n w, occurs f (f_entry f) v n w -> P n) ->
  (forall n, In n (queue (x_o x)) -> P n) -> forall n, In n (queue (x_o (xstep f x a))) -> P n.
Proof.
  intros Hb Hc B T G Ga C. destruct a as [s v| | | |s]; cbn [xstep].
  - unfold start. destruct (known s (x_log x)) eqn:Ek; [exact C|].
    match goal with |- context [o_give ?o _ _ _] => set (o1 := o) end.
    assert (Hs1 : w_status (o_w o1) s = Some Active) by (cbn -[emap_set]; apply emap_set_eq).
    assert (Hen : In (f_entry f) (f_nodes f)) by apply Hb.
    assert (He : f_kind f (f_entry f) <> None) by (apply (proj1 (proj2 Hb)), Hen).
    destruct (give_change f o1 (f_entry f) s v (b_shaped _ _ B) Hs1 He) as [o2 [Eo [Ch K]]]. rewrite Eo.
    set (x1 := mk_x o2 (x_ongoing x ++ [s]) (x_initial x) (x_log x ++ [EStart s v])).
    assert (S1 : shaped f (x_o x1)) by exact (ch_shaped _ _ _ _ _ _ _ Ch).
    assert (C1 : forall n, In n (queue (x_o x1)) -> P n).
    { intros n H. cbn [x1 x_o] in H. rewrite (ch_queue _ _ _ _ _ _ _ Ch) in H. apply in_app_or in H. destruct H as [H|[<-|[]]].
      - apply C. exact H.
      - apply (Ga s v eq_refl Ek _ v). constructor. }
    pose proof (validate_queue f (f_scope f) s x1 Hb Hc S1) as Vq. rewrite (not_circular_free f Hc).
    destruct (x_initial x) as [i|].
    + destruct i; [exact C1| |].
      * intros n H. rewrite Vq in H. exact (C1 n H).
      * intros n H. rewrite finish_queue in H by assumption. exact (C1 n H).
    + destruct (validate f (f_scope f) s x1) as [x2 [b|]]; intros n H; cbn [fst x_o] in *; rewrite Vq in H; exact (C1 n H).
  - destruct (queue (x_o x)) as [|n rest] eqn:Hq; [unfold exec; rewrite Hq; intros m H; rewrite Hq in H; destruct H|].
    assert (Cr : forall m, In m rest -> P m) by (intros m H; apply C; right; exact H).
    assert (Cp : forall o' m, pulled f (popped (x_o x) rest) o' n -> In m (queue o') -> P m).
    { intros o' m Q H. unfold queue in H. rewrite (pu_roster _ _ _ _ Q) in H. exact (Cr m H). }
    assert (Cd : forall o' s ns cs m, did f (popped (x_o x) rest) o' n s [] ns cs -> In m (queue o') -> P m).
    { intros o' s ns cs m D H. rewrite (di_queue _ _ _ _ _ _ _ _ D), app_nil_r in H. exact (Cr m H). }
    destruct (exec_executed f x n rest Hb B Hq) as
      [o' Hp Q|o' Hp Hk Q|o' k s v more ms dropped ns Hk Hr Hp Hs D F Hd' K|o' k s v more c Hk Hr Hp Hs D Hcc K
      |o' k s v more Hk Hr Hp Hs D K|o' min max t s v more Hk Hp Hs Hcol|o' s v more Hn Hp Hs Q|o' s v more Hn Hp Hs Q].
    + intros m H. exact (Cp _ _ Q H).
    + intros m H. exact (Cp _ _ Q H).
    + intros m H. cbn [set_o x_o] in H. rewrite (di_queue _ _ _ _ _ _ _ _ D) in H. apply in_app_or in H. destruct H as [H|H]; [exact (Cr m H)|].
      apply in_map_iff in H. destruct H as [[t u] [<- H]]. cbn [fst].
      assert (Hpn : In (s, v) (pending (o_w (x_o x)) n)) by (rewrite Hp; left; reflexivity).
      destruct (t_pend _ _ _ T s v n Hpn) as [v0 [Hv0 Ho]]. apply (G s v0 Hv0 t u). exact (O_sent _ _ _ _ _ _ _ _ _ _ Ho Hk Hr H).
    + intros m H. exact (Cd _ _ _ _ _ D H).
    + intros m H. exact (Cd _ _ _ _ _ D H).
    + exfalso. specialize (Hc n). unfold is_collect in Hc. rewrite Hk in Hc. discriminate.
    + intros m H. rewrite finish_queue in H; [|exact Hb|exact (pu_shaped _ _ _ _ Q)]. exact (Cp _ _ Q H).
    + intros m H. exact (Cp _ _ Q H).
  - unfold do_cancel. destruct (asked (x_o x)) as [|c rest] eqn:Ea; [exact C|].
    destruct (c_target c =? f_scope f); [|exact C]. destruct (c_session c) as [s|].
    + intros n H. rewrite finish_queue in H; [exact (C n H)|exact Hb|exact (b_shaped _ _ B)].
    + intros n H. rewrite finish_all_queue in H; [exact (C n H)|exact Hb|exact (b_shaped _ _ B)].
  - unfold notice. destruct (pop_last (told (x_o x))) as [l [d|]]; [|exact C].
    destruct (d_source d =? f_scope f); [|exact C]. intros n H. rewrite validate_queue in H; [exact (C n H)|exact Hb|exact Hc|exact (b_shaped _ _ B)].
  - exact C.
Qed.

(** A session which is new is entered in the log with its request. *)
Lemma start_logs f s v x : built f -> collect_free f -> base f x -> known s (x_log x) = false ->
  In (EStart s v) (x_log (start f s v x)).
Proof.
  intros Hb Hf Bs Ek. pose proof (b_shaped _ _ Bs) as S. unfold start. rewrite Ek.
  match goal with |- context [o_give ?o _ _ _] => set (o1 := o) end.
  assert (Hs1 : w_status (o_w o1) s = Some Active) by (cbn -[emap_set]; apply emap_set_eq).
  assert (He : f_kind f (f_entry f) <> None) by (apply (proj1 (proj2 Hb)), Hb).
  destruct (give_change f o1 (f_entry f) s v S Hs1 He) as [o2 [-> [C _]]].
  set (x1 := mk_x o2 (x_ongoing x ++ [s]) (x_initial x) (x_log x ++ [EStart s v])).
  assert (S1 : shaped f (x_o x1)) by exact (ch_shaped _ _ _ _ _ _ _ C).
  assert (G1 : In (EStart s v) (x_log x1)) by (apply in_or_app; right; left; reflexivity).
  rewrite (not_circular_free f Hf).
  destruct (x_initial x) as [[| |]|].
  - exact G1.
  - exact (grown_in _ _ _ (validate_grown f _ _ _ Hb Hf S1) G1).
  - exact (grown_in _ _ _ (grown_finish f _ _ _ Hb S1) G1).
  - pose proof (grown_in _ _ _ (validate_grown f (f_scope f) s x1 Hb Hf S1) G1) as G2.
    destruct (validate f (f_scope f) s x1) as [x2 [b|]]; exact G2.
Qed.

(** What is reported as broken was in the queue. *)
Lemma finish_breaks f m s e x : (forall a, e <> EBroken a) -> In (EBroken m) (x_log (finish f s e x)) -> In (EBroken m) (x_log x).
Proof.
  intros He. unfold finish. destruct (existsb (Nat.eqb s) (x_ongoing x)); [|auto]. cbn. intros H.
  apply in_app_or in H. destruct H as [H|[H|[]]]; [exact H|]. exfalso. eapply He, H.
Qed.

Lemma validate_breaks f m o a x : In (EBroken m) (x_log (fst (validate f o a x))) -> In (EBroken m) (x_log x).
Proof.
  unfold validate. destruct (listeners f o a (f_nodes f) (x_o x)) as [o1 [|]]; [|auto].
  destruct (check_reachability _ _ _); auto. cbn [fst]. intros H. apply finish_breaks in H; [exact H|discriminate].
Qed.

Lemma step_breaks f m x a : built f -> collect_free f -> base f x ->
  In (EBroken m) (x_log (xstep f x a)) -> In (EBroken m) (x_log x) \/ In m (queue (x_o x)).
Proof.
  intros Hb Hc B. destruct a as [s v| | | |s]; cbn [xstep].
  - unfold start. destruct (known s (x_log x)); [auto|].
    match goal with |- context [o_give ?o _ _ _] => set (o1 := o) end.
    assert (Hs1 : w_status (o_w o1) s = Some Active) by (cbn -[emap_set]; apply emap_set_eq).
    assert (He : f_kind f (f_entry f) <> None) by (apply (proj1 (proj2 Hb)), Hb).
    destruct (give_change f o1 (f_entry f) s v (b_shaped _ _ B) Hs1 He) as [o2 [-> [C _]]].
    assert (Hl : In (EBroken m) (x_log x ++ [EStart s v]) -> In (EBroken m) (x_log x) \/ In m (queue (x_o x))).
    { intros H. apply in_app_or in H. destruct H as [H|[H|[]]]; [auto|discriminate]. }
    rewrite (not_circular_free f Hc). destruct (x_initial x) as [[]|].
    + intros H. apply Hl. exact H.
    + intros H. apply Hl. apply validate_breaks in H. exact H.
    + intros H. apply Hl. apply finish_breaks in H; [exact H|discriminate].
    + match goal with |- context [validate f ?a ?b ?y] => pose proof (validate_breaks f m a b y) as Hv;
        destruct (validate f a b y) as [x2 [b0|]] end; intros H; apply Hl, Hv, H.
  - destruct (queue (x_o x)) as [|n rest] eqn:Hq; [unfold exec; rewrite Hq; auto|].
    destruct (exec_executed f x n rest Hb B Hq) as
      [o' Hp Q|o' Hp Hk Q|o' k s v more ms dropped ns Hk Hr Hp Hs D F Hd' K|o' k s v more c Hk Hr Hp Hs D Hcc K
      |o' k s v more Hk Hr Hp Hs D K|o' min max t s v more Hk Hp Hs Hcol|o' s v more Hn Hp Hs Q|o' s v more Hn Hp Hs Q]; auto.
    all: try (cbn; intros H; apply in_app_or in H; destruct H as [H|[H|[]]]; [auto|injection H as ->; right; left; reflexivity]).
    intros H. apply finish_breaks in H; [left; exact H|discriminate].
  - unfold do_cancel. destruct (asked (x_o x)) as [|c rest]; [auto|]. intros H. left.
    destruct (c_target c =? f_scope f); [|exact H]. destruct (c_session c).
    + apply finish_breaks in H; [exact H|discriminate].
    + unfold finish_all in H. assert (Hg : forall l z, In (EBroken m) (x_log (fold_left (fun x s => finish f s (ECancelled s (c_cause c)) x) l z)) ->
                   In (EBroken m) (x_log z)).
      { induction l as [|a l IH]; intros z; cbn [fold_left]; [auto|]. intros Hz. apply IH in Hz.
        apply finish_breaks in Hz; [exact Hz|discriminate]. }
      apply Hg in H. exact H.
  - unfold notice. destruct (pop_last (told (x_o x))) as [l [d|]]; [|auto]. intros H. left.
    destruct (d_source d =? f_scope f); [|exact H]. apply validate_breaks in H. exact H.
  - auto.
Qed.

Lemma run_reached f acts : built f -> collect_free f -> let x := xrun f acts (fresh f) in
  forall n, In n (queue (x_o x)) \/ In (EBroken n) (x_log x) -> exists s v w, started x s v /\ occurs f (f_entry f) v n w.
Proof.
  intros Hb Hc. cbn zeta. induction acts as [|a acts IH] using rev_ind; [intros n [[]|[]]|].
  assert (E : xrun f (acts ++ [a]) (fresh f) = xstep f (xrun f acts (fresh f)) a) by (unfold xrun; rewrite fold_left_app; reflexivity).
  pose proof (run_sound f acts Hb) as S. pose proof (proj1 S) as B. destruct (traced_run f acts Hb) as [T _].
  set (x := xrun f acts (fresh f)) in *. rewrite E. pose proof (step_grown f a x Hb Hc B) as Gr.
  assert (Up : forall n, (exists s v w, started x s v /\ occurs f (f_entry f) v n w) -> exists s v w, started (xstep f x a) s v /\ occurs f (f_entry f) v n w).
  { intros n (s & v & w & H1 & H2). exists s, v, w. split; [exact (grown_in _ _ _ Gr H1)|exact H2]. }
  intros n [H|H].
  - revert n H. eapply (queue_step (fun n => exists s v w, started (xstep f x a) s v /\ occurs f (f_entry f) v n w) f x a); try eassumption.
    + intros s v H n w O. apply Up. exists s, v, w. auto.
    + intros s v -> Ek n w O. exists s, v, w. split; [|exact O]. exact (start_logs f s v x Hb Hc B Ek).
    + intros n H. apply Up, IH. left. exact H.
  - apply Up, IH. destruct (step_breaks f n x a Hb Hc B H) as [H'|H']; auto.
Qed.
