(** Consequences of the invariant, progress, and what dropping a promise changes. *)
From Verif Require Import Base SeriesModel SeriesSpec SeriesProofs SeriesProofs2.

Section Progress.
  Context {V : Type} (v0 : V) (calls : list call) (t : ending).
  Implicit Types (s : sstate V).
  Local Arguments sessions : simpl never.
  Local Arguments work : simpl never.
  Local Arguments outcomes : simpl never.
  Notation n := (sessions calls).
  Notation D := (detached calls).

  Definition queued m (rs : list V) s : Prop :=
    shaped n D t m (at_ (length rs) (latest v0 rs)) s /\ length rs <= m /\ lists s [] [length rs] [] [] [] /\ work (s_log s) = said 0 v0 rs.
  Definition running m (rs : list V) s : Prop :=
    shaped n D t m nowhere s /\ length rs <= m /\ lists s [] [] [] [] [(length rs, 0)] /\
    work (s_log s) = said 0 v0 rs ++ [ERan (length rs) (latest v0 rs)].

  Lemma queued_execute m rs s : queued m rs s -> length rs < n -> running m rs (step s AExecute).
  Proof.
    intros (SH & L1 & (A1 & A2 & A3 & A4 & A5) & LO) LN. cbn [step]. rewrite A2. set (s1 := set_queue s []).
    assert (SH1 : shaped n D t m (at_ (length rs) (latest v0 rs)) s1) by (apply (shaped_frame _ _ _ _ _ s); [reflexivity..|exact SH]).
    pose proof (take_input _ _ _ _ _ _ _ SH1 L1) as SH2.
    unfold execute. rewrite (sh_cells _ _ _ _ _ _ SH1), ecell_alive by exact L1. cbn [c_op c_input].
    replace (at_ (length rs) (latest v0 rs) (length rs)) with [(0, latest v0 rs)] by (unfold at_; rewrite Nat.eqb_refl; reflexivity).
    destruct (Nat.ltb_spec (length rs) n) as [_|]; [|lia]. split; [|split; [exact L1|split]].
    - apply (shaped_frame _ _ _ _ _ (modify (length rs) (set_input []) s1)); [reflexivity..|exact SH2].
    - unfold lists. cbn. rewrite A1, A3, A4, A5. auto.
    - cbn. rewrite work_app, LO. reflexivity.
  Qed.

  Lemma running_respond m rs s w : running m rs s -> length rs < n ->
    let s' := step s (ARespond (length rs) (Some w)) in
    work (s_log s') = said 0 v0 (rs ++ [w]) /\ (S (length rs) <= m -> (S (length rs) = n -> t <> Unused) -> queued m (rs ++ [w]) s').
  Proof.
    intros (SH & L1 & (A1 & A2 & A3 & A4 & A5) & LO) LN. cbn zeta. cbn [step]. rewrite A5. cbn [find fst filter]. rewrite Nat.eqb_refl. cbn [negb].
    set (s1 := note (set_running s []) (EResponded (length rs) (Some w))).
    assert (SH1 : shaped n D t m nowhere s1) by (apply (shaped_frame _ _ _ _ _ s); [reflexivity..|exact SH]).
    assert (LO1 : work (s_log s1) = said 0 v0 (rs ++ [w])) by (cbn; rewrite work_app, LO, (said_run v0), <- app_assoc; reflexivity).
    assert (Q1 : s_queue s1 = []) by exact A2. assert (LI1 : lists s1 [] [] [] [] []) by (unfold lists; cbn; auto).
    clearbody s1. rewrite (sh_cells _ _ _ _ _ _ SH1), ecell_alive by exact L1. cbn [c_op]. destruct (Nat.ltb_spec (length rs) n) as [_|]; [|lia].
    destruct (give 0 w (S (length rs)) s1) as [s2 ok] eqn:G. unfold give in G. split.
    - assert (LG : s_log s2 = s_log s1).
      { destruct (s_cells s1 (S (length rs))) as [c|]; [|injection G as <- _; reflexivity].
        destruct (s_cells s1 0) as [c0|]; [|injection G as <- _; reflexivity]. destruct (c_active c0); [|injection G as <- _; reflexivity].
        destruct (c_op c) as [[]|]; try (injection G as <- _; reflexivity); (destruct (c_unused c); [injection G as <- _; reflexivity|]; destruct (c_detached c) as [[|]|]; injection G as <- _; reflexivity). }
      destruct ok; cbn; rewrite LG; exact LO1.
    - intros L3 NU. rewrite !(sh_cells _ _ _ _ _ _ SH1), !ecell_alive in G by lia. cbn [c_active c_op c_input Nat.eqb] in G.
      destruct LI1 as (C1 & C2 & C3 & C4 & C5). assert (LS : length (rs ++ [w]) = S (length rs)) by (rewrite app_length; cbn; lia).
      assert (R : (set_queue (modify (S (length rs)) (set_input [(0, w)]) s1) [S (length rs)], true) = (s2, ok)).
      { rewrite Q1 in G. destruct (Nat.ltb_spec (S (length rs)) n) as [L4|L4]; [exact G|].
        assert (EN : S (length rs) = n) by (pose proof (sh_m _ _ _ _ _ _ SH1); lia). specialize (NU EN).
        destruct t; [contradiction|exact G..]. }
      injection R as <- <-. unfold queued. rewrite LS, latest_snoc. split; [|split; [exact L3|split]].
      + apply (shaped_frame _ _ _ _ _ (modify (S (length rs)) (set_input [(0, w)]) s1)); [reflexivity..|]. apply put_input; assumption.
      + unfold lists. cbn. auto.
      + exact LO1.
  Qed.

  (** Lets the sessions from [j] on run and respond [rs]. *)
  Fixpoint feed (j : nat) (rs : list V) : list (action V) :=
    match rs with [] => [] | r :: rs' => AExecute :: ARespond j (Some r) :: feed (S j) rs' end.

  Lemma feed_queued m rs' : forall rs s, queued m rs s -> length rs + length rs' <= n -> length rs + length rs' <= S m ->
    let s' := fold_left step (feed (length rs) rs') s in
    work (s_log s') = said 0 v0 (rs ++ rs') /\
    (length rs + length rs' <= m -> (length rs + length rs' = n -> rs' = [] \/ t <> Unused) -> queued m (rs ++ rs') s').
  Proof.
    induction rs' as [|w rs' IH]; intros rs s Q L1 L2; cbn zeta.
    - rewrite app_nil_r. cbn. split; [apply Q|auto].
    - cbn [feed fold_left]. cbn [length] in L1, L2. pose proof (queued_execute m rs s Q) as R. specialize (R ltac:(lia)).
      destruct (running_respond m rs _ w R ltac:(lia)) as [W Q']. cbn zeta in W, Q'.
      destruct rs' as [|w' rs'].
      + cbn [feed fold_left]. split; [exact W|]. cbn [length]. intros L3 NU. apply Q'; [lia|]. intros E. destruct NU as [X|X]; [lia|discriminate X|exact X].
      + assert (LS : length (rs ++ [w]) = S (length rs)) by (rewrite app_length; cbn; lia). cbn [length] in *.
        specialize (Q' ltac:(lia) ltac:(lia)). destruct (IH (rs ++ [w]) _ Q') as [W2 Q2]; [lia|lia|].
        rewrite LS in W2, Q2. rewrite <- app_assoc in W2, Q2. cbn [app] in W2, Q2. split; [exact W2|].
        intros L3 NU. apply Q2; [lia|]. intros E. destruct NU as [X|X]; [lia|discriminate X|right; exact X].
  Qed.

  Lemma collected : t <> Unused \/ D n = true -> queued n [] (step (series v0 calls t) ACollect).
  Proof.
    intros H. destruct (series_shape v0 calls t) as (SH & A1 & A2 & A3 & A4 & A5 & _ & _ & _ & L). cbn [step].
    rewrite collect_idle.
    - split; [apply (shaped_frame _ _ _ _ _ (series v0 calls t)); [reflexivity..|exact SH]|]. split; [cbn; lia|]. split.
      + unfold lists. cbn. rewrite A1, A2. auto.
      + cbn. rewrite L. reflexivity.
    - apply unused_none. apply (shaped_used calls t (series v0 calls t) n (at_ 0 v0)); [left; auto|exact SH].
  Qed.

  Lemma collected_locked : t = Unused -> D n = false -> 0 < locked calls -> queued (locked calls) [] (step (series v0 calls t) ACollect).
  Proof.
    intros ET DN P. destruct (series_shape v0 calls t) as (SH & A1 & A2 & A3 & A4 & A5 & _ & _ & _ & L). cbn [step].
    set (s := series v0 calls t) in *. clearbody s. unfold collect. set (s1 := set_later (set_queue s (s_queue s ++ s_later s)) []).
    assert (SH1 : shaped n D t n (at_ 0 v0) s1) by (apply (shaped_frame _ _ _ _ _ s); [reflexivity..|exact SH]).
    fold (unused_targets s1). rewrite (unused_last calls t s1 (at_ 0 v0) ET DN SH1). cbn [filter].
    assert (DF : match s_cells s1 n with Some c => match c_detached c with Some d => d | None => false end | None => false end = false).
    { rewrite (sh_cells _ _ _ _ _ _ SH1), ecell_alive by lia. cbn. destruct (n =? 0); [reflexivity|exact DN]. }
    rewrite DF. cbn [filter negb fold_left]. pose proof SH1 as SHU. rewrite ET in SHU.
    destruct (drop_spec n D (at_ 0 v0) s1 SHU DN) as (B0 & B1 & B2 & B3 & B4 & B5 & B6 & B7 & B8 & B9 & B10).
    { cbn. rewrite A1, A2. reflexivity. } { unfold sessions. lia. }
    set (s2 := drop_target true s1 n) in *. clearbody s2. change (last_true D n) with (locked calls) in B0.
    destruct (Nat.eqb_spec (locked calls) 0) as [K0|K0]; [lia|].
    split; [rewrite ET; apply (shaped_frame _ _ _ _ _ s2); [reflexivity..|exact B0]|]. split; [cbn; lia|]. split.
    - unfold lists. cbn. rewrite B2, B3, B4, B5, B6. cbn. auto.
    - cbn. rewrite B10. cbn. rewrite L. reflexivity.
  Qed.
End Progress.

Section Drop.
  Context {V : Type} (v0 : V) (calls : list call) (t : ending).
  Implicit Types (s : sstate V).
  Local Arguments work : simpl never.

  (** Two states which differ only in what was dropped and in what came out. *)
  Record alike s s' : Prop := {
    a_cells : s_cells s' = s_cells s; a_next : s_next s' = s_next s; a_later : s_later s' = s_later s; a_queue : s_queue s' = s_queue s;
    a_cancel : s_cancel s' = s_cancel s; a_despawn : s_despawn s' = s_despawn s; a_running : s_running s' = s_running s;
    a_receiver : s_receiver s' = s_receiver s; a_work : work (s_log s') = work (s_log s) }.

  (** Equality of everything except dropped, channel and log lets us write the second state as an update of the first. *)
  Definition vary s (d : bool) (c : list entity) (l : list (event V)) : sstate V :=
    {| s_cells := s_cells s; s_next := s_next s; s_later := s_later s; s_queue := s_queue s; s_cancel := s_cancel s; s_despawn := s_despawn s;
       s_running := s_running s; s_dropped := d; s_receiver := s_receiver s; s_channel := c; s_log := l |}.
  Lemma alike_vary s s' : alike s s' -> s' = vary s (s_dropped s') (s_channel s') (s_log s').
  Proof. intros [A1 A2 A3 A4 A5 A6 A7 A8 A9]. destruct s, s'. cbn in *. unfold vary. cbn. subst. reflexivity. Qed.
  Lemma vary_alike s d c l : work l = work (s_log s) -> alike s (vary s d c l).
  Proof. intros E. split; try reflexivity. exact E. Qed.

  Lemma climb_vary fuel : forall s e f d c l, climb fuel (vary s d c l) e f = (vary (fst (climb fuel s e f)) d c l, snd (climb fuel s e f)).
  Proof.
    induction fuel as [|fuel IH]; intros s e f d c l; [reflexivity|]. cbn [climb].
    change (children (vary s d c l) e) with (children s e).
    assert (K : forall xs s e up f g, fold_left look xs (vary s d c l, e, up, f, g) =
      (let '(s', e', up', f', g') := fold_left look xs (s, e, up, f, g) in (vary s' d c l, e', up', f', g'))).
    { induction xs as [|x xs IHx]; intros s0 e0 up f0 g; [reflexivity|]. cbn [fold_left].
      assert (E : look (vary s0 d c l, e0, up, f0, g) x = (let '(s', e', up', f', g') := look (s0, e0, up, f0, g) x in (vary s' d c l, e', up', f', g'))).
      { unfold look. destruct g; [reflexivity|]. cbn. destruct (s_cells s0 x) as [cl|]; [|reflexivity]. destruct (c_detached cl) as [[|]|]; reflexivity. }
      rewrite E. destruct (look (s0, e0, up, f0, g) x) as [[[[s1 e1] up1] f1] g1]. apply IHx. }
    rewrite K. destruct (fold_left look (children s e) (s, e, false, f, false)) as [[[[s1 e1] up1] f1] g1]. destruct up1; [apply IH|reflexivity].
  Qed.
  Lemma climb_log fuel : forall s e f, s_log (fst (climb fuel s e f)) = s_log s.
  Proof.
    induction fuel as [|fuel IH]; intros s e f; [reflexivity|]. cbn [climb].
    assert (K : forall xs s e up f g, s_log (fst (fst (fst (fst (fold_left look xs (s, e, up, f, g)))))) = s_log s).
    { induction xs as [|x xs IHx]; intros s0 e0 up f0 g; [reflexivity|]. cbn [fold_left].
      assert (E : s_log (fst (fst (fst (fst (look (s0, e0, up, f0, g) x))))) = s_log s0).
      { unfold look. destruct g; [reflexivity|]. destruct (s_cells s0 x) as [cl|]; [|reflexivity]. destruct (c_detached cl) as [[|]|]; reflexivity. }
      destruct (look (s0, e0, up, f0, g) x) as [[[[s1 e1] up1] f1] g1]. cbn in E. rewrite IHx. exact E. }
    specialize (K (children s e) s e false f false). destruct (fold_left look (children s e) (s, e, false, f, false)) as [[[[s1 e1] up1] f1] g1]. cbn in K.
    destruct up1; [rewrite IH|]; exact K.
  Qed.

  Lemma drop_target_alike u s s' e : alike s s' -> alike (drop_target u s e) (drop_target u s' e).
  Proof.
    intros A. pose proof (a_work _ _ A) as W. rewrite (alike_vary _ _ A). set (d := s_dropped s'). set (c := s_channel s'). set (l := s_log s') in *. clearbody d c l. clear A s'.
    unfold drop_target. change (purge e (vary s d c l)) with (vary (purge e s) d c l).
    change (s_next (vary (purge e s) d c l)) with (s_next (purge e s)). rewrite climb_vary.
    destruct (climb (S (s_next (purge e s))) (purge e s) e None) as [s1 f] eqn:E. cbn [fst snd].
    assert (L1 : s_log s1 = s_log s) by (pose proof (climb_log (S (s_next (purge e s))) (purge e s) e None) as H; rewrite E in H; exact H).
    destruct u, f as [x|]; (split; try reflexivity); cbn; rewrite ?L1, ?work_app, ?W; reflexivity.
  Qed.
  Lemma drops_alike u es : forall s s', alike s s' -> alike (fold_left (drop_target u) es s) (fold_left (drop_target u) es s').
  Proof. induction es as [|e es IH]; intros s s' A; [exact A|]. cbn. apply IH, drop_target_alike, A. Qed.

  Lemma step_alike s s' a : alike s s' -> alike (step s a) (step s' a).
  Proof.
    intros A. pose proof (a_work _ _ A) as W. destruct a; cbn [step].
    - unfold collect. rewrite !(a_cells _ _ A), !(a_next _ _ A), !(a_queue _ _ A), !(a_later _ _ A) || idtac.
      rewrite (alike_vary _ _ A). set (d := s_dropped s'). set (c := s_channel s'). set (l := s_log s') in *. clearbody d c l. clear A s'.
      set (s1 := set_later (set_queue s (s_queue s ++ s_later s)) []).
      change (set_later (set_queue (vary s d c l) (s_queue (vary s d c l) ++ s_later (vary s d c l))) []) with (vary s1 d c l).
      change (s_cells (vary s1 d c l)) with (s_cells s1). change (s_next (vary s1 d c l)) with (s_next s1). cbn [fold_left].
      set (u := filter _ (seq 0 (s_next s1))). 
      assert (F : forall es s2 s2', alike s2 s2' -> alike (fold_left (fun s e => modify e (use OFinished) s) es s2) (fold_left (fun s e => modify e (use OFinished) s) es s2')).
      { induction es as [|e es IH]; intros s2 s2' A2; [exact A2|]. cbn. apply IH. destruct A2. split; cbn; auto. rewrite a_cells0. reflexivity. }
      assert (H : forall s2 s2', alike s2 s2' -> alike (set_channel s2 []) (set_channel s2' [])) by (intros s2 s2' A2; destruct A2; split; cbn; auto).
      apply H, drops_alike, F, vary_alike. exact W.
    - rewrite (a_queue _ _ A). destruct (s_queue s) as [|e q]; [exact A|].
      rewrite (alike_vary _ _ A). set (d := s_dropped s'). set (c := s_channel s'). set (l := s_log s') in *. clearbody d c l. clear A s'.
      unfold execute. cbn [s_cells set_queue vary]. destruct (s_cells s e) as [cl|]; [|split; try reflexivity; exact W].
      destruct (c_op cl) as [[x| | | |]|], (c_input cl) as [|[ss w] rest]; try (split; try reflexivity; exact W).
      + split; try reflexivity. cbn. rewrite !work_app, W. reflexivity.
      + destruct d, (s_dropped s) eqn:E; cbn; (split; try reflexivity; cbn); rewrite ?E; cbn; rewrite ?work_app, ?W; cbn; rewrite ?app_nil_r; reflexivity.
      + cbn. destruct (s_receiver s) eqn:E; (split; try reflexivity; cbn); rewrite ?work_app, ?W; reflexivity.
      + cbn. destruct (s_receiver s) eqn:E; (split; try reflexivity; cbn); rewrite ?work_app, ?W; reflexivity.
    - rewrite (a_running _ _ A). destruct (find _ (s_running s)) as [[x ss]|]; [|exact A].
      rewrite (alike_vary _ _ A). set (d := s_dropped s'). set (c := s_channel s'). set (l := s_log s') in *. clearbody d c l. clear A s'.
      cbn [s_cells note set_running vary]. destruct (s_cells s e) as [cl|]; [|split; try reflexivity; cbn; rewrite !work_app, W; reflexivity].
      destruct r as [w|]; [|split; try reflexivity; cbn; rewrite !work_app, W; reflexivity].
      destruct (c_op cl) as [[y| | | |]|]; try (split; try reflexivity; cbn; rewrite !work_app, W; reflexivity).
      unfold give. cbn [s_cells note set_running vary s_queue s_despawn].
      destruct (s_cells s y) as [c1|]; [|split; try reflexivity; cbn; rewrite !work_app, W; reflexivity].
      destruct (s_cells s ss) as [c0|]; [|split; try reflexivity; cbn; rewrite !work_app, W; reflexivity].
      destruct (c_active c0); [|split; try reflexivity; cbn; rewrite !work_app, W; reflexivity].
      destruct (c_op c1) as [[]|]; try (split; try reflexivity; cbn; rewrite !work_app, W; reflexivity);
        (destruct (c_unused c1); [split; try reflexivity; cbn; rewrite !work_app, W; reflexivity|]; destruct (c_detached c1) as [[|]|]; split; try reflexivity; cbn; rewrite !work_app, W; reflexivity).
    - rewrite (a_cancel _ _ A). destruct (s_cancel s) as [|e q]; [exact A|].
      rewrite (alike_vary _ _ A). set (d := s_dropped s'). set (c := s_channel s'). set (l := s_log s') in *. clearbody d c l. clear A s'.
      unfold cancel. cbn [s_cells set_cancel vary s_next s_dropped]. destruct (s_cells s e) as [cl|]; [|split; try reflexivity; exact W].
      destruct (s_cells s (terminal (s_next s) (s_cells s) e)) as [c1|]; [|split; try reflexivity; exact W].
      destruct (c_op c1) as [[]|]; try (split; try reflexivity; exact W).
      destruct d, (s_dropped s) eqn:E; (split; try reflexivity; cbn); rewrite ?E; cbn; rewrite ?work_app, ?W; cbn; rewrite ?app_nil_r; reflexivity.
    - rewrite (a_despawn _ _ A).
      assert (F : forall es s2 s2', alike s2 s2' -> alike (fold_left (fun s e => despawn e s) es s2) (fold_left (fun s e => despawn e s) es s2')).
      { induction es as [|e es IH]; intros s2 s2' A2; [exact A2|]. cbn [fold_left]. apply IH. destruct A2. split; cbn; auto. rewrite a_cells0, a_next0. reflexivity. }
      apply F. destruct A. split; cbn; auto.
    - destruct A. split; cbn; auto.
    - destruct A. split; cbn; auto.
  Qed.

  Definition is_drop (a : action V) : bool := match a with ADropPromise => true | _ => false end.
  Lemma drop_nothing acts : forall s s', alike s s' ->
    alike (fold_left step acts s) (fold_left step (filter (fun a => negb (is_drop a)) acts) s').
  Proof.
    induction acts as [|a acts IH]; intros s s' A; [exact A|]. cbn. destruct (is_drop a) eqn:E; cbn [negb].
    - destruct a; try discriminate E. apply IH. destruct A. split; cbn; auto.
    - cbn. apply IH, step_alike, A.
  Qed.
End Drop.
