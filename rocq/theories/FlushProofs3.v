(** Proofs about the flush: the limits. *)
From Verif Require Import Base RosterModel FlushModel FlushSpec FlushProofs FlushProofs2.

Section FlushProofs3.
  Context {W item : Type}.
  Notation log := (list (event item)).
  Implicit Types (s : fstate W item).
  Local Arguments executions {item} l : simpl never.
  Local Arguments received {item} l : simpl never.
  Local Arguments since {item} f l : simpl never.

  Lemma since_none f (l : log) : existsb f l = false -> since f l = l.
  Proof. destruct l as [|e l]; [reflexivity|]. cbn. intros H. apply orb_false_iff in H as [H1 H2]. unfold since. rewrite H2, H1. reflexivity. Qed.

  Lemma since_app f (l l' : log) : existsb f l' = false -> since f (l ++ l') = since f l ++ l'.
  Proof.
    intros H. induction l as [|e l IH]; [apply since_none, H|]. unfold since in *. cbn. rewrite existsb_app, H, orb_false_r.
    destruct (existsb f l); [exact IH|]. destruct (f e); reflexivity.
  Qed.

  Lemma since_last f (l l' : log) e : f e = true -> existsb f l' = false -> since f (l ++ e :: l') = l'.
  Proof.
    intros H1 H2. induction l as [|x l IH].
    - unfold since. cbn. rewrite H2, H1. reflexivity.
    - unfold since in *. cbn. rewrite existsb_app. cbn. rewrite H1, orb_true_r. exact IH.
  Qed.

  Context (b : behaviour W item).

  (** ** The loop limit *)
  Definition execs s : nat := length (executions (this_flush (f_log s))).
  Definition turns s : nat := length (filter is_iter (this_flush (f_log s))).

  Lemma grow s s' (l : log) : f_log s' = f_log s ++ l -> existsb is_start l = false ->
    execs s' = execs s + length (executions l) /\ turns s' = turns s + length (filter is_iter l).
  Proof.
    intros E H. unfold execs, turns, this_flush. rewrite E, since_app, executions_app, filter_app, !app_length by exact H. auto.
  Qed.

  (** The count of turns and executions is kept by calls other than executions. *)
  Lemma call_grow t s : existsb is_start [ERun t] = false ->
    execs (call b t s) = execs s + length (executions [ERun t]) /\ turns (call b t s) = turns s /\ same_rest s (call b t s).
  Proof.
    intros H. destruct (call_queue b t s) as (l & E & F & R & _). destruct (scheduled_quiet l F) as (X & _ & S1 & _ & I1 & _).
    change (ERun t :: l) with ([ERun t] ++ l) in E.
    destruct (grow s (call b t s) _ E) as [G1 G2]; [rewrite existsb_app, S1; reflexivity|].
    rewrite G1, G2, executions_app, filter_app, X, I1. cbn. rewrite app_nil_r. auto.
  Qed.

  Definition bound (n : nat) : nat := Nat.max 1 (n - 1).
  Local Arguments bound : simpl never.

  Definition limited (n : nat) s : Prop :=
    (turns s = 0 -> execs s = 0) /\ turns s <= n /\ execs s <= bound n /\
    match f_phase s with
    | Idle => True
    | Clean AExec | Cancelling AExec => fst (f_limits s) = Some n /\ S (f_count s) = execs s + turns s /\ 1 <= turns s
    | Clean ATop | Cancelling ATop | Clean AServe | Cancelling AServe | Serve =>
        fst (f_limits s) = Some n /\ f_count s = execs s + turns s /\ 1 <= turns s /\ f_count s <= n /\ (turns s = 1 -> execs s = 0)
    | Execute => fst (f_limits s) = Some n /\ f_count s = execs s + turns s /\ 1 <= turns s /\
        (f_count s < n \/ f_count s = n /\ (turns s = 1 -> execs s = 0))
    | Receive _ | Collect | Validate | Top | Clean AAwake | Cancelling AAwake | Awaken =>
        fst (f_limits s) = Some n /\ f_count s = execs s + turns s
    end.

  Lemma limited_step n s i : (forall w, loop_limit b w = Some n) -> limited n s -> limited n (fstep b s i).
  Proof.
    intros HL (H1 & H2 & H3 & H). destruct i as [| |f cmds]; cbn [fstep].
    - unfold tick. destruct (f_phase s) as [|m| | | |k|k| | |] eqn:PH.
      + split; [exact H1|]. split; [exact H2|]. split; [exact H3|]. rewrite PH. exact I.
      + unfold receive. destruct (poll b (f_world s)) as [w items]. cbn [f_channel set_channel set_world].
        destruct (f_channel s ++ items) as [|i rest]; [split; [exact H1|]; split; [exact H2|]; split; [exact H3|exact H]|].
        match goal with |- context [call b (TItem i) ?x] => destruct (call_grow (TItem i) x eq_refl) as (G1 & G2 & (R1 & R2 & R3 & R4)) end.
        match goal with G1 : execs ?x = _ |- _ => set (s1 := x) in * end. clearbody s1.
        change (execs s1 = execs s + 0) in G1. change (turns s1 = turns s) in G2. cbn in R2, R3. rewrite Nat.add_0_r in G1.
        destruct (snd (f_limits s1)) as [limit|]; [destruct (limit <=? m)|].
        * unfold limited. cbn. assert (X : forall p, execs (set_phase (note s1 (EChannelLimit m)) p) = execs s1 /\ turns (set_phase (note s1 (EChannelLimit m)) p) = turns s1).
          { intros p. destruct (grow s1 (set_phase (note s1 (EChannelLimit m)) p) [EChannelLimit m] eq_refl eq_refl) as [-> ->]. cbn. rewrite !Nat.add_0_r. auto. }
          destruct (X Collect) as [-> ->]. rewrite G1, G2, R2, R3. auto.
        * unfold limited. cbn. change (execs (set_phase s1 (Receive (S m)))) with (execs s1). change (turns (set_phase s1 (Receive (S m)))) with (turns s1).
          rewrite G1, G2, R2, R3. auto.
        * unfold limited. cbn. change (execs (set_phase s1 (Receive (S m)))) with (execs s1). change (turns (set_phase s1 (Receive (S m)))) with (turns s1).
          rewrite G1, G2, R2, R3. auto.
      + destruct (collect_log b s) as (l & E & X & _ & S1 & _ & I1 & L & C & P).
        destruct (grow s (collect b s) _ E) as [G1 G2]; [exact S1|].
        change (ECollect :: l) with ([ECollect] ++ l) in G1, G2. rewrite executions_app, X in G1. rewrite filter_app, I1 in G2. cbn in G1, G2.
        rewrite Nat.add_0_r in G1, G2. unfold limited. rewrite G1, G2, P, L, C. auto.
      + destruct (pop_last _) as [rest [d|]]; [|split; [exact H1|]; split; [exact H2|]; split; [exact H3|exact H]].
        destruct (call_grow (TValidate d) (set_roster s (with_disposed (f_roster s) rest)) eq_refl) as (G1 & G2 & (R1 & R2 & R3 & R4)).
        unfold limited. rewrite G1, G2, R2, R3, R4. cbn. rewrite PH.
        change (execs (set_roster s (with_disposed (f_roster s) rest))) with (execs s).
        change (turns (set_roster s (with_disposed (f_roster s) rest))) with (turns s). rewrite Nat.add_0_r. auto.
      + destruct (top_log b s) as (l & E & X & _ & S1 & _ & D).
        destruct (grow s (top b s) l E S1) as [G1 G2]. rewrite X in G1. cbn in G1. rewrite Nat.add_0_r in G1.
        unfold limited. rewrite G1, G2. destruct D as [(_ & P & I1)|(P & C & I1 & _ & _ & L & LT)]; rewrite P, I1; cbn.
        * rewrite Nat.add_0_r. auto.
        * rewrite L. cbn. rewrite HL. rewrite L in LT. cbn in LT. rewrite HL in LT. specialize (LT n eq_refl). rewrite C.
          destruct H as [_ HC]. unfold bound in *. repeat split; try lia. 
      + destruct (pop_last _) as [rest [d|]]; [|split; [exact H1|]; split; [exact H2|]; split; [exact H3|]; destruct k; exact H].
        destruct (call_grow (TCleanup d) (set_roster s (with_cleanup (f_roster s) rest)) eq_refl) as (G1 & G2 & (R1 & R2 & R3 & R4)).
        unfold limited. rewrite G1, G2, R2, R3, R4. cbn. rewrite PH.
        change (execs (set_roster s (with_cleanup (f_roster s) rest))) with (execs s).
        change (turns (set_roster s (with_cleanup (f_roster s) rest))) with (turns s). rewrite Nat.add_0_r. auto.
      + destruct (r_cancel (f_roster s)) as [|c rest].
        * destruct k; try (split; [exact H1|]; split; [exact H2|]; split; [exact H3|exact H]).
          destruct H as (HF & HC & HT). unfold counted. cbn. rewrite HF. destruct (n <=? S (f_count s)) eqn:LE.
          -- unfold limited. cbn.
             destruct (grow s (set_phase (note (set_count s (S (f_count s))) (ELimit (S (f_count s)))) Awaken) [ELimit (S (f_count s))] eq_refl eq_refl) as [-> ->].
             cbn. rewrite !Nat.add_0_r. auto.
          -- apply Nat.leb_gt in LE. unfold limited. cbn.
             change (execs (set_phase (set_count s (S (f_count s))) Execute)) with (execs s).
             change (turns (set_phase (set_count s (S (f_count s))) Execute)) with (turns s). repeat split; auto.
        * destruct (call_grow (TCancel c) (set_roster s (with_cancel (f_roster s) rest)) eq_refl) as (G1 & G2 & (R1 & R2 & R3 & R4)).
          unfold limited. rewrite G1, G2, R2, R3, R4. cbn. rewrite PH.
          change (execs (set_roster s (with_cancel (f_roster s) rest))) with (execs s).
          change (turns (set_roster s (with_cancel (f_roster s) rest))) with (turns s). rewrite Nat.add_0_r. auto.
      + destruct (r_unblock (f_roster s)) as [|u rest].
        * unfold limited. cbn. change (execs (set_phase s Execute)) with (execs s). change (turns (set_phase s Execute)) with (turns s).
          destruct H as (HF & HC & HT & HN & HX). repeat split; auto. lia.
        * destruct (call_grow (TServe u) (set_roster s (with_unblock (f_roster s) rest)) eq_refl) as (G1 & G2 & (R1 & R2 & R3 & R4)).
          set (s1 := call b (TServe u) _) in *. clearbody s1. unfold limited. cbn.
          change (execs (set_phase s1 (Clean AServe))) with (execs s1). change (turns (set_phase s1 (Clean AServe))) with (turns s1).
          rewrite G1, G2, R2, R3. cbn.
          change (execs (set_roster s (with_unblock (f_roster s) rest))) with (execs s).
          change (turns (set_roster s (with_unblock (f_roster s) rest))) with (turns s). rewrite Nat.add_0_r. auto.
      + destruct (r_queue (f_roster s)) as [|u rest].
        * unfold limited. cbn. change (execs (set_phase s Awaken)) with (execs s). change (turns (set_phase s Awaken)) with (turns s).
          destruct H as (HF & HC & HT & HN). auto.
        * destruct (call_grow (TExec u) (set_roster s (with_queue (f_roster s) rest)) eq_refl) as (G1 & G2 & (R1 & R2 & R3 & R4)).
          set (s1 := call b (TExec u) _) in *. clearbody s1. unfold limited. cbn.
          change (execs (set_phase s1 (Clean AExec))) with (execs s1). change (turns (set_phase s1 (Clean AExec))) with (turns s1).
          rewrite G1, G2, R2, R3. cbn.
          change (execs (set_roster s (with_queue (f_roster s) rest))) with (execs s).
          change (turns (set_roster s (with_queue (f_roster s) rest))) with (turns s).
          change (length (executions [@ERun item (TExec u)])) with 1.
          destruct H as (HF & HC & HT & HN). unfold bound in *. repeat split; auto; try lia.
      + destruct (r_awake (f_roster s)) as [|u rest].
        * split; [exact H1|]; split; [exact H2|]; split; [exact H3|exact H].
        * destruct (call_grow (TAwake u) (set_roster s (with_awake (f_roster s) rest)) eq_refl) as (G1 & G2 & (R1 & R2 & R3 & R4)).
          set (s1 := call b (TAwake u) _) in *. clearbody s1. unfold limited. cbn.
          change (execs (set_phase s1 (Clean AAwake))) with (execs s1). change (turns (set_phase s1 (Clean AAwake))) with (turns s1).
          rewrite G1, G2, R2, R3. cbn.
          change (execs (set_roster s (with_awake (f_roster s) rest))) with (execs s).
          change (turns (set_roster s (with_awake (f_roster s) rest))) with (turns s). rewrite Nat.add_0_r. auto.
    - destruct (f_phase s) eqn:PH; try (split; [exact H1|]; split; [exact H2|]; split; [exact H3|]; rewrite PH; exact H).
      unfold limited, execs, turns, this_flush. cbn. rewrite since_last by reflexivity. cbn. rewrite HL.
      change (executions (@nil (event item))) with (@nil entity). repeat split; auto; unfold bound; cbn; lia.
    - destruct (f_phase s) eqn:PH; try (split; [exact H1|]; split; [exact H2|]; split; [exact H3|]; rewrite PH; exact H).
      destruct (issue_all (map (fun c => (false, c)) cmds) (set_world s (f (f_world s)))) as (l & E & F & _ & (_ & _ & _ & R4) & _).
      destruct (scheduled_quiet l F) as (X & _ & S1 & _ & I1 & _).
      set (s1 := fold_left issue _ _) in *. clearbody s1. cbn in E, R4.
      destruct (grow s s1 l E S1) as [G1 G2]. rewrite X in G1. rewrite I1 in G2. cbn in G1, G2. rewrite Nat.add_0_r in G1, G2.
      unfold limited. rewrite G1, G2, R4, PH. auto.
  Qed.

  Lemma limited_run n w is : (forall w, loop_limit b w = Some n) -> limited n (frun b w is).
  Proof.
    intros HL. induction is as [|i is IH] using rev_ind.
    - unfold limited, execs, turns, this_flush, executions, since. cbn. repeat split; auto; unfold bound; lia.
    - rewrite run_snoc. apply limited_step; assumption.
  Qed.

  (** ** The channel limit *)
  Definition items s : nat := length (received (since is_collect (f_log s))).

  Lemma items_grow s s' (l : log) : f_log s' = f_log s ++ l -> existsb is_collect l = false -> items s' = items s + length (received l).
  Proof. intros E H. unfold items. rewrite E, since_app, received_app, app_length by exact H. reflexivity. Qed.

  Lemma call_items t s : items (call b t s) = items s + length (received [ERun t]) /\ same_rest s (call b t s).
  Proof.
    destruct (call_queue b t s) as (l & E & F & R & _). destruct (scheduled_quiet l F) as (_ & X & _ & S1 & _).
    change (ERun t :: l) with ([ERun t] ++ l) in E.
    pose proof (items_grow s (call b t s) _ E) as G. rewrite G by (rewrite existsb_app, S1; destruct t; reflexivity).
    rewrite received_app, X, app_nil_r. auto.
  Qed.

  Definition capped (n : nat) s : Prop :=
    match f_phase s with
    | Receive m => snd (f_limits s) = Some n /\ items s = m /\ m <= n
    | Collect => snd (f_limits s) = Some n /\ items s <= S n
    | Idle => items s = 0
    | _ => snd (f_limits s) = Some n /\ items s = 0
    end.

  Ltac calls t := match goal with |- context [call b t ?x] =>
      let G1 := fresh "G" in let R := fresh "R" in
      destruct (call_items t x) as (G1 & (_ & _ & R & ?)); set (s1 := call b t x) in *; clearbody s1;
      cbn in G1, R; unfold capped; cbn end.

  Lemma capped_step n s i : (forall w, channel_limit b w = Some n) -> capped n s -> capped n (fstep b s i).
  Proof.
    intros HL H. assert (CP : forall x p, items (set_phase x p) = items x) by reflexivity.
    assert (CR : forall x r, items (set_roster x r) = items x) by reflexivity.
    destruct i as [| |f cmds]; cbn [fstep].
    - unfold tick, capped in H |- *. destruct (f_phase s) as [|m| | | |k|k| | |] eqn:PH.
      + rewrite PH. exact H.
      + destruct H as (HF & HI & HM). unfold receive. destruct (poll b (f_world s)) as [w its]. cbn [f_channel set_channel set_world].
        destruct (f_channel s ++ its) as [|i rest]; [cbn; split; [exact HF|]; change (items s <= S n); lia|].
        match goal with |- context [call b (TItem i) ?x] => destruct (call_items (TItem i) x) as (G1 & (_ & _ & R & _)); set (s1 := call b (TItem i) x) in *; clearbody s1 end.
        change (items s1 = items s + 1) in G1. cbn in R. rewrite <- R in HF. rewrite HF.
        destruct (n <=? m) eqn:LE; cbn.
        * split; [exact HF|]. rewrite CP. rewrite (items_grow s1 (note s1 (EChannelLimit m)) [EChannelLimit m] eq_refl eq_refl). unfold received. cbn. lia.
        * apply Nat.leb_gt in LE. rewrite CP. split; [exact HF|]. lia.
      + destruct (collect_log b s) as (l & E & _ & X & _ & S1 & _ & L & _ & P). rewrite P, L. split; [apply H|].
        unfold items. rewrite E, since_last, X; auto.
      + destruct (pop_last _) as [rest [d|]]; [|exact H]. destruct (call_items (TValidate d) (set_roster s (with_disposed (f_roster s) rest))) as (G & (_ & _ & R & P)).
        rewrite P. cbn. rewrite PH, R, G, CR. unfold received. cbn. rewrite Nat.add_0_r. exact H.
      + destruct (top_log b s) as (l & E & _ & X & _ & S1 & D). pose proof (items_grow s (top b s) l E S1) as G. rewrite X in G. cbn in G.
        destruct D as [(_ & P & _)|(P & _ & _ & _ & _ & L & _)]; rewrite P; [lia|]. rewrite L. cbn. split; [apply HL|lia].
      + destruct (pop_last _) as [rest [d|]]; [|exact H]. destruct (call_items (TCleanup d) (set_roster s (with_cleanup (f_roster s) rest))) as (G & (_ & _ & R & P)).
        rewrite P. cbn. rewrite PH, R, G, CR. unfold received. cbn. rewrite Nat.add_0_r. exact H.
      + destruct (r_cancel (f_roster s)) as [|c rest].
        * destruct k; try exact H. unfold counted. cbn. destruct (fst (f_limits s)) as [limit|]; [destruct (limit <=? _)|]; try exact H.
          cbn. split; [apply H|]. rewrite CP.
          rewrite (items_grow s (note (set_count s (S (f_count s))) (ELimit (S (f_count s)))) [ELimit (S (f_count s))] eq_refl eq_refl). unfold received. cbn. destruct H. lia.
        * destruct (call_items (TCancel c) (set_roster s (with_cancel (f_roster s) rest))) as (G & (_ & _ & R & P)).
          rewrite P. cbn. rewrite PH, R, G, CR. unfold received. cbn. rewrite Nat.add_0_r. exact H.
      + destruct (r_unblock (f_roster s)) as [|u rest]; [exact H|].
        destruct (call_items (TServe u) (set_roster s (with_unblock (f_roster s) rest))) as (G & (_ & _ & R & P)).
        cbn. rewrite CP, G, R, CR. unfold received. cbn. rewrite Nat.add_0_r. exact H.
      + destruct (r_queue (f_roster s)) as [|u rest]; [exact H|].
        destruct (call_items (TExec u) (set_roster s (with_queue (f_roster s) rest))) as (G & (_ & _ & R & P)).
        cbn. rewrite CP, G, R, CR. unfold received. cbn. rewrite Nat.add_0_r. exact H.
      + destruct (r_awake (f_roster s)) as [|u rest]; [cbn; rewrite CP; split; [apply H|]; destruct H; lia|].
        destruct (call_items (TAwake u) (set_roster s (with_awake (f_roster s) rest))) as (G & (_ & _ & R & P)).
        cbn. rewrite CP, G, R, CR. unfold received. cbn. rewrite Nat.add_0_r. exact H.
    - unfold capped in H |- *. destruct (f_phase s) eqn:PH; try (rewrite PH; exact H). cbn. rewrite HL. split; [reflexivity|]. rewrite CP.
      split; [|lia]. change (items (note s EStart) = 0). rewrite (items_grow s (note s EStart) [EStart] eq_refl eq_refl), H. reflexivity.
    - unfold capped in H |- *. destruct (f_phase s) eqn:PH; try (rewrite PH; exact H).
      destruct (issue_all (map (fun c => (false, c)) cmds) (set_world s (f (f_world s)))) as (l & E & F & _ & (_ & _ & _ & R4) & _).
      destruct (scheduled_quiet l F) as (_ & X & _ & S1 & _).
      set (s1 := fold_left issue _ _) in *. clearbody s1. cbn in E, R4. rewrite R4, PH.
      rewrite (items_grow s s1 l E S1), X, H. reflexivity.
  Qed.

  Lemma capped_run n w is : (forall w, channel_limit b w = Some n) -> capped n (frun b w is).
  Proof.
    intros HL. induction is as [|i is IH] using rev_ind; [reflexivity|]. rewrite run_snoc. apply capped_step; assumption.
  Qed.

  Lemma capped_items n s : capped n s -> items s <= S n.
  Proof. unfold capped. destruct (f_phase s); lia. Qed.
End FlushProofs3.
