(** Lemmas about what a scope tells its parent. *)
From Verif Require Import Base ScopeModel ScopeSpec ScopeProofs.

Local Arguments st_remove : simpl never.
Local Arguments filter : simpl never.

Section Parent.
  Context {V : Type}.
  Implicit Types (w : sstate V).

  Definition tagged (q : pair) := (p_parent q, p_scoped q).
  Definition marked (st : sstatus) := st = Cleaning \/ st = DeferredCleanup.
  Definition dull (e : event V) : Prop :=
    match e with EBegin _ _ | ENotify _ | ERequest _ => False | _ => True end.

  (** Changes which neither involve the parent nor start or remove sessions. *)
  Record tame g w w' : Prop := {
    t_pairs : map tagged (s_pairs w') = map tagged (s_pairs w);
    t_mark : forall q, In q (s_pairs w') -> marked (p_status q) ->
        exists q', In q' (s_pairs w) /\ p_parent q' = p_parent q /\ marked (p_status q');
    t_await : forall a, In a (s_awaiting w') -> cl_cleaner (a_cleanup a) = g_self g \/
        exists a', In a' (s_awaiting w) /\ a_cleanup a' = a_cleanup a /\ a_parent a' = a_parent a;
    t_log : exists evs, s_log w' = s_log w ++ evs /\ Forall dull evs }.

  Lemma tame_refl g w : tame g w w.
  Proof. constructor; eauto. exists []. now rewrite app_nil_r. Qed.

  Lemma tame_trans g w1 w2 w3 : tame g w1 w2 -> tame g w2 w3 -> tame g w1 w3.
  Proof.
    intros [A1 A2 A3 (x & A4 & A5)] [B1 B2 B3 (y & B4 & B5)]. constructor.
    - congruence.
    - intros q Hq Hm. destruct (B2 q Hq Hm) as (q2 & H2 & E2 & M2). destruct (A2 q2 H2 M2) as (q1 & H1 & E1 & M1).
      exists q1. repeat split; auto; congruence.
    - intros a Ha. destruct (B3 a Ha) as [?|(a2 & H2 & E2 & F2)]; [now left|].
      destruct (A3 a2 H2) as [?|(a1 & H1 & E1 & F1)]; [left; congruence|].
      right. exists a1. repeat split; auto; congruence.
    - exists (x ++ y). rewrite B4, A4, app_assoc. split; [reflexivity|]. apply Forall_app; auto.
  Qed.

  (** Changes which leave pairs, records and log alone, up to dull events. *)
  Lemma tame_same g w w' :
    s_pairs w' = s_pairs w -> s_awaiting w' = s_awaiting w ->
    (s_log w' = s_log w \/ exists e, s_log w' = s_log w ++ [e] /\ dull e) -> tame g w w'.
  Proof.
    intros E1 E2 E3. constructor; rewrite ?E1, ?E2; eauto.
    destruct E3 as [E3|(e & E3 & D)]; [exists []|exists [e]]; rewrite E3, ?app_nil_r; auto.
  Qed.

  Lemma tame_node_cleaned g w cl : tame g w (node_cleaned w cl).
  Proof.
    unfold node_cleaned. destruct (notify_contents _ _ _) as [m []]; apply tame_same; auto; right; eexists; split; cbn; eauto; exact I.
  Qed.

  Lemma tame_clean_nodes g sync s id nodes w : tame g w (fold_left (clean_node g sync s id) nodes w).
  Proof.
    revert w. induction nodes as [|n nodes IH]; intros w; [apply tame_refl|]. cbn.
    eapply tame_trans; [|apply IH]. unfold clean_node. destruct (sync n s); [apply tame_node_cleaned|now apply tame_same; auto].
  Qed.

  (** The nodes of a session are asked. *)
  Lemma tame_ask g sync cl s w :
    tame g w (match g_nodes g with
          | [] => set_finished w (s_finished w ++
              [{| cl_cleaner := g_self g; cl_node := g_self g; cl_session := s; cl_id := cl_id cl |}])
          | nodes =>
              fold_left (clean_node g sync s (cl_id cl)) nodes
                (set_contents w (add_cleanup (s_contents w) (cl_id cl) nodes))
          end).
  Proof.
    destruct (g_nodes g) as [|n ns]; [now apply tame_same; auto|].
    eapply tame_trans; [|apply tame_clean_nodes]. now apply tame_same; auto.
  Qed.

  Lemma tame_own g sync cl st s w :
    cl_cleaner cl = g_self g -> tame g w (fst (cleanup_session g sync cl st s w)).
  Proof.
    intros E. unfold cleanup_session. destruct (s_parent w s) as [p|]; [|apply tame_refl]. cbn [fst].
    set (w1 := set_awaiting w _). set (w2 := say w1 _).
    apply tame_trans with w1.
    { constructor; eauto.
      - intros a Ha. apply in_app_or in Ha as [Ha|[<-|[]]]; [right; eauto|now left].
      - exists []. now rewrite app_nil_r. }
    apply tame_trans with w2; [apply tame_same; auto; right; eexists; split; [reflexivity|exact I]|].
    eapply tame_trans; [apply (tame_ask g sync cl s w2)|]. now apply tame_same; auto.
  Qed.

  Lemma tame_entire g sync cl st ss w :
    cl_cleaner cl = g_self g -> tame g w (fst (cleanup_entire_scope g sync cl st ss w)).
  Proof.
    intros E. revert w. induction ss as [|s ss IH]; intros w; [apply tame_refl|]. cbn.
    pose proof (tame_own g sync cl st s w E) as T. destruct (cleanup_session g sync cl st s w) as [w' []]; cbn in *; [exact T|].
    eapply tame_trans; [exact T|apply IH].
  Qed.

  Lemma tagged_turn sel f q : tagged (turn sel f q) = tagged q.
  Proof. unfold tagged. now rewrite turn_parent, turn_scoped. Qed.

  Lemma tame_pairs g w (l : list pair) :
    map tagged l = map tagged (s_pairs w) ->
    (forall q, In q l -> marked (p_status q) ->
       exists q', In q' (s_pairs w) /\ p_parent q' = p_parent q /\ marked (p_status q')) ->
    tame g w (set_pairs w l).
  Proof. intros E H. constructor; eauto. exists []. now rewrite app_nil_r. Qed.

  Lemma marked_cancelled st : marked (fst (to_cancelled st)) -> marked st.
  Proof. intros [H|H]; destruct st; cbn in H; try discriminate; unfold marked; auto. Qed.

  Lemma tame_cancel_one g sync t c w : tame g w (fst (cancel_one g sync t c w)).
  Proof.
    unfold cancel_one. set (w1 := say w _). rewrite switch_eq.
    apply tame_trans with w1; [apply tame_same; auto; right; eexists; split; [reflexivity|exact I]|].
    eapply tame_trans; [|now apply tame_entire].
    apply tame_pairs.
    - rewrite map_map. apply map_ext. intros q. apply tagged_turn.
    - intros q Hq Hm. apply in_map_iff in Hq as (q' & <- & Hq'). exists q'. rewrite turn_parent. repeat split; auto.
      unfold turn in Hm. destruct (_ || _)%bool; [|exact Hm]. cbn in Hm. now apply marked_cancelled.
  Qed.

  Lemma tame_cancel_each g sync ss c w : tame g w (cancel_each g sync ss c w).
  Proof.
    revert w. induction ss as [|s ss IH]; intros w; [apply tame_refl|]. cbn.
    eapply tame_trans; [apply tame_cancel_one|apply IH].
  Qed.

  Lemma tame_receive_cancel g sync t c w : tame g w (receive_cancel g sync t c w).
  Proof. destruct t; [apply tame_cancel_one|apply tame_cancel_each]. Qed.

  Lemma tagged_first s st l : map tagged (set_first s st l) = map tagged l.
  Proof.
    induction l as [|q l IH]; [reflexivity|]. cbn. destruct (Nat.eqb (p_scoped q) s); cbn; [reflexivity|now rewrite IH].
  Qed.

  Lemma tame_first g w s st q :
    find (fun p => Nat.eqb (p_scoped p) s) (s_pairs w) = Some q -> (marked st -> marked (p_status q)) ->
    tame g w (set_pairs w (set_first s st (s_pairs w))).
  Proof.
    intros F Hm. apply tame_pairs; [apply tagged_first|]. intros x Hx Mx. revert F Hx.
    induction (s_pairs w) as [|y l IH]; [discriminate|]. cbn. destruct (Nat.eqb (p_scoped y) s).
    - intros [= ->] [<-|Hx]; [exists q; cbn; auto|exists x; auto].
    - intros F [<-|Hx]; [exists y; auto|]. destruct (IH F Hx) as (z & Hz & E). exists z. split; [now right|exact E].
  Qed.

  Lemma tame_validate g sync s c w : tame g w (fst (validate_unreachable g sync s c w)).
  Proof.
    unfold validate_unreachable. set (w1 := say w _).
    assert (T1 : tame g w w1) by (apply tame_same; auto; right; eexists; split; [reflexivity|exact I]).
    destruct (find _ _) as [q|] eqn:F; [|exact T1]. destruct (to_cancelled (p_status q)) as [st []] eqn:E; [|exact T1].
    eapply tame_trans; [exact T1|]. eapply tame_trans; [|now apply tame_entire].
    apply (tame_first g w1 s st q F). intros Hm. apply marked_cancelled. rewrite E. exact Hm.
  Qed.

  Lemma marked_finished st : marked (fst (to_finished st)) -> marked st.
  Proof. intros [H|H]; destruct st; cbn in H; try discriminate; unfold marked; auto. Qed.

  Lemma tame_terminal g sync w : tame g w (terminal g sync w).
  Proof.
    unfold terminal, terminate_execute. destruct (s_inputs w) as [|[s v] rest]; [apply tame_refl|].
    set (w1 := say (set_inputs w rest) _).
    assert (T1 : tame g w w1) by (apply tame_same; auto; right; eexists; split; [reflexivity|exact I]).
    assert (Hc : forall w', tame g w w' -> tame g w (set_cancels w' (s_cancels w' ++ [(None, broken_cause)]))).
    { intros w' T. eapply tame_trans; [exact T|]. now apply tame_same; auto. }
    destruct (st_get (s_staging w1) s); [exact T1|]. set (w2 := set_staging w1 _).
    assert (T2 : tame g w w2) by (eapply tame_trans; [exact T1|now apply tame_same; auto]).
    destruct (find _ _) as [q|] eqn:F; [|now apply Hc].
    destruct (to_finished (p_status q)) as [st []] eqn:E; [|exact T2].
    assert (T3 : forall cl, cl_cleaner cl = g_self g ->
      tame g w (fst (cleanup_entire_scope g sync cl FTerminated [s] (set_pairs w2 (set_first s st (s_pairs w2)))))).
    { intros cl Ecl. eapply tame_trans; [exact T2|]. eapply tame_trans; [|now apply tame_entire].
      apply (tame_first g w2 s st q F). intros Hm. apply marked_finished. rewrite E. exact Hm. }
    specialize (T3 {| cl_cleaner := g_self g; cl_node := g_self g; cl_session := s; cl_id := s |} eq_refl).
    destruct (cleanup_entire_scope _ _ _ _ _ _) as [w3 []]; [now apply Hc|exact T3].
  Qed.

  Lemma in_update_nth {A} (f : A -> A) l i x : In x (update_nth i f l) -> exists y, In y l /\ (x = y \/ x = f y).
  Proof.
    revert i. induction l as [|a l IH]; intros i H.
    - destruct i; destruct H.
    - destruct i as [|i]; cbn in H; destruct H as [<-|H].
      + exists a. split; [now left|now right].
      + exists x. split; [now right|now left].
      + exists a. split; [now left|now left].
      + destruct (IH i H) as (y & Hy & E). exists y. split; [now right|exact E].
  Qed.

  Lemma tame_record g w i f :
    (forall a, a_cleanup (f a) = a_cleanup a /\ a_parent (f a) = a_parent a) ->
    tame g w (set_awaiting w (update_nth i f (s_awaiting w))).
  Proof.
    intros Hf. constructor; eauto.
    - intros a Ha. right. cbn in Ha. apply in_update_nth in Ha as (b & Hb & [->| ->]); exists b; repeat split; auto;
        symmetry; apply Hf.
    - exists []. now rewrite app_nil_r.
  Qed.

  Lemma tame_begin_flow g i s w : tame g w (begin_flow i s w).
  Proof.
    unfold begin_flow. set (w1 := say _ _).
    apply tame_trans with w1; [apply tame_same; auto; right; eexists; split; [reflexivity|exact I]|].
    apply (tame_record g w1). intros a. split; reflexivity.
  Qed.

  Lemma tame_begin_flows g i s b w : tame g w (begin_flows g i s b w).
  Proof.
    unfold begin_flows. revert w. induction (g_begins g) as [|x l IH]; intros w; [apply tame_refl|]. cbn.
    eapply tame_trans; [|apply IH]. destruct (if b then fst x else snd x); [apply tame_begin_flow|apply tame_refl].
  Qed.

  (** ** The invariant *)

  Record told g w : Prop := {
    k_begin : forall p s, In (EBegin p s) (s_log w) ->
        In (p, s) (map tagged (s_pairs w)) \/ In (ECleaned s) (s_log w);
    k_mark : forall q, In q (s_pairs w) -> marked (p_status q) ->
        exists cl, In (ERequest cl) (s_log w) /\ cl_session cl = p_parent q;
    k_await : forall a, In a (s_awaiting w) ->
        cl_cleaner (a_cleanup a) = g_self g \/ cl_session (a_cleanup a) = a_parent a;
    k_told : notified_clean (s_log w) }.

  Lemma dull_in (l evs : list (event V)) e : Forall dull evs -> ~ dull e -> In e (l ++ evs) -> In e l.
  Proof.
    intros F H Hi. apply in_app_or in Hi as [Hi|Hi]; [exact Hi|]. rewrite Forall_forall in F. destruct (H (F e Hi)).
  Qed.

  Lemma notified_snoc (l : list (event V)) e :
    notified_clean l ->
    (forall cl, e = ENotify cl -> forall s, In (EBegin (cl_session cl) s) l -> In (ECleaned s) l) ->
    notified_clean (l ++ [e]).
  Proof.
    intros H He l1 cl l2 El. destruct (rev_case l2) as [->|(l3 & x & ->)].
    - apply app_inj_tail in El as [-> E]. now apply He.
    - change (l1 ++ ENotify cl :: l3 ++ [x]) with (l1 ++ (ENotify cl :: l3) ++ [x]) in El. rewrite app_assoc in El.
      apply app_inj_tail in El as [-> _]. now apply (H l1 cl l3).
  Qed.

  Lemma notified_dull (l evs : list (event V)) : notified_clean l -> Forall dull evs -> notified_clean (l ++ evs).
  Proof.
    intros H F. revert l H. induction F as [|e evs D F IH]; intros l H; [now rewrite app_nil_r|].
    replace (l ++ e :: evs) with ((l ++ [e]) ++ evs) by now rewrite <- app_assoc. apply IH.
    apply notified_snoc; [exact H|]. intros cl ->. destruct D.
  Qed.

  Lemma told_tame g w w' : told g w -> tame g w w' -> told g w'.
  Proof.
    intros [K1 K2 K3 K4] [T1 T2 T3 (evs & T4 & T5)]. constructor.
    - intros p s Hi. rewrite T4 in Hi. apply dull_in in Hi; [|exact T5|now intros []].
      rewrite T1. destruct (K1 p s Hi); [now left|]. right. rewrite T4. apply in_or_app. now left.
    - intros q Hq Hm. destruct (T2 q Hq Hm) as (q' & Hq' & E & Hm'). destruct (K2 q' Hq' Hm') as (cl & Hc & Ec).
      exists cl. split; [rewrite T4; apply in_or_app; now left|congruence].
    - intros a Ha. destruct (T3 a Ha) as [?|(a' & Ha' & E1 & E2)]; [now left|]. rewrite <- E1, <- E2. auto.
    - rewrite T4. now apply notified_dull.
  Qed.

  Lemma told_finalize g i w : told g w -> told g (fst (finalize_scoped_session g i w)).
  Proof.
    intros K. unfold finalize_scoped_session. destruct (nth_error (s_awaiting w) i) as [a|] eqn:En; [|exact K].
    apply nth_error_In in En. set (p := a_parent a). set (s := a_scoped a). set (cl := a_cleanup a).
    assert (Hcl : cl_cleaner cl = g_self g \/ cl_session cl = p) by now apply (k_await g w K).
    match goal with |- context [if is_early (a_status a) then w else ?x] => set (w1 := if is_early (a_status a) then w else x) end.
    assert (K1 : told g w1).
    { unfold w1. destruct (is_early (a_status a)); [exact K|].
      assert (K0 : told g (match remove_nth i (s_awaiting w) with Some (_, l) => set_awaiting w l | None => w end)).
      { destruct (remove_nth i (s_awaiting w)) as [[x l]|] eqn:Er; [|exact K].
        eapply told_tame; [exact K|]. constructor; eauto.
        - intros b Hb. right. exists b. repeat split; auto. cbn in Hb.
          assert (Hp : forall (r : list await) j y l', remove_nth j r = Some (y, l') -> In b l' -> In b r).
          { clear. induction r as [|z r IH]; intros j y l' E Hb; [destruct j; discriminate|]. destruct j as [|j]; cbn in E.
            - injection E as <- <-. now right.
            - destruct (remove_nth j r) as [[y' r']|] eqn:E'; [|discriminate]. injection E as <- <-.
              destruct Hb as [<-|Hb]; [now left|right; eauto]. }
          eapply Hp; eauto.
        - exists []. now rewrite app_nil_r. }
      destruct (a_status a); [exact K0|exact K0|].
      eapply told_tame; [exact K0|]. apply tame_same; auto. right. eexists. split; [reflexivity|exact I]. }
    clearbody w1. cbv zeta.
    set (cond := (existsb _ _ && _ && negb (existsb (fun q => Nat.eqb (p_parent q) p) (s_pairs w1)))%bool).
    set (w2 := if cond then _ else w1).
    assert (K2 : told g w2).
    { unfold w2. destruct cond eqn:Ec; [|exact K1]. unfold cond in Ec.
      apply Bool.andb_true_iff in Ec as [_ Ec]. apply Bool.negb_true_iff in Ec.
      set (w3 := set_awaiting w1 _).
      assert (K3 : told g w3).
      { eapply told_tame; [exact K1|]. constructor; eauto.
        - intros b Hb. right. exists b. cbn in Hb. apply filter_In in Hb as [Hb _]. auto.
        - exists []. now rewrite app_nil_r. }
      unfold notify_cleaned. destruct (Nat.eqb_spec (cl_cleaner cl) (g_self g)) as [E|E].
      - destruct (notify_contents _ _ _) as [m []]; (eapply told_tame; [exact K3|]); now apply tame_same; auto.
      - destruct Hcl as [Hcl|Hcl]; [contradiction|].
        assert (Hcov : forall s', In (EBegin p s') (s_log w1) -> In (ECleaned s') (s_log w1)).
        { intros s' Hi. destruct (k_begin g w1 K1 p s' Hi) as [Hp|Hc]; [|exact Hc]. exfalso.
          apply in_map_iff in Hp as (q & Eq & Hq). apply Bool.not_true_iff_false in Ec. apply Ec. apply existsb_exists.
          exists q. split; [exact Hq|]. injection Eq as Ep _. now apply Nat.eqb_eq. }
        destruct K3 as [A B C D]. constructor; cbn.
        + intros p' s' Hi. apply in_app_or in Hi as [Hi|[[=]|[]]]. destruct (A p' s' Hi); [now left|right; apply in_or_app; now left].
        + intros q Hq Hm. destruct (B q Hq Hm) as (c & Hc & Ep). exists c. split; [apply in_or_app; now left|exact Ep].
        + exact C.
        + apply notified_snoc; [exact D|]. intros c [= <-]. rewrite Hcl. exact Hcov. }
    clearbody w2. clear K1.
    assert (HD : forall w3, told g w3 -> s_pairs w3 = s_pairs w3 -> told g (say (set_parent w3 (emap_set (s_parent w3) s None)) (EEnd s))).
    { intros w3 K3 _. eapply told_tame; [exact K3|]. apply tame_same; auto. right. eexists. split; [reflexivity|exact I]. }
    destruct (is_terminated (a_status a)).
    - destruct (st_get (s_staging w2) s) as [v|]; [|exact K2]. cbn [fst]. apply HD; [|reflexivity].
      eapply told_tame; [exact K2|]. apply tame_same; auto. right. eexists. split; [reflexivity|exact I].
    - cbn [fst]. apply HD; [|reflexivity]. eapply told_tame; [exact K2|]. now apply tame_same; auto.
  Qed.

  Lemma told_check g s w : told g w -> told g (fst (check_awaiting_session g s w)).
  Proof.
    intros K. unfold check_awaiting_session. destruct (position _ _) as [i|]; [|exact K].
    destruct (nth_error _ _); [|exact K]. destruct (flows_done _); [now apply told_finalize|exact K].
  Qed.

  Lemma told_trigger g w : told g w -> told g (trigger g w).
  Proof.
    intros K. unfold trigger. destruct (pop_last (s_finished w)) as [rest [cl|]]; [|exact K].
    unfold begin_cleanup_workflows. set (s := cl_session cl). set (w1 := say _ _). set (w2 := set_pairs w1 _).
    assert (K2 : told g w2).
    { destruct K as [A B C D]. constructor; cbn.
      - intros p s' Hi. apply in_app_or in Hi as [Hi|[[=]|[]]].
        destruct (Nat.eq_dec s' s) as [->|Ne]; [right; apply in_or_app; right; now left|].
        destruct (A p s' Hi) as [Hp|Hc]; [left|right; apply in_or_app; now left].
        apply in_map_iff in Hp as (q & Eq & Hq). apply in_map_iff. exists q. split; [exact Eq|].
        apply filter_In. split; [exact Hq|]. injection Eq as _ Es. apply Bool.negb_true_iff, Nat.eqb_neq. congruence.
      - intros q Hq Hm. apply filter_In in Hq as [Hq _]. destruct (B q Hq Hm) as (c & Hc & E). exists c. split; [apply in_or_app; now left|exact E].
      - exact C.
      - apply notified_snoc; [exact D|discriminate]. }
    clearbody w2. destruct (position _ _) as [i|]; [|exact K2]. apply told_check.
    eapply told_tame; [exact K2|]. eapply tame_trans; [|apply tame_begin_flows].
    apply tame_record. intros a. split; reflexivity.
  Qed.

  Lemma told_deduct g f inner w : told g w -> told g (fst (deduct g f inner w)).
  Proof.
    intros K. unfold deduct. destruct (position _ _) as [i|]; [|exact K].
    set (w1 := set_awaiting w _). set (w2 := set_awaiting w1 _).
    assert (K2 : told g w2).
    { eapply told_tame; [exact K|]. apply tame_trans with w1.
      - apply tame_record. intros a. destruct (a_status a); [split; reflexivity|split; reflexivity|].
        destruct inner; split; reflexivity.
      - apply tame_record. intros a. split; reflexivity. }
    clearbody w2. destruct (nth_error _ _); [|exact K2]. destruct (flows_done _); [now apply told_finalize|exact K2].
  Qed.

  Lemma told_begin g sync p st w : told g w -> told g (begin_scope g sync p st w).
  Proof.
    intros K. set (w1 := begin_scope g sync p SOk w).
    assert (K1 : told g w1).
    { destruct K as [A B C D]. constructor; cbn.
      - intros p' s Hi. rewrite map_app. apply in_app_or in Hi as [Hi|[[= <- <-]|[]]].
        + destruct (A p' s Hi); [left; apply in_or_app; now left|right; apply in_or_app; now left].
        + left. apply in_or_app. right. now left.
      - intros q Hq Hm. apply in_app_or in Hq as [Hq|[<-|[]]].
        + destruct (B q Hq Hm) as (c & Hc & E). exists c. split; [apply in_or_app; now left|exact E].
        + destruct Hm as [Hm|Hm]; discriminate.
      - exact C.
      - apply notified_snoc; [exact D|discriminate]. }
    destruct st; [exact K1| |].
    - change (told g (fst (cancel_one g sync (s_next w) c w1))). eapply told_tame; [exact K1|apply tame_cancel_one].
    - change (told g (fst (validate_unreachable g sync (s_next w) c w1))). eapply told_tame; [exact K1|apply tame_validate].
  Qed.

  (** A cleanup for the parent. *)
  Lemma told_session g sync cl st s w :
    told g w -> (forall p, s_parent w s = Some p -> cl_session cl = p) ->
    told g (fst (cleanup_session g sync cl st s w)).
  Proof.
    intros K Hp. unfold cleanup_session. destruct (s_parent w s) as [p|]; [|exact K]. cbn [fst].
    set (w1 := set_awaiting w _). set (w2 := say w1 _).
    assert (K1 : told g w1).
    { destruct K as [A B C D]. constructor; auto. cbn. intros a Ha. apply in_app_or in Ha as [Ha|[<-|[]]]; auto. }
    assert (K2 : told g w2).
    { eapply told_tame; [exact K1|]. apply tame_same; auto. right. eexists. split; [reflexivity|exact I]. }
    eapply told_tame; [exact K2|]. eapply tame_trans; [apply (tame_ask g sync cl s w2)|]. now apply tame_same; auto.
  Qed.

  Lemma fold_parent g sync s id l w : s_parent (fold_left (clean_node g sync s id) l w) = s_parent w.
  Proof.
    revert w. induction l as [|x l IH]; intros w0; [reflexivity|]. cbn. rewrite IH. unfold clean_node, node_cleaned.
    destruct (sync x s); [|reflexivity]. destruct (notify_contents _ _ _) as [m []]; reflexivity.
  Qed.

  Lemma ask_parent g sync cl s w :
    s_parent (match g_nodes g with
          | [] => set_finished w (s_finished w ++
              [{| cl_cleaner := g_self g; cl_node := g_self g; cl_session := s; cl_id := cl_id cl |}])
          | nodes =>
              fold_left (clean_node g sync s (cl_id cl)) nodes
                (set_contents w (add_cleanup (s_contents w) (cl_id cl) nodes))
          end) = s_parent w.
  Proof.
    destruct (g_nodes g) as [|n ns]; [reflexivity|].
    cbv zeta. now rewrite fold_parent.
  Qed.

  Lemma session_parent g sync cl st s w : s_parent (fst (cleanup_session g sync cl st s w)) = s_parent w.
  Proof.
    unfold cleanup_session. destruct (s_parent w s); [|reflexivity]. cbn [fst].
    exact (ask_parent g sync cl s _).
  Qed.

  Lemma told_entire g sync cl st ss w :
    told g w -> (forall s p, In s ss -> s_parent w s = Some p -> cl_session cl = p) ->
    told g (fst (cleanup_entire_scope g sync cl st ss w)).
  Proof.
    revert w. induction ss as [|s ss IH]; intros w K Hp; [exact K|]. cbn.
    pose proof (told_session g sync cl st s w K (fun p => Hp s p (or_introl eq_refl))) as K1.
    pose proof (session_parent g sync cl st s w) as E.
    destruct (cleanup_session g sync cl st s w) as [w' []]; cbn in *; [exact K1|].
    apply IH; [exact K1|]. intros s' p Hs. rewrite E. apply Hp. now right.
  Qed.

  Lemma told_clean g sync cl w :
    Inv w -> told g w -> g_unint g = false ->
    (forall cl', In (ERequest cl') (s_log w) -> cl_session cl' <> cl_session cl) ->
    told g (fst (dyn_cleanup g sync cl w)).
  Proof.
    intros H K Hu Hone. unfold dyn_cleanup. rewrite switch_eq, Hu. cbn [fst snd].
    set (sel := fun p => Nat.eqb (p_parent p) (cl_session cl)).
    set (w1 := set_pairs (say w (ERequest cl)) _).
    assert (K1 : told g w1).
    { destruct K as [A B C D]. constructor; cbn.
      - intros p s Hi. apply in_app_or in Hi as [Hi|[[=]|[]]]. rewrite map_map.
        rewrite (map_ext (fun x => tagged (turn sel (to_cleanup false) x)) tagged) by (intros; apply tagged_turn).
        destruct (A p s Hi); [now left|right; apply in_or_app; now left].
      - intros q Hq Hm. apply in_map_iff in Hq as (q' & <- & Hq'). unfold turn in *. rewrite turn_parent || idtac.
        destruct (sel q') eqn:Es.
        + exists cl. split; [apply in_or_app; right; now left|]. cbn. unfold sel in Es. apply Nat.eqb_eq in Es. congruence.
        + destruct (B q' Hq' Hm) as (c & Hc & E). exists c. split; [apply in_or_app; now left|exact E].
      - exact C.
      - apply notified_snoc; [exact D|discriminate]. }
    assert (Hturn : forall q, In q (s_pairs w) -> sel q = true -> turned sel (to_cleanup false) q = true).
    { intros q Hq Es. unfold turned. rewrite Es. cbn. destruct (p_status q) eqn:E; try reflexivity.
      exfalso. destruct (k_mark g w K q Hq) as (c & Hc & Ec); [rewrite E; now left|].
      apply (Hone c Hc). unfold sel in Es. apply Nat.eqb_eq in Es. congruence. }
    change (s_pairs (say w (ERequest cl))) with (s_pairs w).
    destruct (map p_scoped (filter (turned sel (to_cleanup false)) (s_pairs w))) as [|s0 ss] eqn:Ess.
    - assert (Hnone : forall q, In q (s_pairs w) -> p_parent q <> cl_session cl).
      { intros q Hq Ep. assert (sel q = true) as Es by now apply Nat.eqb_eq.
        assert (In (p_scoped q) []) as []. rewrite <- Ess. apply in_map, filter_In. split; [exact Hq|now apply Hturn]. }
      cbn [fst]. unfold notify_cleaned. destruct (Nat.eqb_spec (cl_cleaner cl) (g_self g)) as [E|E].
      + destruct (notify_contents _ _ _) as [m []]; (eapply told_tame; [exact K1|]); now apply tame_same; auto.
      + assert (Hcov : forall s', In (EBegin (cl_session cl) s') (s_log w1) -> In (ECleaned s') (s_log w1)).
        { intros s' Hi. destruct (k_begin g w1 K1 _ s' Hi) as [Hp|Hc]; [|exact Hc]. exfalso.
          cbn in Hp. rewrite map_map in Hp. apply in_map_iff in Hp as (q & Eq & Hq). rewrite tagged_turn in Eq.
          apply (Hnone q Hq). now injection Eq. }
        destruct K1 as [A B C D]. constructor; cbn [s_log s_pairs s_awaiting say set_log].
        * intros p' s' Hi. apply in_app_or in Hi as [Hi|[[=]|[]]]. destruct (A p' s' Hi); [now left|right; apply in_or_app; now left].
        * intros q Hq Hm. destruct (B q Hq Hm) as (c & Hc & Ep). exists c. split; [apply in_or_app; now left|exact Ep].
        * exact C.
        * apply notified_snoc; [exact D|]. intros c [= <-]. exact Hcov.
    - apply told_entire; [exact K1|]. intros s p Hs Hp. cbn in Hp. rewrite <- Ess in Hs.
      apply in_map_iff in Hs as (q & <- & Hq). apply filter_In in Hq as [Hq Ht].
      unfold turned in Ht. apply Bool.andb_true_iff in Ht as [Es _]. unfold sel in Es. apply Nat.eqb_eq in Es.
      rewrite <- Es. pose proof (i_good w H (p_scoped q)) as Gs.
      apply (g_single _ _ _ _ _ _ _ Gs); [|now apply (g_ppar _ _ _ _ _ _ _ Gs)].
      apply (g_ppairs _ _ _ _ _ _ _ Gs). apply filter_In. split; [exact Hq|apply Nat.eqb_refl].
  Qed.

  (** ** All runs *)

  Definition grows w w' := exists evs, s_log w' = s_log w ++ evs.

  Lemma grows_refl w : grows w w.
  Proof. exists []. now rewrite app_nil_r. Qed.

  Lemma grows_trans w1 w2 w3 : grows w1 w2 -> grows w2 w3 -> grows w1 w3.
  Proof. intros [x E] [y F]. exists (x ++ y). rewrite F, E. now rewrite app_assoc. Qed.

  Lemma grows_say w e : grows w (say w e).
  Proof. now exists [e]. Qed.

  Lemma grows_tame g w w' : tame g w w' -> grows w w'.
  Proof. intros [_ _ _ (evs & E & _)]. now exists evs. Qed.

  Lemma grows_same w w' : s_log w' = s_log w -> grows w w'.
  Proof. intros E. exists []. now rewrite app_nil_r. Qed.

  Lemma grows_notify g w cl : grows w (notify_cleaned g w cl).
  Proof.
    unfold notify_cleaned. destruct (Nat.eqb _ _); [|apply grows_say].
    destruct (notify_contents _ _ _) as [m []]; now apply grows_same.
  Qed.

  Lemma grows_finalize g i w : grows w (fst (finalize_scoped_session g i w)).
  Proof.
    unfold finalize_scoped_session. destruct (nth_error _ _) as [a|]; [|apply grows_refl].
    match goal with |- context [if is_early (a_status a) then w else ?x] => set (w1 := if is_early (a_status a) then w else x) end.
    assert (G1 : grows w w1).
    { unfold w1. destruct (is_early (a_status a)); [apply grows_refl|].
      apply grows_trans with (match remove_nth i (s_awaiting w) with Some (_, l) => set_awaiting w l | None => w end).
      - destruct (remove_nth _ _) as [[? ?]|]; now apply grows_same.
      - destruct (a_status a); try apply grows_refl. apply grows_say. }
    clearbody w1. cbv zeta. set (cond := (_ && _ && _)%bool). set (w2 := if cond then _ else w1).
    assert (G2 : grows w w2).
    { unfold w2. destruct cond; [|exact G1]. eapply grows_trans; [exact G1|]. eapply grows_trans; [|apply grows_notify]. now apply grows_same. }
    clearbody w2. destruct (is_terminated (a_status a)).
    - destruct (st_get _ _) as [v|]; [|exact G2]. cbn [fst]. eapply grows_trans; [exact G2|].
      eexists. cbn. rewrite <- app_assoc. reflexivity.
    - cbn [fst]. eapply grows_trans; [exact G2|]. eexists. reflexivity.
  Qed.

  Lemma grows_check g s w : grows w (fst (check_awaiting_session g s w)).
  Proof.
    unfold check_awaiting_session. destruct (position _ _); [|apply grows_refl].
    destruct (nth_error _ _); [|apply grows_refl]. destruct (flows_done _); [apply grows_finalize|apply grows_refl].
  Qed.

  Lemma grows_entire g sync cl st ss w : grows w (fst (cleanup_entire_scope g sync cl st ss w)).
  Proof.
    revert w. induction ss as [|s ss IH]; intros w; [apply grows_refl|]. cbn.
    assert (G : grows w (fst (cleanup_session g sync cl st s w))).
    { unfold cleanup_session. destruct (s_parent w s); [|apply grows_refl]. cbn [fst].
      set (w1 := set_awaiting w _). set (w2 := say w1 _).
      apply grows_trans with w2; [now exists [EClean s (cl_id cl)]|].
      destruct (grows_tame g _ _ (tame_ask g sync cl s w2)) as [evs E]. exists evs. exact E. }
    destruct (cleanup_session g sync cl st s w) as [w' []]; cbn in *; [exact G|]. eapply grows_trans; [exact G|apply IH].
  Qed.

  Lemma grows_step g w a : grows w (step g w a).
  Proof.
    destruct a; cbn [step].
    - apply grows_trans with (begin_scope g sync p SOk w); [now exists [EBegin p (s_next w)]|].
      destruct st; [apply grows_refl| |].
      + eapply grows_tame. apply tame_cancel_one.
      + eapply grows_tame. apply tame_validate.
    - unfold arrive. destruct (s_active w s); now apply grows_same.
    - eapply (grows_tame g), tame_terminal.
    - now apply grows_same.
    - unfold trigger_cancel. destruct (s_cancels w) as [|[t c] rest]; [apply grows_refl|].
      eapply grows_trans; [|eapply (grows_tame g), tame_receive_cancel]. now apply grows_same.
    - eapply (grows_tame g), tame_validate.
    - unfold dyn_cleanup. rewrite switch_eq.
      eapply grows_trans; [apply (grows_say w (ERequest cl))|]. destruct (map _ _).
      + cbn [fst]. eapply grows_trans; [|apply grows_notify]. now apply grows_same.
      + eapply grows_trans; [|apply grows_entire]. now apply grows_same.
    - destruct (take_asked _ _); [|apply grows_refl]. eapply grows_trans; [|eapply (grows_tame g), tame_node_cleaned]. now apply grows_same.
    - unfold trigger. destruct (pop_last _) as [rest [cl|]]; [|apply grows_refl].
      unfold begin_cleanup_workflows. set (w1 := say _ _).
      apply grows_trans with w1; [now exists [ECleaned (cl_session cl)]|].
      destruct (position _ _) as [i|]; [|now apply grows_same].
      match goal with |- context [begin_flows g i ?s ?b ?w2] => apply grows_trans with (begin_flows g i s b w2);
        [apply grows_trans with w2; [now apply grows_same|eapply (grows_tame g), tame_begin_flows]|] end.
      apply grows_check.
    - destruct (existsb _ _); [|apply grows_refl]. set (w1 := say _ _).
      apply grows_trans with w1; [now exists [EFlowEnd f]|].
      unfold deduct. destruct (position _ _) as [i|]; [|apply grows_refl].
      match goal with |- context [nth_error (s_awaiting ?x) i] => set (w2 := x) end.
      apply grows_trans with w2; [now apply grows_same|].
      destruct (nth_error _ _); [|apply grows_refl].
      destruct (flows_done _); [apply grows_finalize|apply grows_refl].
  Qed.

  Lemma told_step g w a :
    Inv w -> told g w -> g_unint g = false -> asks_once (s_log (step g w a)) -> told g (step g w a).
  Proof.
    intros H K Hu Ho. destruct a; cbn [step] in *.
    - now apply told_begin.
    - unfold arrive. destruct (s_active w s); [|exact K]. eapply told_tame; [exact K|]. now apply tame_same; auto.
    - eapply told_tame; [exact K|apply tame_terminal].
    - eapply told_tame; [exact K|]. now apply tame_same; auto.
    - unfold trigger_cancel. destruct (s_cancels w) as [|[t c] rest]; [exact K|].
      eapply told_tame; [exact K|]. eapply tame_trans; [|apply tame_receive_cancel]. now apply tame_same; auto.
    - eapply told_tame; [exact K|apply tame_validate].
    - apply told_clean; auto. intros cl' Hi.
      assert (G : exists evs, s_log (fst (dyn_cleanup g sync cl w)) = s_log w ++ ERequest cl :: evs).
      { unfold dyn_cleanup. rewrite switch_eq. destruct (map _ _).
        - cbn [fst]. match goal with |- context [notify_cleaned g ?x cl] => destruct (grows_notify g x cl) as [evs E] end.
          exists evs. rewrite E. cbn. now rewrite <- app_assoc.
        - match goal with |- context [cleanup_entire_scope g sync cl FEarly ?l ?x] => destruct (grows_entire g sync cl FEarly l x) as [evs E] end.
          exists evs. rewrite E. cbn. now rewrite <- app_assoc. }
      destruct G as [evs E]. exact (Ho (s_log w) cl evs E cl' Hi).
    - destruct (take_asked _ _); [|exact K]. eapply told_tame; [exact K|]. eapply tame_trans; [|apply tame_node_cleaned]. now apply tame_same; auto.
    - now apply told_trigger.
    - destruct (existsb _ _); [|exact K]. apply told_deduct. eapply told_tame; [exact K|].
      apply tame_same; auto. right. eexists. split; [reflexivity|exact I].
  Qed.

  Lemma told_fresh g base : told g (fresh_scope (V := V) base).
  Proof.
    constructor; cbn; try contradiction; try (intros; contradiction).
    intros l1 cl l2 E. destruct l1; discriminate.
  Qed.

  Lemma asks_once_app (l l' : list (event V)) : asks_once (l ++ l') -> asks_once l.
  Proof.
    intros H l1 cl l2 ->. apply (H l1 cl (l2 ++ l')). now rewrite <- app_assoc.
  Qed.

  Lemma allowed_interruptible g (acts : list (action V)) : g_unint g = false -> Forall (allowed g) acts.
  Proof. intros H. apply Forall_forall. intros [] _; cbn; auto. Qed.

  Lemma notify_covers g base (acts : list (action V)) :
    g_unint g = false -> asks_once (s_log (run g base acts)) -> notified_clean (s_log (run g base acts)).
  Proof.
    intros Hu Ho. apply (k_told g). revert Ho. induction acts as [|a acts IH] using rev_ind; intros Ho.
    - apply told_fresh.
    - unfold run in *. rewrite fold_left_app in *. cbn in *. apply told_step; auto.
      + apply (inv_run g base acts). now apply allowed_interruptible.
      + apply IH. destruct (grows_step g (fold_left (step g) acts (fresh_scope base)) a) as [evs E].
        rewrite E in Ho. now apply asks_once_app in Ho.
  Qed.
End Parent.

(** ** Uninterruptible scopes *)
Section Uninterruptible.
  Context {V : Type}.
  Implicit Types (w : sstate V).

  Record caused w : Prop := {
    u_pairs : forall q, In q (s_pairs w) -> In (EBegin (p_parent q) (p_scoped q)) (s_log w);
    u_clean : cleaned_ended (s_log w) }.

  Lemma cleaned_snoc (l : list (event V)) e :
    cleaned_ended l -> (forall s id, e = EClean s id -> ended s l) -> cleaned_ended (l ++ [e]).
  Proof.
    intros H He l1 s id l2 El. destruct (rev_case l2) as [->|(l3 & x & ->)].
    - apply app_inj_tail in El as [-> E]. now apply (He s id).
    - change (l1 ++ EClean s id :: l3 ++ [x]) with (l1 ++ (EClean s id :: l3) ++ [x]) in El. rewrite app_assoc in El.
      apply app_inj_tail in El as [-> _]. now apply (H l1 s id l3).
  Qed.

  Lemma caused_say w e : caused w -> (forall s id, e <> EClean s id) -> caused (say w e).
  Proof.
    intros [A B] H. constructor; cbn.
    - intros q Hq. apply in_or_app. left. auto.
    - apply cleaned_snoc; [exact B|]. intros s id E. now destruct (H s id).
  Qed.

  Lemma caused_same w w' :
    caused w -> (forall q, In q (s_pairs w') -> exists q', In q' (s_pairs w) /\ tagged q' = tagged q) ->
    s_log w' = s_log w -> caused w'.
  Proof.
    intros [A B] Hp El. constructor; rewrite El; auto. intros q Hq. destruct (Hp q Hq) as (q' & Hq' & E).
    injection E as <- <-. auto.
  Qed.

  Lemma caused_quiet w w' : caused w -> s_pairs w' = s_pairs w -> s_log w' = s_log w -> caused w'.
  Proof. intros C E1 E2. apply (caused_same w); auto. rewrite E1. eauto. Qed.

  Lemma caused_node w cl : caused w -> caused (node_cleaned w cl).
  Proof.
    intros C. unfold node_cleaned. set (w1 := say w _).
    assert (C1 : caused w1) by (apply caused_say; [exact C|discriminate]).
    destruct (notify_contents _ _ _) as [m []]; now apply (caused_quiet w1).
  Qed.

  Lemma caused_nodes g sync s id nodes w : caused w -> caused (fold_left (clean_node g sync s id) nodes w).
  Proof.
    revert w. induction nodes as [|n nodes IH]; intros w C; [exact C|]. cbn. apply IH. unfold clean_node.
    destruct (sync n s); [now apply caused_node|]. now apply (caused_quiet w).
  Qed.

  Lemma ended_app s (l l' : list (event V)) : ended s l -> ended s (l ++ l').
  Proof.
    intros [(v & H)|[(c & H)|(t & c & H & H')]]; [left; exists v|right; left; exists c|right; right; exists t, c].
    - apply in_or_app. now left.
    - apply in_or_app. now left.
    - split; [apply in_or_app; now left|]. destruct H' as [H'|H']; [now left|right; apply in_or_app; now left].
  Qed.

  Lemma caused_session g sync cl st s w :
    caused w -> ended s (s_log w) -> caused (fst (cleanup_session g sync cl st s w)).
  Proof.
    intros C H. unfold cleanup_session. destruct (s_parent w s) as [p|]; [|exact C]. cbn [fst].
    set (w1 := set_awaiting w _). set (w2 := say w1 _).
    assert (C2 : caused w2).
    { destruct C as [A B]. constructor; cbn.
      - intros q Hq. apply in_or_app. left. auto.
      - apply cleaned_snoc; [exact B|]. intros s' id [= <- _]. exact H. }
    match goal with |- caused (set_active ?x _) => apply (caused_quiet x); [|reflexivity|reflexivity] end.
    destruct (g_nodes g) as [|n ns]; [now apply (caused_quiet w2)|]. apply caused_nodes. now apply (caused_quiet w2).
  Qed.

  Lemma caused_entire g sync cl st ss w :
    caused w -> (forall s, In s ss -> ended s (s_log w)) -> caused (fst (cleanup_entire_scope g sync cl st ss w)).
  Proof.
    revert w. induction ss as [|s ss IH]; intros w C H; [exact C|]. cbn.
    pose proof (caused_session g sync cl st s w C (H s (or_introl eq_refl))) as C1.
    pose proof (grows_entire g sync cl st [s] w) as [evs G]. cbn in G.
    destruct (cleanup_session g sync cl st s w) as [w' []]; cbn in *; [exact C1|].
    apply IH; [exact C1|]. intros s' Hs. rewrite G. apply ended_app. apply H. now right.
  Qed.

  Lemma caused_cancel_one g sync t c w : caused w -> caused (fst (cancel_one g sync t c w)).
  Proof.
    intros C. unfold cancel_one. rewrite switch_eq. set (w1 := say w _). set (w2 := set_pairs w1 _).
    assert (C1 : caused w1) by (apply caused_say; [exact C|discriminate]).
    assert (C2 : caused w2).
    { apply (caused_same w1); [exact C1| |reflexivity]. intros q Hq. apply in_map_iff in Hq as (q' & <- & Hq').
      exists q'. rewrite tagged_turn. auto. }
    apply caused_entire; [exact C2|]. intros s Hs. apply in_map_iff in Hs as (q & <- & Hq). apply filter_In in Hq as [Hq Ht].
    right. right. exists t, c. split; [cbn; apply in_or_app; right; now left|].
    unfold turned in Ht. apply Bool.andb_true_iff in Ht as [Ht _]. apply Bool.orb_true_iff in Ht as [Ht|Ht]; apply Nat.eqb_eq in Ht.
    - now left.
    - right. pose proof (u_pairs w1 C1 q Hq) as X. rewrite Ht in X. exact X.
  Qed.

  Lemma caused_cancel_each g sync ss c w : caused w -> caused (cancel_each g sync ss c w).
  Proof. revert w. induction ss as [|s ss IH]; intros w C; [exact C|]. cbn. apply IH. now apply caused_cancel_one. Qed.

  Lemma caused_first w s st : caused w -> caused (set_pairs w (set_first s st (s_pairs w))).
  Proof.
    intros C. apply (caused_same w); [exact C| |reflexivity]. cbn. intros q Hq.
    assert (In (tagged q) (map tagged (s_pairs w))) as Hi by (rewrite <- (tagged_first s st); now apply in_map).
    apply in_map_iff in Hi as (q' & E & Hq'). eauto.
  Qed.

  Lemma caused_validate g sync s c w : caused w -> caused (fst (validate_unreachable g sync s c w)).
  Proof.
    intros C. unfold validate_unreachable. set (w1 := say w _).
    assert (C1 : caused w1) by (apply caused_say; [exact C|discriminate]).
    destruct (find _ _) as [q|]; [|exact C1]. destruct (to_cancelled _) as [st []]; [|exact C1].
    apply caused_entire; [now apply caused_first|]. intros s' [<-|[]]. right. left. exists c. cbn. apply in_or_app. right. now left.
  Qed.

  Lemma caused_terminal g sync w : caused w -> caused (terminal g sync w).
  Proof.
    intros C. unfold terminal, terminate_execute. destruct (s_inputs w) as [|[s v] rest]; [exact C|].
    set (w1 := say (set_inputs w rest) _).
    assert (C1 : caused w1) by (apply caused_say; [now apply (caused_quiet w)|discriminate]).
    assert (Hc : forall w', caused w' -> caused (set_cancels w' (s_cancels w' ++ [(None, broken_cause)]))).
    { intros w' T. now apply (caused_quiet w'). }
    destruct (st_get (s_staging w1) s); [exact C1|]. set (w2 := set_staging w1 _).
    assert (C2 : caused w2) by now apply (caused_quiet w1).
    destruct (find _ _) as [q|]; [|now apply Hc].
    destruct (to_finished (p_status q)) as [st []]; [|exact C2].
    assert (C3 : forall cl, caused (fst (cleanup_entire_scope g sync cl FTerminated [s] (set_pairs w2 (set_first s st (s_pairs w2)))))).
    { intros cl. apply caused_entire; [now apply caused_first|]. intros s' [<-|[]]. left. exists v. cbn. apply in_or_app. right. now left. }
    specialize (C3 {| cl_cleaner := g_self g; cl_node := g_self g; cl_session := s; cl_id := s |}).
    destruct (cleanup_entire_scope _ _ _ _ _ _) as [w3 []]; [now apply Hc|exact C3].
  Qed.

  Lemma caused_begin g sync p st w : caused w -> caused (begin_scope g sync p st w).
  Proof.
    intros C. set (w1 := begin_scope g sync p SOk w).
    assert (C1 : caused w1).
    { destruct C as [A B]. constructor; cbn.
      - intros q Hq. apply in_app_or in Hq as [Hq|[<-|[]]]; apply in_or_app; [left; auto|right; now left].
      - apply cleaned_snoc; [exact B|discriminate]. }
    destruct st; [exact C1| |].
    - change (caused (fst (cancel_one g sync (s_next w) c w1))). now apply caused_cancel_one.
    - change (caused (fst (validate_unreachable g sync (s_next w) c w1))). now apply caused_validate.
  Qed.

  Lemma caused_notify g w cl : caused w -> caused (notify_cleaned g w cl).
  Proof.
    intros C. unfold notify_cleaned. destruct (Nat.eqb _ _); [|apply caused_say; [exact C|discriminate]].
    destruct (notify_contents _ _ _) as [m []]; now apply (caused_quiet w).
  Qed.

  Lemma caused_finalize g i w : caused w -> caused (fst (finalize_scoped_session g i w)).
  Proof.
    intros C. unfold finalize_scoped_session. destruct (nth_error _ _) as [a|]; [|exact C].
    match goal with |- context [if is_early (a_status a) then w else ?x] => set (w1 := if is_early (a_status a) then w else x) end.
    assert (C1 : caused w1).
    { unfold w1. destruct (is_early (a_status a)); [exact C|].
      assert (C0 : caused (match remove_nth i (s_awaiting w) with Some (_, l) => set_awaiting w l | None => w end)).
      { destruct (remove_nth _ _) as [[? ?]|]; [now apply (caused_quiet w)|exact C]. }
      destruct (a_status a); [exact C0|exact C0|]. apply caused_say; [exact C0|discriminate]. }
    clearbody w1. cbv zeta. set (cond := (_ && _ && _)%bool). set (w2 := if cond then _ else w1).
    assert (C2 : caused w2).
    { unfold w2. destruct cond; [|exact C1]. apply caused_notify. now apply (caused_quiet w1). }
    clearbody w2. destruct (is_terminated (a_status a)).
    - destruct (st_get _ _) as [v|]; [|exact C2]. cbn [fst]. apply caused_say; [|discriminate].
      match goal with |- caused (set_parent ?x _) => apply (caused_quiet x); [|reflexivity|reflexivity] end.
      apply caused_say; [now apply (caused_quiet w2)|discriminate].
    - cbn [fst]. apply caused_say; [|discriminate]. now apply (caused_quiet w2).
  Qed.

  Lemma caused_check g s w : caused w -> caused (fst (check_awaiting_session g s w)).
  Proof.
    intros C. unfold check_awaiting_session. destruct (position _ _); [|exact C].
    destruct (nth_error _ _); [|exact C]. destruct (flows_done _); [now apply caused_finalize|exact C].
  Qed.

  Lemma caused_begin_flows g i s b w : caused w -> caused (begin_flows g i s b w).
  Proof.
    unfold begin_flows. revert w. induction (g_begins g) as [|x l IH]; intros w C; [exact C|]. cbn. apply IH.
    destruct (if b then fst x else snd x); [|exact C]. unfold begin_flow.
    match goal with |- caused (set_awaiting ?x _) => apply (caused_quiet x); [|reflexivity|reflexivity] end.
    apply caused_say; [now apply (caused_quiet w)|discriminate].
  Qed.

  Lemma caused_step g w a : g_unint g = true -> caused w -> caused (step g w a).
  Proof.
    intros Hu C. destruct a; cbn [step].
    - now apply caused_begin.
    - unfold arrive. destruct (s_active w s); [now apply (caused_quiet w)|exact C].
    - now apply caused_terminal.
    - now apply (caused_quiet w).
    - unfold trigger_cancel. destruct (s_cancels w) as [|[t c] rest]; [exact C|].
      destruct t; cbn; [apply caused_cancel_one|apply caused_cancel_each]; now apply (caused_quiet w).
    - now apply caused_validate.
    - unfold dyn_cleanup. rewrite switch_eq, Hu. set (w1 := say w _). set (sel := fun p : pair => _).
      assert (C1 : caused w1) by (apply caused_say; [exact C|discriminate]).
      assert (E : filter (turned sel (to_cleanup true)) (s_pairs w1) = []).
      { apply filter_none. apply forallb_forall. intros q _. unfold turned. destruct (p_status q); cbn; now rewrite Bool.andb_false_r. }
      rewrite E. cbn [map fst]. apply caused_notify. apply (caused_same w1); [exact C1| |reflexivity].
      intros q Hq. apply in_map_iff in Hq as (q' & <- & Hq'). exists q'. rewrite tagged_turn. auto.
    - destruct (take_asked _ _); [|exact C]. apply caused_node. now apply (caused_quiet w).
    - unfold trigger. destruct (pop_last _) as [rest [cl|]]; [|exact C].
      unfold begin_cleanup_workflows. set (w1 := say _ _). set (w2 := set_pairs w1 _).
      assert (C1 : caused w1) by (apply caused_say; [now apply (caused_quiet w)|discriminate]).
      assert (C2 : caused w2).
      { apply (caused_same w1); [exact C1| |reflexivity]. cbn. intros q Hq. apply filter_In in Hq as [Hq _]. eauto. }
      destruct (position _ _) as [i|]; [|exact C2]. apply caused_check, caused_begin_flows. now apply (caused_quiet w2).
    - destruct (existsb _ _); [|exact C]. set (w1 := say _ _).
      assert (C1 : caused w1) by (apply caused_say; [now apply (caused_quiet w)|discriminate]).
      unfold deduct. destruct (position _ _) as [i|]; [|exact C1].
      match goal with |- context [nth_error (s_awaiting ?x) i] => set (w2 := x) end.
      assert (C2 : caused w2) by now apply (caused_quiet w1).
      destruct (nth_error _ _); [|exact C2]. destruct (flows_done _); [now apply caused_finalize|exact C2].
  Qed.

  Lemma uninterrupted g base (acts : list (action V)) :
    g_unint g = true -> cleaned_ended (s_log (run g base acts)).
  Proof.
    intros Hu. apply u_clean. unfold run.
    assert (C0 : caused (fresh_scope (V := V) base)).
    { constructor; cbn; [intros ? []|]. intros l1 s id l2 E. destruct l1; discriminate. }
    revert C0. generalize (fresh_scope (V := V) base). induction acts as [|a acts IH]; intros w C; [exact C|].
    cbn. apply IH. now apply caused_step.
  Qed.
End Uninterruptible.

(** A way to check [asks_once]. *)
Definition requests {V} (l : list (event V)) : list entity :=
  flat_map (fun e => match e with ERequest cl => [cl_session cl] | _ => [] end) l.

Lemma requests_asks_once {V} (l : list (event V)) : NoDup (requests l) -> asks_once l.
Proof.
  intros N l1 cl l2 E cl' H C. subst l. unfold requests in N. rewrite flat_map_app in N. cbn in N.
  apply NoDup_remove_2 in N. apply N. apply in_or_app. left. rewrite <- C.
  apply in_flat_map. exists (ERequest cl'). split; [exact H|cbn; auto].
Qed.
