(** Invariants of injection nodes: cleanups. *)
From Verif Require Import Base ScopeModel ScopeProofs InjectionModel InjectionSpec InjectionProofs
  InjectionProofs2.

Section InjectionProofs3.
  Context {V R : Type}.
  Notation world := (iworld V R).
  Notation log := (list (ievent V R)).

  Definition stopping (w : world) (t id : entity) : Prop :=
    exists x, iw_tasks w t = Some x /\ it_state x = TStopping id.

  Definition count := count_occ Nat.eq_dec.

  Definition unused (w : world) (id : entity) : Prop :=
    c_get (iw_contents w) id = None /\ (forall t, ~ stopping w t id) /\
    count (iw_done w) id = 0 /\ count (confirmed (iw_log w)) id = 0.

  Definition waits (w : world) (id : entity) : Prop :=
    (exists ns, ns <> [] /\ c_get (iw_contents w) id = Some ns /\ forall t, In t ns <-> stopping w t id) /\
    iw_await w id <> None /\ count (iw_done w) id = 0 /\ count (confirmed (iw_log w)) id = 0.

  Definition finished (w : world) (id : entity) : Prop :=
    c_get (iw_contents w) id = None /\ (forall t, ~ stopping w t id) /\ iw_await w id <> None /\
    count (iw_done w) id = 1 /\ count (confirmed (iw_log w)) id = 0.

  Definition ended (w : world) (id : entity) : Prop :=
    c_get (iw_contents w) id = None /\ (forall t, ~ stopping w t id) /\
    count (iw_done w) id = 0 /\ count (confirmed (iw_log w)) id = 1.

  Definition phase (w : world) (id : entity) : Prop :=
    (~ In id (cleanup_ids (iw_log w)) /\ unused w id) \/
    (In id (cleanup_ids (iw_log w)) /\ (waits w id \/ finished w id \/ ended w id)).

  Record Inv2 (w : world) : Prop := mk_Inv2 {
    p_phase : forall id, phase w id;
    p_broken : ~ In JvBroken (iw_log w);
    p_wait : forall l1 id s l2 t, iw_log w = l1 ++ JvClean id s :: l2 ->
      In t (tasks_open s [] l1) -> In (JvStopped t) l2 \/ stopping w t id;
    p_order : forall l1 id s l2 l3 t, iw_log w = l1 ++ JvClean id s :: l2 ++ JvConfirmed id :: l3 ->
      In t (tasks_open s [] l1) -> In (JvStopped t) l2 }.

  Lemma app_split {A} (l q l1 l2 : list A) x : l ++ q = l1 ++ x :: l2 ->
    (exists l2', l = l1 ++ x :: l2' /\ l2 = l2' ++ q) \/ (exists q1, q = q1 ++ x :: l2 /\ l1 = l ++ q1).
  Proof.
    revert l1. induction l as [|a l IH]; intros l1 H; cbn [app] in H.
    - right. exists l1. split; [exact H|reflexivity].
    - destruct l1 as [|b l1]; cbn [app] in H; injection H as E H.
      + subst a. left. exists l. split; [reflexivity|symmetry; exact H].
      + subst b. destruct (IH l1 H) as [[l2' [E1 E2]]|[q1 [E1 E2]]].
        * left. exists l2'. split; [cbn; rewrite E1; reflexivity|exact E2].
        * right. exists q1. split; [exact E1|cbn; rewrite E2; reflexivity].
  Qed.

  Lemma ids_app (l q : log) : cleanup_ids (l ++ q) = cleanup_ids l ++ cleanup_ids q.
  Proof. apply flat_map_app. Qed.
  Lemma confirmed_app (l q : log) : confirmed (l ++ q) = confirmed l ++ confirmed q.
  Proof. apply flat_map_app. Qed.

  Lemma in_ids (l : log) id : In id (cleanup_ids l) <-> exists s, In (JvClean id s) l.
  Proof.
    unfold cleanup_ids. rewrite in_flat_map. split.
    - intros [e [A B]]. destruct e; try contradiction. destruct B as [<-|[]]. eexists. exact A.
    - intros [s A]. exists (JvClean id s). split; [exact A|left; reflexivity].
  Qed.

  Lemma in_confirmed (l : log) id : In id (confirmed l) <-> In (JvConfirmed id) l.
  Proof.
    unfold confirmed. rewrite in_flat_map. split.
    - intros [e [A B]]. destruct e; try contradiction. destruct B as [<-|[]]. exact A.
    - intros A. exists (JvConfirmed id). split; [exact A|left; reflexivity].
  Qed.

  Lemma count_zero l x : count l x = 0 <-> ~ In x l.
  Proof. unfold count. rewrite (count_occ_not_In Nat.eq_dec). tauto. Qed.

  Lemma Inv2_fresh n : Inv2 (ifresh n).
  Proof.
    constructor; cbn.
    - intros id. left. split; [tauto|]. repeat split. intros t [x [H _]]. discriminate.
    - tauto.
    - intros l1 id s l2 t H. destruct l1; discriminate.
    - intros l1 id s l2 l3 t H. destruct l1; discriminate.
  Qed.

  (** The parts about the log, when events without a new cleanup are added. *)
  Lemma log_grows (w w' : world) (q : log) :
    Inv2 w -> iw_log w' = iw_log w ++ q ->
    cleanup_ids q = [] -> ~ In JvBroken q ->
    (forall t id, stopping w t id -> stopping w' t id \/ In (JvStopped t) q) ->
    (forall id, In id (confirmed q) -> forall t, ~ stopping w t id) ->
    (forall id, phase w' id) -> Inv2 w'.
  Proof.
    intros [P1 P2 P3 P4] E Q1 Q2 Q3 Q4 PH. constructor; [exact PH| | |].
    - rewrite E. intros H. apply in_app_or in H as [H|H]; contradiction.
    - intros l1 id s l2 t H Ht. rewrite E in H. apply app_split in H as [[l2' [H1 H2]]|[q1 [H1 _]]].
      + subst l2. destruct (P3 _ _ _ _ _ H1 Ht) as [K|K]; [left; apply in_or_app; left; exact K|].
        destruct (Q3 _ _ K) as [K'|K']; [right; exact K'|left; apply in_or_app; right; exact K'].
      + exfalso. assert (K : In id (cleanup_ids q)); [|rewrite Q1 in K; exact K].
        apply in_ids. exists s. rewrite H1. apply in_or_app. right. left. reflexivity.
    - intros l1 id s l2 l3 t H Ht. rewrite E in H. apply app_split in H as [[l2' [H1 H2]]|[q1 [H1 _]]].
      + symmetry in H2. apply app_split in H2 as [[l3' [H3 H4]]|[q1 [H3 H4]]].
        * subst l2'. eapply P4; [exact H1|exact Ht].
        * subst l2. destruct (P3 _ _ _ _ _ H1 Ht) as [K|K]; [apply in_or_app; left; exact K|].
          exfalso. apply (Q4 id) in K; [exact K|]. apply in_confirmed. rewrite H3. apply in_or_app. right. left. reflexivity.
      + exfalso. assert (K : In id (cleanup_ids q)); [|rewrite Q1 in K; exact K].
        apply in_ids. exists s. rewrite H1. apply in_or_app. right. left. reflexivity.
  Qed.

  (** Steps that have nothing to do with cleanups. *)
  Lemma Inv2_same (w w' : world) (q : log) :
    Inv2 w -> iw_log w' = iw_log w ++ q ->
    cleanup_ids q = [] -> confirmed q = [] -> ~ In JvBroken q ->
    iw_contents w' = iw_contents w -> iw_await w' = iw_await w -> iw_done w' = iw_done w ->
    (forall t id, stopping w' t id <-> stopping w t id) -> Inv2 w'.
  Proof.
    intros I E Q1 Q2 Q3 E1 E2 E3 S. apply (log_grows w w' q); try assumption.
    - intros t id H. left. apply S. exact H.
    - intros id H. rewrite Q2 in H. contradiction.
    - intros id. pose proof (p_phase _ I id) as P. unfold phase, unused, waits, finished, ended in *.
      rewrite E, ids_app, confirmed_app, Q1, Q2, !app_nil_r, E1, E2, E3.
      destruct P as [[P0 [P1 [P2 P3]]]|[P0 [[[ns [P1 [P2 P3]]] P4]|[[P1 [P2 P3]]|[P1 [P2 P3]]]]]].
      + left. split; [exact P0|]. split; [exact P1|]. split; [|exact P3]. intros t H. apply S in H. exact (P2 t H).
      + right. split; [exact P0|]. left. split; [|exact P4]. exists ns. split; [exact P1|]. split; [exact P2|].
        intros t. rewrite P3. symmetry. apply S.
      + right. split; [exact P0|]. right. left. split; [exact P1|]. split; [|exact P3]. intros t H. apply S in H. exact (P2 t H).
      + right. split; [exact P0|]. right. right. split; [exact P1|]. split; [|exact P3]. intros t H. apply S in H. exact (P2 t H).
  Qed.

  Lemma stopping_put (w w' : world) t x0 x :
    (forall u, u <> t -> iw_tasks w' u = iw_tasks w u) ->
    iw_tasks w t = x0 -> iw_tasks w' t = x ->
    (forall y, x0 = Some y -> forall i, it_state y <> TStopping i) ->
    (forall y, x = Some y -> forall i, it_state y <> TStopping i) ->
    forall u id, stopping w' u id <-> stopping w u id.
  Proof.
    intros H E0 E N0 N u id. unfold stopping. destruct (Nat.eq_dec u t) as [Eu|Eu].
    - subst u. rewrite E0, E. split; intros [y [H1 H2]]; exfalso; [exact (N _ H1 _ H2)|exact (N0 _ H1 _ H2)].
    - rewrite (H u Eu). tauto.
  Qed.

  Lemma Inv2_stop (w : world) t x id :
    Inv2 w -> iw_tasks w t = Some x -> it_state x = TStopping id -> Inv2 (istop id t x w).
  Proof.
    intros I Et Es. unfold istop.
    assert (ST : stopping w t id) by (exists x; split; assumption).
    pose proof (p_phase _ I id) as P.
    assert (PW : In id (cleanup_ids (iw_log w)) /\ waits w id).
    { destruct P as [[_ [_ [P2 _]]]|[P0 [P|[[_ [P2 _]]|[_ [P2 _]]]]]];
        [exfalso; exact (P2 t ST)|split; assumption|exfalso; exact (P2 t ST)|exfalso; exact (P2 t ST)]. }
    destruct PW as [P0 [[ns [N1 [N2 N3]]] [P3 [P4 P5]]]].
    pose proof (notify_some _ id t _ N2) as NS. pose proof (notify_other (iw_contents w) id t) as NO.
    destruct (notify_contents (iw_contents w) id t) as [c d]. cbn [fst snd] in NS, NO.
    set (w' := mk_iworld _ _ _ _ _ _ _ _ _).
    assert (S : forall u i, stopping w' u i <-> stopping w u i /\ u <> t).
    { intros u i. unfold stopping. subst w'. cbn [iw_tasks]. destruct (Nat.eq_dec u t) as [E|E].
      - subst u. rewrite emap_set_eq. split; [intros [y [H1 H2]]; injection H1 as <-; discriminate|tauto].
      - rewrite emap_set_neq by exact E. tauto. }
    apply (log_grows w w' [JvStopped t]); try reflexivity; [exact I| | | |].
    - intros [H|[]]; discriminate.
    - intros u i H. destruct (Nat.eq_dec u t) as [E|E]; [right; left; subst u; reflexivity|].
      left. apply S. split; assumption.
    - intros i [].
    - intros i. destruct (Nat.eq_dec i id) as [E|E].
      + subst i. right. unfold waits, finished, ended. subst w'.
        cbn [iw_log iw_contents iw_await iw_done] in *. rewrite ids_app, confirmed_app. cbn [cleanup_ids confirmed flat_map].
        rewrite !app_nil_r. split; [exact P0|].
        destruct NS as [[W [-> G]]|[W [-> G]]].
        * right. left. split; [exact G|]. split.
          { intros u H. apply S in H as [H1 H2]. apply N3 in H1.
            assert (K : In u (without t ns)) by (apply in_without; split; assumption). rewrite W in K. exact K. }
          split; [exact P3|]. split; [|exact P5]. unfold count in *. rewrite count_occ_app, P4. cbn [count_occ].
          destruct (Nat.eq_dec id id); [reflexivity|congruence].
        * left. split; [|split; [exact P3|split; assumption]]. exists (without t ns). split; [exact W|]. split; [exact G|].
          intros u. rewrite in_without, N3. symmetry. apply S.
      + pose proof (p_phase _ I i) as Q.
        assert (D : count (iw_done w') i = count (iw_done w) i).
        { subst w'. cbn [iw_done]. destruct d; [|reflexivity]. unfold count. rewrite count_occ_app. cbn [count_occ].
          destruct (Nat.eq_dec id i); [congruence|]. lia. }
        assert (Si : forall u, stopping w' u i <-> stopping w u i).
        { intros u. rewrite S. split; [tauto|]. intros H. split; [exact H|]. intros Eu. subst u.
          destruct H as [y [H1 H2]]. rewrite Et in H1. injection H1 as <-. congruence. }
        assert (Ci : c_get (iw_contents w') i = c_get (iw_contents w) i) by (apply NO; exact E).
        assert (Fi : confirmed (iw_log w') = confirmed (iw_log w)).
        { subst w'. cbn [iw_log]. rewrite confirmed_app. cbn. apply app_nil_r. }
        assert (Ii : cleanup_ids (iw_log w') = cleanup_ids (iw_log w)).
        { subst w'. cbn [iw_log]. rewrite ids_app. cbn. apply app_nil_r. }
        unfold phase, unused, waits, finished, ended in *. rewrite D, Ci, Fi, Ii.
        change (iw_await w') with (iw_await w). clearbody w'.
        destruct Q as [[Q0 [Q1 [Q2 Q3]]]|[Q0 [[[ms [Q1 [Q2 Q3]]] Q4]|[[Q1 [Q2 Q3]]|[Q1 [Q2 Q3]]]]]].
        * left. split; [exact Q0|]. split; [exact Q1|]. split; [|exact Q3]. intros u H. apply Si in H. exact (Q2 u H).
        * right. split; [exact Q0|]. left. split; [|exact Q4]. exists ms. split; [exact Q1|]. split; [exact Q2|].
          intros u. rewrite Q3. symmetry. apply Si.
        * right. split; [exact Q0|]. right. left. split; [exact Q1|]. split; [|exact Q3]. intros u H. apply Si in H. exact (Q2 u H).
        * right. split; [exact Q0|]. right. right. split; [exact Q1|]. split; [|exact Q3]. intros u H. apply Si in H. exact (Q2 u H).
  Qed.

  Lemma Inv2_finalize (w : world) : Inv2 w -> Inv2 (ifinalize w).
  Proof.
    intros I. unfold ifinalize. destruct (iw_done w) as [|id rest] eqn:Ed; [exact I|].
    pose proof (p_phase _ I id) as P.
    assert (C1 : count (iw_done w) id <> 0) by (rewrite Ed; unfold count; cbn; destruct (Nat.eq_dec id id); [discriminate|congruence]).
    assert (PF : In id (cleanup_ids (iw_log w)) /\ finished w id).
    { destruct P as [[_ [_ [_ [P2 _]]]]|[P0 [[_ [_ [P2 _]]]|[P|[_ [_ [P2 _]]]]]]]; try contradiction. split; assumption. }
    destruct PF as [P0 [P1 [P2 [P3 [P4 P5]]]]].
    destruct (iw_await w id) as [s|] eqn:Ea; [|contradiction P3; reflexivity].
    match goal with |- Inv2 (ilog _ ?v) => set (w1 := v) end.
    apply (log_grows w (ilog [JvConfirmed id] w1) [JvConfirmed id]); try reflexivity; [exact I| | | |].
    - intros [H|[]]; discriminate.
    - intros t i H. left. exact H.
    - intros i [<-|[]]. exact P2.
    - intros i. destruct (Nat.eq_dec i id) as [E|E].
      + subst i. right. unfold ended. subst w1. cbn [ilog iw_log iw_contents iw_done].
        rewrite ids_app, confirmed_app. cbn [cleanup_ids confirmed flat_map app]. rewrite app_nil_r.
        split; [exact P0|]. right. right. split; [apply c_get_remove|]. split; [exact P2|].
        unfold count in *. rewrite Ed in P4. cbn [count_occ] in P4.
        destruct (Nat.eq_dec id id); [|congruence]. split; [lia|].
        rewrite count_occ_app, P5. cbn [count_occ]. destruct (Nat.eq_dec id id); [reflexivity|congruence].
      + pose proof (p_phase _ I i) as Q.
        assert (D : count rest i = count (iw_done w) i).
        { rewrite Ed. unfold count. cbn [count_occ]. destruct (Nat.eq_dec id i); [congruence|reflexivity]. }
        assert (F : count (confirmed (iw_log w ++ [JvConfirmed id])) i = count (confirmed (iw_log w)) i).
        { rewrite confirmed_app. unfold count. rewrite count_occ_app. cbn. destruct (Nat.eq_dec id i); [congruence|lia]. }
        unfold phase, unused, waits, finished, ended, stopping in *. subst w1.
        cbn [ilog iw_log iw_contents iw_done iw_await iw_tasks].
        rewrite ids_app, D, F. cbn [cleanup_ids flat_map]. rewrite app_nil_r.
        rewrite c_get_remove_neq by exact E. rewrite emap_set_neq by exact E. exact Q.
  Qed.

  Lemma Inv2_cleanup now id s (w : world) :
    Inv w -> Inv2 w -> NoDup (cleanup_ids (iw_log (icleanup now id s w))) -> Inv2 (icleanup now id s w).
  Proof.
    intros I J N. destruct (icleanup_effect now id s w I) as (_ & _ & _ & _ & ET & EL & EC & EA & EX).
    assert (OP : nodes_of s w = tasks_open s [] (iw_log w)) by (apply (v_open _ I)).
    assert (LIVE : forall t, In t (nodes_of s w) -> (exists x, iw_tasks w t = Some x) /\ forall i, ~ stopping w t i).
    { intros t Ht. apply in_nodes_of in Ht as [i [H1 [H2 H3]]]. destruct (v_list _ I i H1) as [st [F1 F2]].
      rewrite H3 in F1. split; [eexists; exact F1|]. intros j [x [G1 G2]]. rewrite F1 in G1. injection G1 as <-.
      cbn [it_state] in G2. subst st. exact F2. }
    set (nodes := nodes_of s w) in *. set (w' := icleanup now id s w) in *. clearbody w'.
    set (q := cleanup_events now id nodes) in *.
    assert (Qc : cleanup_ids q = []).
    { subst q. unfold cleanup_events. destruct nodes as [|a l]; [reflexivity|].
      induction (filter now (a :: l)) as [|b m IH]; [reflexivity|exact IH]. }
    assert (Qf : confirmed q = match nodes with [] => [id] | _ => [] end).
    { subst q. unfold cleanup_events. destruct nodes as [|a l]; [reflexivity|].
      induction (filter now (a :: l)) as [|b m IH]; [reflexivity|exact IH]. }
    assert (Qb : ~ In JvBroken q).
    { subst q. unfold cleanup_events. destruct nodes as [|a l]; [intros [H|[]]; discriminate|].
      intros H. apply in_map_iff in H as [t [H _]]. discriminate. }
    assert (Qs : forall t, In t nodes -> now t = true -> In (JvStopped t) q).
    { intros t Ht Hn. subst q. unfold cleanup_events. destruct nodes as [|a l]; [contradiction|].
      apply in_map_iff. exists t. split; [reflexivity|]. apply filter_In. split; assumption. }
    assert (NU : ~ In id (cleanup_ids (iw_log w))).
    { rewrite EL, ids_app in N. cbn [cleanup_ids flat_map app] in N. fold (cleanup_ids q) in N. rewrite Qc in N.
      apply NoDup_remove_2 in N. rewrite app_nil_r in N. exact N. }
    assert (U : unused w id).
    { destruct (p_phase _ J id) as [[_ P]|[P _]]; [exact P|contradiction]. }
    destruct U as [U1 [U2 [U3 U4]]].
    assert (S : forall t i, stopping w' t i <-> (stopping w t i \/ (i = id /\ In t nodes /\ now t = false))).
    { intros t i. unfold stopping at 1. rewrite ET. unfold stop_all.
      destruct (in_dec Nat.eq_dec t nodes) as [H|H].
      - destruct (LIVE t H) as [[x Hx] Hn]. rewrite Hx. split.
        + intros [y [H1 H2]]. injection H1 as <-. cbn [set_state it_state] in H2. right.
          destruct (now t); [discriminate|]. injection H2 as ->. auto.
        + intros [K|[-> [_ K]]]; [exfalso; exact (Hn i K)|]. eexists. split; [reflexivity|]. cbn. rewrite K. reflexivity.
      - split; [intros K; left; exact K|]. intros [K|[_ [K _]]]; [exact K|contradiction]. }
    constructor.
    - intros i. destruct (Nat.eq_dec i id) as [E|E].
      + subst i. right. split.
        { rewrite EL, ids_app. apply in_or_app. right. left. reflexivity. }
        unfold waits, finished, ended. rewrite EL, confirmed_app. cbn [confirmed flat_map app]. fold (confirmed q). rewrite Qf.
        destruct EX as [[X1 [X2 [X3 X4]]]|[X1 [X2 X3]]].
        * rewrite X1, X2, X4. right. right. split; [exact U1|]. split.
          { intros t H. apply S in H as [H|[_ [H _]]]; [exact (U2 t H)|]. rewrite X1 in H. exact H. }
          split; [exact U3|]. unfold count in *. rewrite count_occ_app, U4. cbn [count_occ].
          destruct (Nat.eq_dec id id); [reflexivity|congruence].
        * assert (EN : match nodes with [] => [id] | _ :: _ => [] end = @nil nat).
          { destruct nodes; [congruence|reflexivity]. }
          rewrite EN, app_nil_r. cbn zeta in X3. destruct X3 as [[Y1 [Y2 Y3]]|[Y1 [Y2 Y3]]].
          -- right. left. split; [exact Y2|]. split.
             { intros t H. apply S in H as [H|[_ [H1 H2]]]; [exact (U2 t H)|].
               assert (K : In t (filter (fun t => negb (now t)) nodes)) by (apply filter_In; rewrite H2; split; [exact H1|reflexivity]).
               rewrite Y1 in K. exact K. }
             split; [rewrite X2; discriminate|]. split; [|exact U4]. rewrite Y3. unfold count in *.
             rewrite count_occ_app, U3. cbn [count_occ]. destruct (Nat.eq_dec id id); [reflexivity|congruence].
          -- left. split.
             { eexists. split; [exact Y1|]. split; [exact Y2|]. intros t. rewrite filter_In, S. split.
               - intros [H1 H2]. right. split; [reflexivity|]. split; [exact H1|]. destruct (now t); [discriminate|reflexivity].
               - intros [H|[_ [H1 H2]]]; [exfalso; exact (U2 t H)|]. split; [exact H1|]. rewrite H2. reflexivity. }
             split; [rewrite X2; discriminate|]. rewrite Y3. split; assumption.
      + pose proof (p_phase _ J i) as Q.
        assert (D : count (iw_done w') i = count (iw_done w) i).
        { destruct EX as [[_ [_ [_ X4]]]|[_ [_ [[_ [_ X4]]|[_ [_ X4]]]]]]; rewrite X4; try reflexivity.
          unfold count. rewrite count_occ_app. cbn [count_occ]. destruct (Nat.eq_dec id i); [congruence|lia]. }
        assert (F : count (confirmed (iw_log w')) i = count (confirmed (iw_log w)) i).
        { rewrite EL, confirmed_app. cbn [confirmed flat_map app]. fold (confirmed q). rewrite Qf. unfold count.
          rewrite count_occ_app. destruct nodes; cbn [count_occ]; [destruct (Nat.eq_dec id i); [congruence|lia]|lia]. }
        assert (Ii : In i (cleanup_ids (iw_log w')) <-> In i (cleanup_ids (iw_log w))).
        { rewrite EL, ids_app. cbn [cleanup_ids flat_map app]. fold (cleanup_ids q). rewrite Qc.
          rewrite in_app_iff. cbn [In]. split; [intros [H|[H|[]]]; [exact H|congruence]|tauto]. }
        assert (Si : forall u, stopping w' u i <-> stopping w u i).
        { intros u. rewrite S. split; [intros [H|[H _]]; [exact H|congruence]|tauto]. }
        unfold phase, unused, waits, finished, ended in *. rewrite D, F, Ii, (EC i E), (EA i E).
        destruct Q as [[Q0 [Q1 [Q2 Q3]]]|[Q0 [[[ms [Q1 [Q2 Q3]]] Q4]|[[Q1 [Q2 Q3]]|[Q1 [Q2 Q3]]]]]].
        * left. split; [exact Q0|]. split; [exact Q1|]. split; [|exact Q3]. intros u H. apply Si in H. exact (Q2 u H).
        * right. split; [exact Q0|]. left. split; [|exact Q4]. exists ms. split; [exact Q1|]. split; [exact Q2|].
          intros u. rewrite Q3. symmetry. apply Si.
        * right. split; [exact Q0|]. right. left. split; [exact Q1|]. split; [|exact Q3]. intros u H. apply Si in H. exact (Q2 u H).
        * right. split; [exact Q0|]. right. right. split; [exact Q1|]. split; [|exact Q3]. intros u H. apply Si in H. exact (Q2 u H).
    - rewrite EL. intros H. apply in_app_or in H as [H|[H|H]]; [exact (p_broken _ J H)|discriminate|contradiction].
    - intros l1 i s' l2 t H Ht. rewrite EL in H. apply app_split in H as [[l2' [H1 H2]]|[q1 [H1 H2]]].
      + subst l2. destruct (p_wait _ J _ _ _ _ _ H1 Ht) as [K|K]; [left; apply in_or_app; left; exact K|].
        right. apply S. left. exact K.
      + destruct q1 as [|e q1]; cbn [app] in H1; injection H1 as E1 E2.
        * subst i s' l2. rewrite app_nil_r in H2. subst l1. rewrite <- OP in Ht.
          destruct (now t) eqn:En; [left; apply Qs; assumption|right; apply S; right; auto].
        * exfalso. assert (K : In i (cleanup_ids q)); [|rewrite Qc in K; exact K].
          apply in_ids. exists s'. rewrite E2. apply in_or_app. right. left. reflexivity.
    - intros l1 i s' l2 l3 t H Ht. rewrite EL in H. apply app_split in H as [[l2' [H1 H2]]|[q1 [H1 H2]]].
      + symmetry in H2. apply app_split in H2 as [[l3' [H3 H4]]|[q1 [H3 H4]]].
        * subst l2'. eapply (p_order _ J); [exact H1|exact Ht].
        * exfalso. destruct q1 as [|e q1]; cbn [app] in H3; [discriminate|]. injection H3 as E1 E2.
          assert (K : In i (confirmed q)).
          { apply in_confirmed. rewrite E2. apply in_or_app. right. left. reflexivity. }
          rewrite Qf in K. destruct nodes; [|exact K]. destruct K as [<-|[]].
          apply NU. apply in_ids. exists s'. rewrite H1. apply in_or_app. right. left. reflexivity.
      + destruct q1 as [|e q1]; cbn [app] in H1; [injection H1 as E0 E1 E2|injection H1 as E1 E2].
        * subst i s'. rewrite app_nil_r in H2. subst l1. rewrite <- OP in Ht. exfalso.
          assert (K : In id (confirmed q)).
          { apply in_confirmed. rewrite E2. apply in_or_app. right. left. reflexivity. }
          rewrite Qf in K. destruct nodes; contradiction.
        * exfalso. assert (K : In i (cleanup_ids q)); [|rewrite Qc in K; exact K].
          apply in_ids. exists s'. rewrite E2. apply in_or_app. right. left. reflexivity.
  Qed.

  Lemma Inv2_step w o : Inv w -> Inv2 w -> NoDup (cleanup_ids (iw_log (istep w o))) -> Inv2 (istep w o).
  Proof.
    intros I J N. destruct o; cbn [istep] in *.
    - eapply (Inv2_same w _ [JvIssued s v]); try reflexivity; [exact J|]. intros [H|[]]; discriminate.
    - unfold iexec. destruct (iw_inputs w) as [|[s v] r]; [exact J|].
      eapply (Inv2_same w _ [JvStarted s (S (iw_next w)) v]); try reflexivity; [exact J|intros [H|[]]; discriminate|].
      apply (stopping_put w _ (S (iw_next w)) (iw_tasks w (S (iw_next w))) (Some (mk_itask s (iw_next w) TRunning)));
        cbn [iw_tasks]; try reflexivity.
      + intros u Hu. apply emap_set_neq. exact Hu.
      + apply emap_set_eq.
      + intros y Hy. apply (v_task _ I) in Hy. lia.
      + intros y Hy i. injection Hy as <-. discriminate.
    - unfold irespond. destruct (iw_tasks w t) as [x|] eqn:Et; [|exact J].
      destruct (it_state x) eqn:Es; try exact J.
      eapply (Inv2_same w _ [JvResponse (it_sess x) t r]); try reflexivity; [exact J|intros [H|[]]; discriminate|].
      apply (stopping_put w _ t (Some x) (Some (set_state x TAnswered))); cbn [ilog put_fin put_task iw_tasks].
      + intros u Hu. apply emap_set_neq. exact Hu.
      + exact Et. + apply emap_set_eq.
      + intros y Hy i. injection Hy as <-. congruence.
      + intros y Hy i. injection Hy as <-. discriminate.
    - unfold idispose. destruct (iw_tasks w t) as [x|] eqn:Et; [|exact J].
      destruct (it_state x) eqn:Es; try exact J.
      eapply (Inv2_same w _ [JvDisposed (it_sess x) t]); try reflexivity; [exact J|intros [H|[]]; discriminate|].
      apply (stopping_put w _ t (Some x) (Some (set_state x TDisposed))); cbn [ilog put_fin put_task iw_tasks].
      + intros u Hu. apply emap_set_neq. exact Hu.
      + exact Et. + apply emap_set_eq.
      + intros y Hy i. injection Hy as <-. congruence.
      + intros y Hy i. injection Hy as <-. discriminate.
    - unfold ifinish. destruct (iw_fins w f) as [[[s r]|]|]; try exact J.
      pose proof (find_fin f (iw_list w)) as Hf. destruct (find _ _) as [i|].
      + destruct Hf as [Hi _]. destruct (v_list _ I i Hi) as [st [E1 E2]]. rewrite E1.
        eapply (Inv2_same w _ [JvOut s (in_task i) r]); try reflexivity; [exact J|intros [H|[]]; discriminate|].
        apply (stopping_put w _ (in_task i) (Some (mk_itask (in_sess i) (in_fin i) st)) None);
          cbn [ilog put_fin put_task set_list iw_tasks].
        * intros u Hu. apply emap_set_neq. exact Hu.
        * exact E1. * apply emap_set_eq.
        * intros y Hy j Hj. injection Hy as <-. cbn [it_state] in Hj. subst st. exact E2.
        * discriminate.
      + eapply (Inv2_same w _ [JvLost s r]); try reflexivity; [exact J|intros [H|[]]; discriminate].
    - apply Inv2_cleanup; assumption.
    - unfold istopped. destruct (iw_tasks w t) as [x|] eqn:Et; [|exact J].
      destruct (it_state x) eqn:Es; try exact J. apply Inv2_stop; assumption.
    - apply Inv2_finalize. exact J.
  Qed.

  Lemma NoDup_app_l {A} (l1 l2 : list A) : NoDup (l1 ++ l2) -> NoDup l1.
  Proof.
    induction l1 as [|a l IH]; intros H; [constructor|]. cbn [app] in H. inversion H; subst. constructor.
    - intros K. apply H2. apply in_or_app. left. exact K.
    - apply IH. exact H3.
  Qed.

  Lemma Inv2_irun os : forall w, Inv w -> Inv2 w -> NoDup (cleanup_ids (iw_log (irun w os))) -> Inv2 (irun w os).
  Proof.
    induction os as [|o os IH]; intros w I J N; [exact J|]. cbn in *. fold (irun (istep w o) os) in *.
    apply IH; [apply Inv_step; exact I| |exact N]. apply Inv2_step; [exact I|exact J|].
    destruct (run_log os (istep w o) (Inv_step w o I)) as [q E]. rewrite E, ids_app in N.
    eapply NoDup_app_l. exact N.
  Qed.

  (** *** What remains of tasks *)

  Definition stopped (w : world) (t : entity) : Prop :=
    exists x, iw_tasks w t = Some x /\ it_state x = TStopped.

  Lemma stopped_step w o t : Inv w -> stopped w t -> stopped (istep w o) t.
  Proof.
    intros I [x [H1 H2]]. destruct o; cbn [istep].
    - exists x. split; assumption.
    - unfold iexec. destruct (iw_inputs w) as [|[s v] r]; [exists x; split; assumption|].
      exists x. cbn [iw_tasks]. rewrite emap_set_neq; [split; assumption|]. apply (v_task _ I) in H1. lia.
    - unfold irespond. destruct (iw_tasks w t0) as [y|] eqn:Ey; [|exists x; split; assumption].
      destruct (it_state y) eqn:Es; try (exists x; split; assumption).
      exists x. cbn [ilog put_fin put_task iw_tasks]. rewrite emap_set_neq; [split; assumption|].
      intros E. subst t0. congruence.
    - unfold idispose. destruct (iw_tasks w t0) as [y|] eqn:Ey; [|exists x; split; assumption].
      destruct (it_state y) eqn:Es; try (exists x; split; assumption).
      exists x. cbn [ilog put_fin put_task iw_tasks]. rewrite emap_set_neq; [split; assumption|].
      intros E. subst t0. congruence.
    - unfold ifinish. destruct (iw_fins w f) as [[[s r]|]|]; try (exists x; split; assumption).
      pose proof (find_fin f (iw_list w)) as Hf. destruct (find _ _) as [i|]; [|exists x; split; assumption].
      destruct Hf as [Hi _]. destruct (v_list _ I i Hi) as [st [E1 E2]]. rewrite E1.
      exists x. cbn [ilog put_fin put_task set_list iw_tasks]. rewrite emap_set_neq; [split; assumption|].
      intros E. subst t. rewrite E1 in H1. injection H1 as <-. cbn [it_state] in H2. subst st. exact E2.
    - destruct (icleanup_effect now id s w I) as (_ & _ & _ & _ & ET & _). unfold stopped. rewrite ET.
      unfold stop_all. destruct (in_dec Nat.eq_dec t (nodes_of s w)) as [K|K]; [|exists x; split; assumption].
      exfalso. apply in_nodes_of in K as [i [K1 [K2 K3]]]. destruct (v_list _ I i K1) as [st [E1 E2]].
      rewrite K3, H1 in E1. injection E1 as ->. cbn [it_state] in H2. subst st. exact E2.
    - unfold istopped. destruct (iw_tasks w t0) as [y|] eqn:Ey; [|exists x; split; assumption].
      destruct (it_state y) eqn:Es; try (exists x; split; assumption).
      unfold istop. destruct (notify_contents _ _ _). unfold stopped. cbn [iw_tasks].
      rewrite emap_set_neq; [exists x; split; assumption|]. intros E. subst t0. congruence.
    - unfold ifinalize. destruct (iw_done w) as [|i r]; [exists x; split; assumption|].
      destruct (iw_await w i); exists x; split; assumption.
  Qed.

  Lemma stopped_event w o t : Inv w -> In (JvStopped t) (iw_log (istep w o)) ->
    In (JvStopped t) (iw_log w) \/ stopped (istep w o) t.
  Proof.
    intros I. destruct o; cbn [istep].
    - intros H. apply in_snoc in H as [H|H]; [left; exact H|discriminate].
    - unfold iexec. destruct (iw_inputs w) as [|[s v] r]; [tauto|]. cbn [iw_log].
      intros H. apply in_snoc in H as [H|H]; [left; exact H|discriminate].
    - unfold irespond. destruct (iw_tasks w t0) as [y|]; [|tauto]. destruct (it_state y); try tauto.
      cbn [ilog put_fin put_task iw_log]. intros H. apply in_snoc in H as [H|H]; [left; exact H|discriminate].
    - unfold idispose. destruct (iw_tasks w t0) as [y|]; [|tauto]. destruct (it_state y); try tauto.
      cbn [ilog put_fin put_task iw_log]. intros H. apply in_snoc in H as [H|H]; [left; exact H|discriminate].
    - unfold ifinish. destruct (iw_fins w f) as [[[s r]|]|]; try tauto.
      destruct (find _ _) as [i|]; [destruct (iw_tasks w (in_task i))|]; cbn [ilog put_fin put_task set_list iw_log];
        intros H; apply in_snoc in H as [H|H]; try discriminate; left; exact H.
    - destruct (icleanup_effect now id s w I) as (_ & _ & _ & _ & ET & EL & _). rewrite EL. intros H.
      apply in_app_or in H as [H|[H|H]]; [left; exact H|discriminate|]. right. unfold stopped. rewrite ET.
      unfold cleanup_events in H. destruct (nodes_of s w) as [|a l] eqn:En; [destruct H as [H|[]]; discriminate|].
      apply in_map_iff in H as [u [E H]]. injection E as ->. apply filter_In in H as [H1 H2].
      unfold stop_all. destruct (in_dec Nat.eq_dec t (a :: l)) as [K|K]; [|contradiction].
      rewrite <- En in H1. apply in_nodes_of in H1 as [i [K1 [K2 K3]]]. destruct (v_list _ I i K1) as [st [E1 E2]].
      rewrite K3 in E1. rewrite E1, H2. eexists. split; reflexivity.
    - unfold istopped. destruct (iw_tasks w t0) as [y|]; [|tauto]. destruct (it_state y); try tauto.
      unfold istop, stopped. destruct (notify_contents _ _ _). cbn [iw_log iw_tasks]. intros H.
      apply in_snoc in H as [H|H]; [left; exact H|]. injection H as ->. right. rewrite emap_set_eq.
      eexists. split; reflexivity.
    - unfold ifinalize. destruct (iw_done w) as [|i r]; [tauto|].
      destruct (iw_await w i); cbn [ilog iw_log]; intros H; apply in_snoc in H as [H|H]; try discriminate; left; exact H.
  Qed.

  Lemma stopped_remain os : forall w t, Inv w -> (In (JvStopped t) (iw_log w) -> stopped w t) ->
    In (JvStopped t) (iw_log (irun w os)) -> stopped (irun w os) t.
  Proof.
    induction os as [|o os IH]; intros w t I H K; [apply H; exact K|]. cbn in *.
    apply IH; [apply Inv_step; exact I| |exact K]. intros L.
    destruct (stopped_event w o t I L) as [M|M]; [|exact M]. apply stopped_step; [exact I|]. apply H. exact M.
  Qed.
End InjectionProofs3.
