From Verif Require Import Base RosterModel BufferModel BufferSpec BufferProofs
  InputModel InputSpec InputProofs GateModel GateSpec GateProofs JoinModel JoinSpec.

Section JoinProofs.
Context {V : Type}.
Implicit Types (w : jworld V) (bufs : emap (bufnode V)) (l : list (entity * fetch)).

Definition bcont bufs (b s : entity) : list V :=
  match bufs b with Some n => iter (bn_store n) s | None => [] end.

Lemma contents_bcont w b s : contents w b s = bcont (gw_bufs (jw w)) b s.
Proof. reflexivity. Qed.

Lemma count_iter (st : storage V) s : count st s = length (iter st s).
Proof. unfold count, iter. destruct (queues st s); [rewrite rev_length|]; reflexivity. Qed.

Lemma oldest_iter (st : storage V) s : oldest st s = hd_error (iter st s).
Proof. unfold oldest, iter. destruct (queues st s); [rewrite hd_error_rev|]; reflexivity. Qed.

Lemma pull_iter (st : storage V) s :
  snd (pull st s) = hd_error (iter st s) /\
  (forall s', iter (fst (pull st s)) s' = if Nat.eqb s' s then tl (iter st s) else iter st s') /\
  policy (fst (pull st s)) = policy st.
Proof.
  unfold pull, iter. destruct (queues st s) as [q|] eqn:Eq.
  - pose proof (pop_last_rev q) as H. destruct (rev_case q) as [->|[q0 [x ->]]].
    + cbn. repeat split. intros s'. unfold emap_set. destruct (Nat.eqb_spec s' s) as [->|]; reflexivity.
    + rewrite pop_last_app. cbn [fst snd queues policy]. rewrite rev_app_distr. cbn [rev app hd_error tl].
      repeat split. intros s'. unfold emap_set. destruct (Nat.eqb s' s); reflexivity.
  - cbn. repeat split. intros s'. destruct (Nat.eqb_spec s' s) as [->|]; [rewrite Eq|]; reflexivity.
Qed.

(** *** Counting *)

Lemma smallest_fold c cs : fold_left Nat.min cs c = smallest (c :: cs).
Proof.
  cbn. rewrite <- fold_left_rev_right.
  assert (H : forall (l : list nat) a, fold_right Nat.min a l <= a /\ (forall x, In x l -> fold_right Nat.min a l <= x) /\
             (fold_right Nat.min a l = a \/ In (fold_right Nat.min a l) l)).
  { clear. intros l0; induction l0 as [|y l0 IH]; intros a; [cbn; split; [lia|split; [intros x []|left; reflexivity]]|].
    destruct (IH a) as [H1 [H2 H3]]. cbn. split; [lia|]. split.
    - intros x [->|Hx]; [lia|]. specialize (H2 x Hx). lia.
    - destruct (Nat.min_spec y (fold_right Nat.min a l0)) as [[_ E]|[_ E]]; rewrite E.
      + right. left. reflexivity.
      + destruct H3 as [H3|H3]; [left; exact H3|right; right; exact H3]. }
  replace (fold_right (fun y x : nat => Nat.min x y) c (rev cs)) with (fold_right Nat.min c (rev cs)).
  2:{ generalize (rev cs) as l0. induction l0 as [|z l0 IH]; [reflexivity|].
      cbn. rewrite IH. apply Nat.min_comm. }
  destruct (H (rev cs) c) as [A1 [A2 A3]]. destruct (H cs c) as [B1 [B2 B3]].
  apply Nat.le_antisymm.
  - destruct B3 as [->|B3]; [exact A1|]. apply A2. apply in_rev in B3. exact B3.
  - destruct A3 as [->|A3]; [exact B1|]. apply B2. apply in_rev. exact A3.
Qed.

Lemma smallest_le c cs : In c cs -> smallest cs <= c.
Proof.
  destruct cs as [|d cs]; [contradiction|]. cbn. revert d. induction cs as [|e cs IH]; intros d H; cbn.
  - destruct H as [->|[]]. lia.
  - destruct H as [->|[->|H]]; [| |].
    + specialize (IH c (or_introl eq_refl)). lia.
    + lia.
    + specialize (IH d (or_intror H)). lia.
Qed.

Lemma smallest_in cs : cs <> [] -> In (smallest cs) cs.
Proof.
  destruct cs as [|d cs]; [congruence|]. intros _. cbn. revert d. induction cs as [|e cs IH]; intros d; cbn.
  - auto.
  - specialize (IH d). destruct (Nat.min_spec e (fold_right Nat.min d cs)) as [[_ E]|[_ E]]; rewrite E; tauto.
Qed.

Lemma counts_ok bufs l s :
  (forall p, In p l -> bufs (fst p) <> None) ->
  buffered_counts bufs l s = Some (map (fun p => length (bcont bufs (fst p) s)) l).
Proof.
  induction l as [|[b f] l IH]; intros H; [reflexivity|]. cbn [buffered_counts map fst].
  pose proof (H (b, f) (or_introl eq_refl)) as Hb. cbn [fst] in Hb. unfold bcont at 1.
  destruct (bufs b) as [n|]; [|congruence].
  rewrite IH by (intros p Hp; apply H; right; exact Hp). rewrite count_iter. reflexivity.
Qed.

Lemma count_ok bufs l s :
  (forall p, In p l -> bufs (fst p) <> None) ->
  buffered_count bufs l s = Some (smallest (map (fun p => length (bcont bufs (fst p) s)) l)).
Proof.
  intros H. unfold buffered_count. rewrite counts_ok by exact H.
  destruct l as [|p l]; [reflexivity|]. cbn [map]. rewrite smallest_fold. reflexivity.
Qed.

(** *** Fetching *)

Definition same_frame bufs bufs' : Prop :=
  forall b, match bufs b, bufs' b with
            | Some n, Some n' => bn_gates n' = bn_gates n /\ bn_targets n' = bn_targets n /\
                                 policy (bn_store n') = policy (bn_store n)
            | None, None => True
            | _, _ => False
            end.

Lemma same_frame_refl bufs : same_frame bufs bufs.
Proof. intros b. destruct (bufs b); auto. Qed.

Lemma same_frame_trans b1 b2 b3 : same_frame b1 b2 -> same_frame b2 b3 -> same_frame b1 b3.
Proof.
  intros H1 H2 b. specialize (H1 b). specialize (H2 b).
  destruct (b1 b), (b2 b), (b3 b); try tauto.
  destruct H1 as [-> [-> <-]] || idtac; intuition congruence.
Qed.

Lemma fetch_one_ok bufs b f s v :
  hd_error (bcont bufs b s) = Some v ->
  exists bufs', fetch_one bufs b f s = (bufs', Some v) /\ same_frame bufs bufs' /\
    forall b' s', bcont bufs' b' s'
      = if Nat.eqb b' b && Nat.eqb s' s && is_pull f then tl (bcont bufs b s) else bcont bufs b' s'.
Proof.
  unfold bcont at 1. intros H. unfold fetch_one. destruct (bufs b) as [n|] eqn:En; [|discriminate].
  destruct f.
  - destruct (pull_iter (bn_store n) s) as [P1 [P2 P3]].
    destruct (pull (bn_store n) s) as [st o]. cbn [fst snd] in *. subst o. rewrite H.
    eexists. split; [reflexivity|]. split.
    + intros b'. unfold emap_set. destruct (Nat.eqb_spec b' b) as [->|]; [|destruct (bufs b'); auto].
      rewrite En. auto.
    + intros b' s'. cbn [is_pull]. rewrite andb_true_r. unfold bcont, emap_set.
      destruct (Nat.eqb_spec b' b) as [->|]; cbn [andb]; [|reflexivity].
      rewrite En. cbn [bn_store]. apply P2.
  - exists bufs. rewrite oldest_iter, H. split; [reflexivity|]. split; [apply same_frame_refl|].
    intros b' s'. cbn [is_pull]. rewrite andb_false_r. reflexivity.
Qed.

Lemma fetch_ok l : forall bufs s,
  NoDup (map fst l) ->
  (forall p, In p l -> bcont bufs (fst p) s <> []) ->
  exists bufs' vs, fetch_for_join bufs l s = (bufs', Some vs) /\ same_frame bufs bufs' /\
    Forall2 (fun p v => hd_error (bcont bufs (fst p) s) = Some v) l vs /\
    forall b' s', bcont bufs' b' s'
      = if Nat.eqb s' s && pulled l b' then tl (bcont bufs b' s') else bcont bufs b' s'.
Proof.
  induction l as [|[b f] l IH]; intros bufs s Hnd Hne; cbn [fetch_for_join].
  - exists bufs, []. split; [reflexivity|]. split; [apply same_frame_refl|]. split; [constructor|].
    intros. rewrite andb_false_r. reflexivity.
  - inversion Hnd as [|? ? Hni Hnd']; subst.
    destruct (bcont bufs b s) as [|v r] eqn:Eb; [exfalso; apply (Hne (b, f)); [left; reflexivity|exact Eb]|].
    destruct (fetch_one_ok bufs b f s v) as [bufs1 [E1 [F1 C1]]]; [rewrite Eb; reflexivity|].
    assert (Hsame : forall p, In p l -> bcont bufs1 (fst p) s = bcont bufs (fst p) s).
    { intros p Hp. rewrite C1. destruct (Nat.eqb_spec (fst p) b) as [Ep|]; [|reflexivity].
      exfalso. apply Hni. rewrite <- Ep. apply in_map. exact Hp. }
    destruct (IH bufs1 s Hnd') as [bufs2 [vs [E2 [F2 [A2 C2]]]]].
    + intros p Hp. rewrite Hsame by exact Hp. apply Hne. right. exact Hp.
    + exists bufs2, (v :: vs). rewrite E1, E2. split; [reflexivity|].
      split; [eapply same_frame_trans; eassumption|]. split.
      * constructor; [cbn [fst]; rewrite Eb; reflexivity|].
        clear - A2 Hsame. induction A2; constructor.
        -- rewrite <- Hsame by (left; reflexivity). assumption.
        -- apply IHA2. intros p Hp. apply Hsame. right. exact Hp.
      * intros b' s'. rewrite C2. rewrite !C1. cbn [pulled existsb fst snd]. fold (pulled l b').
        rewrite (Nat.eqb_sym b b').
        destruct (Nat.eqb_spec b' b) as [->|Hb']; cbn [andb orb]; [|reflexivity].
        assert (Ep : pulled l b = false).
        { unfold pulled. apply not_true_is_false. intros Hex. apply existsb_exists in Hex.
          destruct Hex as [p [Hp Hq]]. apply andb_true_iff in Hq. destruct Hq as [Hq _].
          apply Nat.eqb_eq in Hq. apply Hni. rewrite <- Hq. apply in_map. exact Hp. }
        rewrite Ep, andb_false_r, orb_false_r. destruct (Nat.eqb_spec s' s) as [->|]; cbn [andb]; reflexivity.
Qed.

(** *** One execution *)

Lemma take_pending (lis : world unit) j s u rest :
  pending lis j = (s, u) :: rest ->
  exists lis', take_input lis j = (lis', Took (s, u)) /\ pending lis' j = rest /\
    (forall m, m <> j -> w_nodes lis' m = w_nodes lis m) /\ receives lis' j /\
    w_status lis' = w_status lis.
Proof.
  unfold pending, take_input. destruct (w_nodes lis j) as [nd|]; [|discriminate].
  destruct (n_inputs nd) as [q|] eqn:Eq; [|discriminate]. intros H.
  destruct (rev_case q) as [->|[q0 [x ->]]]; [discriminate|].
  rewrite rev_app_distr in H. cbn in H. injection H as -> <-.
  rewrite pop_last_app. eexists. split; [reflexivity|]. cbn [w_nodes w_status].
  rewrite emap_set_eq. cbn [n_inputs]. split; [reflexivity|]. split.
  - intros m Hm. apply emap_set_neq. exact Hm.
  - split; [|reflexivity]. eexists _, _. cbn [w_nodes]. rewrite emap_set_eq. split; reflexivity.
Qed.

Lemma give_out (o : world (list V)) t s vs :
  receives o t -> w_status o s = Some Active ->
  exists o', give_input o t s vs = (o', true) /\ pending o' t = pending o t ++ [(s, vs)] /\
    receives o' t /\ w_status o' = w_status o.
Proof.
  intros [nd [q [H1 H2]]] Hs. unfold give_input, sneak_input. rewrite H1, Hs. cbn [andb negb].
  rewrite H2. eexists. split; [reflexivity|]. unfold pending, receives. cbn [w_nodes w_status].
  rewrite emap_set_eq, H1, H2. cbn [n_inputs]. split; [reflexivity|]. split; [|reflexivity].
  eexists _, _. split; reflexivity.
Qed.

Lemma join_exec_ok w j t l s u rest :
  NoDup (map fst l) -> l <> [] -> (forall p, In p l -> gw_bufs (jw w) (fst p) <> None) ->
  waiting w j = (s, u) :: rest -> receives (jw_out w) t -> w_status (jw_out w) s = Some Active ->
  let w' := jstep j t l w JExec in
  waiting w' j = rest /\
  w_status (gw_lis (jw w')) = w_status (gw_lis (jw w)) /\
  (forall m, m <> j -> w_nodes (gw_lis (jw w')) m = w_nodes (gw_lis (jw w)) m) /\
  receives (gw_lis (jw w')) j /\ receives (jw_out w') t /\
  w_status (jw_out w') = w_status (jw_out w) /\
  gw_cmds (jw w') = gw_cmds (jw w) /\
  same_frame (gw_bufs (jw w)) (gw_bufs (jw w')) /\
  ((exists vs, Forall2 (fun p v => hd_error (contents w (fst p) s) = Some v) l vs /\
      pending (jw_out w') t = pending (jw_out w) t ++ [(s, vs)] /\
      forall b s', contents w' b s'
        = if Nat.eqb s' s && pulled l b then tl (contents w b s') else contents w b s')
   \/ ((exists p, In p l /\ contents w (fst p) s = []) /\ jw_out w' = jw_out w /\
       forall b s', contents w' b s' = contents w b s')).
Proof.
  intros Hnd Hl Hex Hw Hr Hs. cbn zeta. cbn [jstep]. unfold join_execute.
  destruct (take_pending _ _ _ _ _ Hw) as [lis [Et [Ep [En [Er Es]]]]]. rewrite Et.
  rewrite count_ok by exact Hex.
  set (cs := map (fun p => length (bcont (gw_bufs (jw w)) (fst p) s)) l).
  assert (Hcs : cs <> []) by (unfold cs; destruct l; [congruence|discriminate]).
  destruct (Nat.ltb_spec (smallest cs) 1) as [Hlt|Hge].
  - cbn [fst jw gw_lis gw_bufs jw_out gw_cmds].
    split; [exact Ep|]. split; [exact Es|]. split; [exact En|]. split; [exact Er|]. split; [exact Hr|].
    split; [reflexivity|]. split; [reflexivity|]. split; [apply same_frame_refl|]. right.
    split; [|split; reflexivity].
    pose proof (smallest_in cs Hcs) as Hin. unfold cs in Hin at 2. apply in_map_iff in Hin.
    destruct Hin as [p [E Hp]]. exists p. split; [exact Hp|].
    rewrite contents_bcont. apply length_zero_iff_nil. lia.
  - destruct (fetch_ok l (gw_bufs (jw w)) s Hnd) as [bufs' [vs [Ef [F [A C]]]]].
    + intros p Hp E. assert (H : smallest cs <= 0); [|lia].
      apply smallest_le. unfold cs. apply in_map_iff. exists p. rewrite E. auto.
    + rewrite Ef. destruct (give_out (jw_out w) t s vs Hr Hs) as [o' [Eo [Po [Ro So]]]].
      rewrite Eo. cbn [fst jw gw_lis gw_bufs jw_out gw_cmds].
      split; [exact Ep|]. split; [exact Es|]. split; [exact En|]. split; [exact Er|].
      split; [exact Ro|]. split; [exact So|]. split; [reflexivity|]. split; [exact F|]. left.
      exists vs. split; [exact A|]. split; [exact Po|]. exact C.
Qed.

(** *** Histories of deliveries and executions *)

Record struct (j t : entity) (bs : list entity) w : Prop := {
  st_buf : forall b, In b bs -> exists n, gw_bufs (jw w) b = Some n /\
     policy (bn_store n) = KeepAll /\ (forall s, bn_gates n s = None) /\
     count_occ Nat.eq_dec (bn_targets n) j = 1;
  st_lis : forall b n, gw_bufs (jw w) b = Some n ->
     (forall t', In t' (bn_targets n) -> receives (gw_lis (jw w)) t') /\
     (~ In b bs -> ~ In j (bn_targets n));
  st_j : receives (gw_lis (jw w)) j;
  st_t : receives (jw_out w) t;
  st_a1 : forall s, w_status (gw_lis (jw w)) s = Some Active;
  st_a2 : forall s, w_status (jw_out w) s = Some Active;
}.

Definition woken w j s : nat := length (of_session s (waiting w j)).

Definition counts w (bs : list entity) s : list nat := map (fun b => length (contents w b s)) bs.

Definition jinv (j t : entity) (bs : list entity) (D : entity -> entity -> list V) w : Prop :=
  struct j t bs w /\
  forall s,
    Forall (fun row => length row = length bs) (emitted w t s) /\
    (forall i b, nth_error bs i = Some b ->
       map Some (D b s) = map (fun row => nth_error row i) (emitted w t s) ++ map Some (contents w b s)) /\
    smallest (counts w bs s) <= woken w j s.

Lemma force_push_all (st : storage V) s v :
  policy st = KeepAll ->
  policy (fst (force_push st s v)) = KeepAll /\
  forall s', iter (fst (force_push st s v)) s' = if Nat.eqb s' s then iter st s ++ [v] else iter st s'.
Proof.
  intros Hp. unfold force_push. rewrite Hp. cbn [impl_push fst policy]. split; [reflexivity|].
  intros s'. unfold iter. cbn [queues]. unfold emap_set. destruct (Nat.eqb_spec s' s) as [->|]; [|reflexivity].
  destruct (queues st s); reflexivity.
Qed.

Lemma push_bufs (g : gworld V) b s v n :
  gw_bufs g b = Some n ->
  gw_bufs (fst (buffer_execute g b s v))
  = emap_set (gw_bufs g) b (Some (mk_bufnode (fst (force_push (bn_store n) s v)) (bn_gates n) (bn_targets n))).
Proof.
  intros En. unfold buffer_execute. rewrite En. cbn [bn_gates bn_targets].
  destruct (is_closed _ _); [reflexivity|]. destruct (wake_all _ _ _). reflexivity.
Qed.

(** What a push does to the listeners when every session is active. *)
Lemma push_lis (g : gworld V) b s v n :
  gw_bufs g b = Some n -> (forall t, In t (bn_targets n) -> receives (gw_lis g) t) ->
  w_status (gw_lis g) s = Some Active ->
  let g' := fst (buffer_execute g b s v) in
  w_status (gw_lis g') = w_status (gw_lis g) /\
  (forall t, receives (gw_lis g) t -> receives (gw_lis g') t) /\
  forall t s', wakes g' t s' = wakes g t s' +
    (if Nat.eqb s' s && negb (is_closed (bn_gates n) s) then count_occ Nat.eq_dec (bn_targets n) t else 0).
Proof.
  intros En Hr Hs. cbn zeta. unfold buffer_execute. rewrite En. cbn [bn_gates bn_targets].
  destruct (is_closed (bn_gates n) s).
  - cbn [fst set_buf gw_lis negb]. repeat split; auto. intros t s'. rewrite andb_false_r. cbn.
    rewrite !wakes_lwakes. cbn [gw_lis set_buf]. lia.
  - cbn [set_buf gw_lis].
    destruct (wake_all_active (bn_targets n) (gw_lis g) s Hr Hs) as [l [E [S [R W]]]].
    rewrite E. cbn [fst gw_lis]. split; [exact S|]. split; [exact R|].
    intros t s'. cbn [negb]. rewrite andb_true_r. rewrite !wakes_lwakes. cbn [gw_lis]. apply W.
Qed.

Lemma woken_wakes w j s : woken w j s = wakes (jw w) j s.
Proof. reflexivity. Qed.

Lemma smallest_mono (l1 l2 : list nat) : Forall2 (fun a b => a <= S b) l1 l2 -> smallest l1 <= S (smallest l2).
Proof.
  intros H. destruct l2 as [|c l2].
  - inversion H; subst. cbn. lia.
  - assert (Hin : In (smallest (c :: l2)) (c :: l2)) by (apply smallest_in; discriminate).
    revert Hin. generalize (smallest (c :: l2)) as m. revert H. generalize (c :: l2) as k. clear.
    intros k H m Hin. assert (E : exists a, In a l1 /\ a <= S m).
    { induction H; [contradiction|]. destruct Hin as [->|Hin].
      - exists x. split; [left; reflexivity|assumption].
      - destruct (IHForall2 Hin) as [a [Ha1 Ha2]]. exists a. split; [right; exact Ha1|exact Ha2]. }
    destruct E as [a [Ha1 Ha2]]. pose proof (smallest_le a l1 Ha1). lia.
Qed.

Lemma counts_push w w' bs b s v s' :
  (forall b' s0, contents w' b' s0
     = if Nat.eqb b' b && Nat.eqb s0 s then contents w b s ++ [v] else contents w b' s0) ->
  smallest (counts w' bs s') <= (if Nat.eqb s' s then 1 else 0) + smallest (counts w bs s').
Proof.
  intros H. destruct (Nat.eqb_spec s' s) as [->|Hn].
  - apply smallest_mono. unfold counts. induction bs as [|x bs IH]; cbn [map]; constructor; [|exact IH].
    rewrite H. destruct (Nat.eqb_spec x b) as [->|]; rewrite ?Nat.eqb_refl; cbn [andb].
    + rewrite app_length. cbn. lia.
    + lia.
  - assert (E : counts w' bs s' = counts w bs s'); [|rewrite E; lia].
    unfold counts. apply map_ext. intros x. rewrite H.
    destruct (Nat.eqb_spec s' s); [congruence|]. rewrite andb_false_r. reflexivity.
Qed.

Lemma jinv_push j t l D w b s v :
  jinv j t (map fst l) D w ->
  jinv j t (map fst l)
    (fun b' s' => D b' s' ++ (if Nat.eqb b' b && Nat.eqb s' s then [v] else []))
    (jstep j t l w (JBuf (GPush b s v))).
Proof.
  intros [St Hi]. cbn [jstep gstep].
  destruct (gw_bufs (jw w) b) as [n|] eqn:En.
  2:{ assert (E : fst (buffer_execute (jw w) b s v) = jw w) by (unfold buffer_execute; rewrite En; reflexivity).
      rewrite E. assert (Hb : ~ In b (map fst l)).
      { intros Hin. destruct (st_buf _ _ _ _ St b Hin) as [n [E1 _]]. congruence. }
      destruct w as [g o]. cbn [jw jw_out] in *. split; [exact St|].
      intros s'. destruct (Hi s') as [H1 [H2 H3]]. split; [exact H1|]. split; [|exact H3].
      intros i b' Hb'. destruct (Nat.eqb_spec b' b) as [->|].
      { exfalso. apply Hb. eapply nth_error_In. exact Hb'. }
      cbn [andb]. rewrite app_nil_r. apply H2. exact Hb'. }
  destruct (st_lis _ _ _ _ St b n En) as [L1 L2].
  destruct (push_lis (jw w) b s v n En L1 (st_a1 _ _ _ _ St s)) as [P1 [P2 P3]].
  pose proof (push_bufs (jw w) b s v n En) as PB.
  set (g' := fst (buffer_execute (jw w) b s v)) in *.
  split.
  - constructor; cbn [jw jw_out].
    + intros b' Hb'. rewrite PB. unfold emap_set.
      destruct (st_buf _ _ _ _ St b' Hb') as [n' [E1 [E2 [E3 E4]]]].
      destruct (Nat.eqb_spec b' b) as [->|].
      * assert (n' = n) by congruence. subst n'. eexists. split; [reflexivity|]. cbn [bn_store bn_gates bn_targets].
        split; [apply force_push_all; exact E2|]. auto.
      * exists n'. auto.
    + intros b' n' Hb'. rewrite PB in Hb'. unfold emap_set in Hb'.
      destruct (Nat.eqb_spec b' b) as [->|].
      * injection Hb' as <-. cbn [bn_targets]. split; [|exact L2]. intros t' Ht'. apply P2, L1, Ht'.
      * destruct (st_lis _ _ _ _ St b' n' Hb') as [M1 M2]. split; [|exact M2].
        intros t' Ht'. apply P2, M1, Ht'.
    + apply P2, (st_j _ _ _ _ St).
    + apply (st_t _ _ _ _ St).
    + intros s'. rewrite P1. apply (st_a1 _ _ _ _ St).
    + apply (st_a2 _ _ _ _ St).
  - destruct (in_dec Nat.eq_dec b (map fst l)) as [Hin|Hout].
    + destruct (st_buf _ _ _ _ St b Hin) as [n0 [E1 [E2 [E3 E4]]]].
      assert (n0 = n) by congruence. subst n0.
      assert (C : forall b' s0, contents (mk_jworld g' (jw_out w)) b' s0
         = if Nat.eqb b' b && Nat.eqb s0 s then contents w b s ++ [v] else contents w b' s0).
      { intros b' s0. rewrite !contents_bcont. unfold bcont. cbn [jw]. rewrite PB. unfold emap_set.
        destruct (Nat.eqb_spec b' b) as [->|]; cbn [andb]; [|reflexivity]. cbn [bn_store].
        rewrite En. apply (force_push_all _ s v E2). }
      intros s'. destruct (Hi s') as [H1 [H2 H3]]. split; [exact H1|]. split.
      * intros i b' Hb'. rewrite C. rewrite map_app, (H2 i b' Hb').
        change (emitted (mk_jworld g' (jw_out w)) t s') with (emitted w t s').
        destruct (Nat.eqb_spec b' b) as [->|]; cbn [andb]; [|cbn; rewrite app_nil_r; reflexivity].
        destruct (Nat.eqb_spec s' s) as [->|]; [|cbn; rewrite app_nil_r; reflexivity].
        rewrite map_app, app_assoc. reflexivity.
      * rewrite woken_wakes. cbn [jw]. rewrite P3.
        pose proof (counts_push w (mk_jworld g' (jw_out w)) (map fst l) b s v s' C) as Hc.
        assert (Ec : is_closed (bn_gates n) s = false) by (unfold is_closed; rewrite E3; reflexivity).
        rewrite Ec, E4. cbn [negb]. rewrite andb_true_r. rewrite woken_wakes in H3.
        destruct (Nat.eqb s' s); lia.
    + assert (C : forall b' s0, In b' (map fst l) -> contents (mk_jworld g' (jw_out w)) b' s0 = contents w b' s0).
      { intros b' s0 Hb'. rewrite !contents_bcont. unfold bcont. cbn [jw]. rewrite PB. unfold emap_set.
        destruct (Nat.eqb_spec b' b) as [->|]; [contradiction|reflexivity]. }
      intros s'. destruct (Hi s') as [H1 [H2 H3]]. split; [exact H1|]. split.
      * intros i b' Hb'. assert (Hb'' : In b' (map fst l)) by (eapply nth_error_In; exact Hb').
        rewrite C by exact Hb''. destruct (Nat.eqb_spec b' b) as [->|]; [contradiction|].
        cbn [andb]. rewrite app_nil_r. apply H2. exact Hb'.
      * assert (Ecs : counts (mk_jworld g' (jw_out w)) (map fst l) s' = counts w (map fst l) s').
        { unfold counts. apply map_ext_in. intros x Hx. rewrite C by exact Hx. reflexivity. }
        rewrite Ecs. rewrite woken_wakes in *. cbn [jw]. rewrite P3. lia.
Qed.

Lemma exec_idle w j t l :
  waiting w j = [] -> receives (gw_lis (jw w)) j ->
  let w' := jstep j t l w JExec in
  gw_bufs (jw w') = gw_bufs (jw w) /\ jw_out w' = jw_out w /\
  waiting w' j = [] /\ w_status (gw_lis (jw w')) = w_status (gw_lis (jw w)) /\
  (forall m, receives (gw_lis (jw w)) m -> receives (gw_lis (jw w')) m).
Proof.
  intros Hw [nd [q [H1 H2]]]. cbn zeta. cbn [jstep]. unfold join_execute.
  unfold waiting, pending in Hw. rewrite H1, H2 in Hw.
  assert (q = []) by (destruct q; [reflexivity|]; cbn in Hw; destruct (rev q); discriminate). subst q.
  unfold take_input. rewrite H1, H2. cbn [pop_last fst jw gw_bufs jw_out gw_lis w_status].
  unfold waiting, pending. cbn [jw gw_lis w_nodes]. rewrite emap_set_eq. cbn [n_inputs].
  repeat split. intros m [nd' [q' [E1 E2]]]. unfold receives. cbn [w_nodes]. unfold emap_set.
  destruct (Nat.eqb m j); eexists _, _; split; try reflexivity; eassumption.
Qed.

Lemma hd_nth_pulled l vs (c : entity -> list V) :
  Forall2 (fun p v => hd_error (c (fst p)) = Some v) l vs ->
  length vs = length l /\
  forall i b, nth_error (map fst l) i = Some b -> nth_error vs i = hd_error (c b) /\ c b <> [].
Proof.
  induction 1 as [|p v l vs H _ [IH1 IH2]]; [split; [reflexivity|]; intros [|i] b; discriminate|].
  split; [cbn; lia|]. intros [|i] b Hb; cbn in Hb |- *.
  - injection Hb as <-. rewrite H. split; [reflexivity|]. intros E. rewrite E in H. discriminate.
  - apply IH2. exact Hb.
Qed.

Lemma pulled_all l b :
  Forall (fun p => snd p = Pull) l -> pulled l b = existsb (Nat.eqb b) (map fst l).
Proof.
  unfold pulled. induction 1 as [|[b' f] l Hf _ IH]; [reflexivity|].
  cbn in Hf. subst f. cbn [existsb map fst snd is_pull]. rewrite IH, (Nat.eqb_sym b b'), andb_true_r.
  reflexivity.
Qed.

Lemma jinv_exec j t l D w :
  NoDup (map fst l) -> l <> [] -> Forall (fun p => snd p = Pull) l ->
  jinv j t (map fst l) D w -> jinv j t (map fst l) D (jstep j t l w JExec).
Proof.
  intros Hnd Hl Hpull [St Hi].
  assert (Hex : forall p, In p l -> gw_bufs (jw w) (fst p) <> None).
  { intros p Hp. destruct (st_buf _ _ _ _ St (fst p)) as [n [E _]]; [apply in_map; exact Hp|congruence]. }
  destruct (waiting w j) as [|[s u] rest] eqn:Ew.
  - destruct (exec_idle w j t l Ew (st_j _ _ _ _ St)) as [E1 [E2 [E3 [E4 E5]]]].
    set (w' := jstep j t l w JExec) in *. split.
    + constructor.
      * rewrite E1. apply (st_buf _ _ _ _ St).
      * intros b n Hb. rewrite E1 in Hb. destruct (st_lis _ _ _ _ St b n Hb) as [M1 M2]. split; [|exact M2].
        intros t' Ht'. apply E5, M1, Ht'.
      * apply E5, (st_j _ _ _ _ St).
      * rewrite E2. apply (st_t _ _ _ _ St).
      * rewrite E4. apply (st_a1 _ _ _ _ St).
      * rewrite E2. apply (st_a2 _ _ _ _ St).
    + intros s'. destruct (Hi s') as [H1 [H2 H3]].
      assert (Ee : emitted w' t s' = emitted w t s') by (unfold emitted; rewrite E2; reflexivity).
      assert (Ec : forall b, contents w' b s' = contents w b s').
      { intros b. rewrite !contents_bcont, E1. reflexivity. }
      rewrite Ee. split; [exact H1|]. split.
      * intros i b Hb. rewrite Ec. apply H2. exact Hb.
      * unfold woken in *. rewrite E3, <- Ew. unfold counts in *.
        erewrite map_ext; [exact H3|]. intros b. cbn beta. rewrite Ec. reflexivity.
  - destruct (join_exec_ok w j t l s u rest Hnd Hl Hex Ew (st_t _ _ _ _ St) (st_a2 _ _ _ _ St s))
      as [X1 [X2 [X3 [X4 [X5 [X6 [X7 [X8 X9]]]]]]]].
    set (w' := jstep j t l w JExec) in *.
    assert (R : forall m, receives (gw_lis (jw w)) m -> receives (gw_lis (jw w')) m).
    { intros m Hm. destruct (Nat.eq_dec m j) as [->|Hmj]; [exact X4|].
      unfold receives. rewrite X3 by exact Hmj. exact Hm. }
    split.
    + constructor.
      * intros b Hb. destruct (st_buf _ _ _ _ St b Hb) as [n [E1 [E2 [E3 E4]]]].
        specialize (X8 b). rewrite E1 in X8. destruct (gw_bufs (jw w') b) as [n'|]; [|contradiction].
        destruct X8 as [Y1 [Y2 Y3]]. exists n'. rewrite Y1, Y2, Y3. auto.
      * intros b n' Hb. specialize (X8 b). rewrite Hb in X8.
        destruct (gw_bufs (jw w) b) as [n|] eqn:En; [|contradiction].
        destruct X8 as [Y1 [Y2 Y3]]. rewrite Y2.
        destruct (st_lis _ _ _ _ St b n En) as [M1 M2]. split; [|exact M2].
        intros t' Ht'. apply R, M1, Ht'.
      * exact X4.
      * exact X5.
      * intros s'. rewrite X2. apply (st_a1 _ _ _ _ St).
      * intros s'. rewrite X6. apply (st_a2 _ _ _ _ St).
    + intros s'. destruct (Hi s') as [H1 [H2 H3]].
      assert (Hw : woken w j s' = (if Nat.eqb s' s then 1 else 0) + woken w' j s').
      { unfold woken. rewrite Ew, X1. unfold of_session. cbn [filter fst].
        rewrite (Nat.eqb_sym s s'). destruct (Nat.eqb s' s); reflexivity. }
      destruct X9 as [[vs [A [P C]]]|[[p [Hp1 Hp2]] [P C]]].
      * assert (Ee : emitted w' t s' = emitted w t s' ++ (if Nat.eqb s' s then [vs] else [])).
        { unfold emitted. rewrite P, of_session_app, map_app. f_equal. unfold of_session. cbn [filter fst].
          rewrite (Nat.eqb_sym s s'). destruct (Nat.eqb s' s); reflexivity. }
        destruct (hd_nth_pulled l vs (fun b => contents w b s) A) as [A1 A2].
        rewrite Ee. split; [|split].
        -- apply Forall_app. split; [exact H1|]. destruct (Nat.eqb s' s); constructor; [|constructor].
           rewrite map_length. exact A1.
        -- intros i b Hb. rewrite (H2 i b Hb). rewrite map_app, C.
           rewrite (pulled_all l b Hpull).
           assert (Eb : existsb (Nat.eqb b) (map fst l) = true).
           { apply existsb_exists. exists b. split; [eapply nth_error_In; exact Hb|apply Nat.eqb_refl]. }
           rewrite Eb, andb_true_r.
           destruct (Nat.eqb_spec s' s) as [->|]; [|cbn; rewrite app_nil_r; reflexivity].
           destruct (A2 i b Hb) as [B1 B2]. cbn beta in *.
           rewrite <- app_assoc. f_equal. cbn [map app]. rewrite B1.
           destruct (contents w b s); [congruence|]. reflexivity.
        -- destruct (Nat.eqb_spec s' s) as [->|Hn].
           ++ assert (Hmin : smallest (counts w' (map fst l) s) <= smallest (counts w (map fst l) s) - 1).
              { assert (Hne : counts w (map fst l) s <> []) by (unfold counts; destruct l; [congruence|discriminate]).
                pose proof (smallest_in _ Hne) as Hin. unfold counts in Hin at 2.
                apply in_map_iff in Hin. destruct Hin as [b [Eb Hb]].
                apply (Nat.le_trans _ (length (contents w' b s))).
                - apply smallest_le. unfold counts. apply in_map_iff. exists b. auto.
                - rewrite C, (pulled_all l b Hpull), Nat.eqb_refl.
                  assert (Ex : existsb (Nat.eqb b) (map fst l) = true).
                  { apply existsb_exists. exists b. split; [exact Hb|apply Nat.eqb_refl]. }
                  rewrite Ex. cbn [andb]. rewrite <- Eb.
                  destruct (contents w b s); cbn; lia. }
              lia.
           ++ assert (Ec : counts w' (map fst l) s' = counts w (map fst l) s').
              { unfold counts. apply map_ext. intros b. rewrite C.
                destruct (Nat.eqb_spec s' s); [congruence|reflexivity]. }
              rewrite Ec. lia.
      * assert (Ee : emitted w' t s' = emitted w t s') by (unfold emitted; rewrite P; reflexivity).
        rewrite Ee. split; [exact H1|]. split.
        -- intros i b Hb. rewrite C. apply H2. exact Hb.
        -- assert (Ec : counts w' (map fst l) s' = counts w (map fst l) s').
           { unfold counts. apply map_ext. intros b. rewrite C. reflexivity. }
           rewrite Ec. destruct (Nat.eqb_spec s' s) as [->|Hn]; [|lia].
           assert (smallest (counts w (map fst l) s) <= 0); [|lia].
           apply smallest_le. unfold counts. apply in_map_iff. exists (fst p).
           rewrite Hp2. split; [reflexivity|]. apply in_map. exact Hp1.
Qed.

Lemma jinv_ext j t bs (D D' : entity -> entity -> list V) w :
  (forall b s, D b s = D' b s) -> jinv j t bs D w -> jinv j t bs D' w.
Proof.
  intros E [St Hi]. split; [exact St|]. intros s. destruct (Hi s) as [H1 [H2 H3]].
  split; [exact H1|]. split; [|exact H3]. intros i b Hb. rewrite <- E. apply H2. exact Hb.
Qed.

Lemma jinv_run j t l :
  NoDup (map fst l) -> l <> [] -> Forall (fun p => snd p = Pull) l ->
  forall ops w D, Forall plain ops -> jinv j t (map fst l) D w ->
  jinv j t (map fst l) (fun b s => D b s ++ delivered b s ops) (jrun j t l w ops).
Proof.
  intros Hnd Hl Hp ops. induction ops as [|o ops IH]; intros w D Ho Hi.
  - cbn. eapply jinv_ext; [|exact Hi]. intros b s. symmetry. apply app_nil_r.
  - inversion Ho as [|? ? Ho1 Ho2]; subst. cbn [jrun fold_left]. fold (jrun j t l (jstep j t l w o) ops).
    destruct o as [[b s v| | | |]|]; try contradiction.
    + eapply jinv_ext; [|apply IH; [exact Ho2|apply jinv_push; exact Hi]].
      intros b' s'. cbn beta. rewrite <- app_assoc. f_equal. cbn [delivered].
      rewrite (Nat.eqb_sym b b'), (Nat.eqb_sym s s').
      destruct (Nat.eqb b' b && Nat.eqb s' s); reflexivity.
    + eapply jinv_ext; [|apply IH; [exact Ho2|apply jinv_exec; [exact Hnd|exact Hl|exact Hp|exact Hi]]].
      intros b' s'. reflexivity.
Qed.

Lemma smallest_add k cs : cs <> [] -> smallest (map (fun c => k + c) cs) = k + smallest cs.
Proof.
  intros H. assert (Hne : map (fun c => k + c) cs <> []) by (destruct cs; [congruence|discriminate]).
  pose proof (smallest_in _ Hne) as H1. apply in_map_iff in H1. destruct H1 as [c [E Hc]].
  pose proof (smallest_le c cs Hc). pose proof (smallest_in cs H) as H2.
  assert (smallest (map (fun c => k + c) cs) <= k + smallest cs).
  { apply smallest_le. apply in_map_iff. exists (smallest cs). auto. }
  lia.
Qed.

Lemma fresh_inv j t l w :
  l <> [] -> fresh w j t (map fst l) -> all_active w -> jinv j t (map fst l) (fun _ _ => []) w.
Proof.
  intros Hl [F1 [F2 [F3 [F4 [F5 F6]]]]] [A1 A2]. split.
  - constructor; auto. intros b Hb. destruct (F1 b Hb) as [n [E1 [E2 [E3 [E4 E5]]]]].
    exists n. auto.
  - intros s'. unfold emitted. rewrite F6. cbn. split; [constructor|]. split.
    + intros i b Hb. rewrite contents_bcont. unfold bcont.
      destruct (F1 b) as [n [E1 [E2 [E3 _]]]]; [eapply nth_error_In; exact Hb|]. rewrite E1, E3. reflexivity.
    + destruct l as [|[b f] l0]; [congruence|]. apply (Nat.le_trans _ (length (contents w b s'))).
      * apply smallest_le. left. reflexivity.
      * rewrite contents_bcont. unfold bcont. destruct (F1 b) as [n [E1 [E2 [E3 _]]]]; [left; reflexivity|].
        rewrite E1, E3. cbn. lia.
Qed.

Lemma join_pairs j t l w ops s :
  NoDup (map fst l) -> l <> [] -> Forall (fun p => snd p = Pull) l ->
  fresh w j t (map fst l) -> all_active w -> Forall plain ops ->
  let w' := jrun j t l w ops in
  (forall k row, nth_error (emitted w' t s) k = Some row ->
     length row = length l /\
     forall i b, nth_error (map fst l) i = Some b ->
       exists v, nth_error row i = Some v /\ nth_error (delivered b s ops) k = Some v) /\
  (of_session s (waiting w' j) = [] ->
     length (emitted w' t s) = smallest (map (fun b => length (delivered b s ops)) (map fst l))).
Proof.
  intros Hnd Hl Hp Hf Ha Ho. cbn zeta.
  pose proof (fresh_inv j t l w Hl Hf Ha) as H0.
  destruct (jinv_run j t l Hnd Hl Hp ops w (fun _ _ => []) Ho H0) as [_ Hi].
  destruct (Hi s) as [H1 [H2 H3]]. cbn [app] in *. set (w' := jrun j t l w ops) in *. split.
  - intros k row Hrow. rewrite Forall_forall in H1.
    pose proof (H1 row (nth_error_In _ _ Hrow)) as Hlen. rewrite map_length in Hlen.
    split; [exact Hlen|]. intros i b Hb. specialize (H2 i b Hb).
    assert (Hk : nth_error (map Some (delivered b s ops)) k = Some (nth_error row i)).
    { rewrite H2. rewrite nth_error_app1.
      - rewrite nth_error_map, Hrow. reflexivity.
      - rewrite map_length. apply nth_error_Some. congruence. }
    rewrite nth_error_map in Hk. destruct (nth_error (delivered b s ops) k) as [v|]; [|discriminate].
    cbn in Hk. injection Hk as Hk. exists v. auto.
  - intros Hw. unfold woken in H3. rewrite Hw in H3. cbn [length] in H3.
    assert (E : map (fun b => length (delivered b s ops)) (map fst l)
                = map (fun c => length (emitted w' t s) + c) (counts w' (map fst l) s)).
    { unfold counts. rewrite (map_map (fun b => length (contents w' b s))). apply map_ext_in. intros b Hb.
      apply In_nth_error in Hb. destruct Hb as [i Hb]. specialize (H2 i b Hb).
      apply (f_equal (@length _)) in H2. rewrite app_length, !map_length in H2. exact H2. }
    rewrite E, smallest_add; [lia|]. unfold counts. intros E'. apply map_eq_nil in E'.
    apply map_eq_nil in E'. contradiction.
Qed.

Lemma join_idle j t l w ops s :
  NoDup (map fst l) -> l <> [] -> Forall (fun p => snd p = Pull) l ->
  fresh w j t (map fst l) -> all_active w -> Forall plain ops ->
  let w' := jrun j t l w ops in
  of_session s (waiting w' j) = [] ->
  exists b, In b (map fst l) /\ contents w' b s = [].
Proof.
  intros Hnd Hl Hp Hf Ha Ho w' Hw.
  destruct (jinv_run j t l Hnd Hl Hp ops w (fun _ _ => []) Ho (fresh_inv j t l w Hl Hf Ha)) as [_ Hi].
  fold w' in Hi. destruct (Hi s) as [_ [_ H3]]. unfold woken in H3. rewrite Hw in H3. cbn [length] in H3.
  assert (Hne : counts w' (map fst l) s <> []).
  { unfold counts. intros E'. apply map_eq_nil in E'. apply map_eq_nil in E'. contradiction. }
  pose proof (smallest_in _ Hne) as Hin. unfold counts in Hin at 2. apply in_map_iff in Hin.
  destruct Hin as [b [E Hb]]. exists b. split; [exact Hb|]. apply length_zero_iff_nil. lia.
Qed.

Lemma add_listener_nodup (ts : list entity) (x : entity) : NoDup ts -> NoDup (add_listener ts x) /\ In x (add_listener ts x).
Proof.
  intros H. unfold add_listener. destruct (existsb (Nat.eqb x) ts) eqn:E.
  - split; [exact H|]. apply existsb_exists in E. destruct E as [y [Hy Ey]]. apply Nat.eqb_eq in Ey.
    congruence.
  - split; [|apply in_or_app; right; left; reflexivity].
    apply NoDup_app_comm_snoc; [exact H|]. intros Hin.
    assert (existsb (Nat.eqb x) ts = true); [|congruence].
    apply existsb_exists. exists x. split; [exact Hin|apply Nat.eqb_refl].
Qed.

Lemma join_atomic w j t l s u rest :
  NoDup (map fst l) -> l <> [] -> (forall p, In p l -> gw_bufs (jw w) (fst p) <> None) ->
  waiting w j = (s, u) :: rest -> receives (jw_out w) t -> w_status (jw_out w) s = Some Active ->
  let w' := jstep j t l w JExec in
  waiting w' j = rest /\
  ((exists vs, Forall2 (fun p v => hd_error (contents w (fst p) s) = Some v) l vs /\
      pending (jw_out w') t = pending (jw_out w) t ++ [(s, vs)] /\
      forall b s', contents w' b s'
        = if Nat.eqb s' s && pulled l b then tl (contents w b s') else contents w b s')
   \/ ((exists p, In p l /\ contents w (fst p) s = []) /\ jw_out w' = jw_out w /\
       forall b s', contents w' b s' = contents w b s')).
Proof.
  intros H1 H2 H3 H4 H5 H6.
  destruct (join_exec_ok w j t l s u rest H1 H2 H3 H4 H5 H6)
      as [X1 [X2 [X3 [X4 [X5 [X6 [X7 [X8 X9]]]]]]]]. split; [exact X1|exact X9].
Qed.

End JoinProofs.
