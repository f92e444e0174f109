From Verif Require Import Base RosterModel BufferModel BufferSpec BufferProofs InputModel InputSpec.

Section InputProofs.
Context {V : Type}.
Implicit Types (w : world V) (ops : list (iop V)).

Lemma irun_cons w o ops :
  irun w (o :: ops)
  = (fst (irun (fst (istep w o)) ops), snd (istep w o) :: snd (irun (fst (istep w o)) ops)).
Proof.
  cbn [irun]. destruct (istep w o) as [w1 r]. cbn [fst snd].
  destruct (irun w1 ops). reflexivity.
Qed.

(** Effect of each operation on the pending messages of a node *)

Lemma pending_set (ns : emap (node V)) m st r nd (n : entity) :
  pending (mk_world (emap_set ns m (Some nd)) st r) n
  = if Nat.eqb n m then match n_inputs nd with Some q => rev q | None => [] end
    else pending (mk_world ns st r) n.
Proof.
  unfold pending; cbn [w_nodes]. unfold emap_set. destruct (Nat.eqb n m); reflexivity.
Qed.

Lemma pending_roster ns st r st' r' (n : entity) :
  pending (mk_world (V := V) ns st r) n = pending (mk_world ns st' r') n.
Proof. reflexivity. Qed.

(** Delivery either changes nothing but the roster, or appends one message. *)
Definition delivers w w' n s (v : V) : Prop :=
  w_status w' = w_status w /\
  (forall m, m <> n -> w_nodes w' m = w_nodes w m) /\
  ((receives w n /\ receives w' n /\ pending w' n = pending w n ++ [(s, v)] /\
    forall m, scheduled w' m = (if Nat.eqb m n then 1 else 0) + scheduled w m)
   \/ (w_nodes w' n = w_nodes w n /\
       forall m, receives w m -> scheduled w' m = scheduled w m)).

Lemma count_snoc (l1 l2 : list entity) n m :
  count_occ Nat.eq_dec ((l1 ++ [n]) ++ l2) m
  = (if Nat.eqb m n then 1 else 0) + count_occ Nat.eq_dec (l1 ++ l2) m.
Proof.
  rewrite !count_occ_app. cbn [count_occ].
  destruct (Nat.eq_dec n m) as [->|H]; [rewrite Nat.eqb_refl; lia|].
  destruct (Nat.eqb_spec m n); [congruence|lia].
Qed.

Lemma count_snoc2 (l1 l2 : list entity) n m :
  count_occ Nat.eq_dec (l1 ++ (l2 ++ [n])) m
  = (if Nat.eqb m n then 1 else 0) + count_occ Nat.eq_dec (l1 ++ l2) m.
Proof.
  rewrite !count_occ_app. cbn [count_occ].
  destruct (Nat.eq_dec n m) as [->|H]; [rewrite Nat.eqb_refl; lia|].
  destruct (Nat.eqb_spec m n); [congruence|lia].
Qed.

Ltac msimpl := cbn [fst snd w_nodes w_status w_roster ro_queue ro_defer ro_despawn ro_cancel
   r_queue r_deferred n_inputs n_unused n_detached n_buffer andb negb].

Lemma give_delivers w n s v : delivers w (fst (give_input w n s v)) n s v.
Proof.
  unfold give_input, sneak_input.
  destruct (w_nodes w n) as [nd|] eqn:En.
  2:{ msimpl. repeat split; auto. }
  destruct (w_status w s) as [[|]|] eqn:Es; cbn [andb negb];
    try (msimpl; repeat split; auto; fail).
  destruct (n_inputs nd) as [q|] eqn:Eq.
  - msimpl. split; [reflexivity|]. split.
    { intros m Hm. msimpl. apply emap_set_neq; assumption. }
    left. split; [exists nd, q; auto|]. split.
    { eexists _, _. msimpl. rewrite emap_set_eq. split; reflexivity. }
    split.
    + rewrite pending_set, Nat.eqb_refl. msimpl. cbn [rev].
      unfold pending. rewrite En, Eq. reflexivity.
    + intros m. unfold scheduled. msimpl. apply count_snoc.
  - destruct (n_unused nd); [|destruct (n_detached nd)]; msimpl.
    + split; [reflexivity|]. split; [intros; reflexivity|]. right. split; [reflexivity|].
      intros m [nd' [q [H1 H2]]]. unfold scheduled. msimpl. rewrite count_snoc.
      destruct (Nat.eqb_spec m n) as [->|]; [congruence|reflexivity].
    + split; [reflexivity|]. split; [intros; reflexivity|]. right. split; reflexivity.
    + repeat split; auto.
Qed.

Lemma defer_delivers w n s v : delivers w (fst (defer_input w n s v)) n s v.
Proof.
  unfold defer_input, sneak_input.
  destruct (w_nodes w n) as [nd|] eqn:En.
  2:{ msimpl. repeat split; auto. }
  destruct (w_status w s) as [[|]|] eqn:Es; cbn [andb negb];
    try (msimpl; repeat split; auto; fail).
  destruct (n_inputs nd) as [q|] eqn:Eq.
  - msimpl. split; [reflexivity|]. split.
    { intros m Hm. msimpl. apply emap_set_neq; assumption. }
    left. split; [exists nd, q; auto|]. split.
    { eexists _, _. msimpl. rewrite emap_set_eq. split; reflexivity. }
    split.
    + rewrite pending_set, Nat.eqb_refl. msimpl. cbn [rev].
      unfold pending. rewrite En, Eq. reflexivity.
    + intros m. unfold scheduled. msimpl. apply count_snoc2.
  - destruct (n_unused nd); [|destruct (n_detached nd)]; msimpl.
    + split; [reflexivity|]. split; [intros; reflexivity|]. right. split; [reflexivity|].
      intros m [nd' [q [H1 H2]]]. unfold scheduled. msimpl. rewrite count_snoc2.
      destruct (Nat.eqb_spec m n) as [->|]; [congruence|reflexivity].
    + split; [reflexivity|]. split; [intros; reflexivity|]. right. split; reflexivity.
    + repeat split; auto.
Qed.

Lemma command_delivers w n s v : delivers w (fst (input_command w n s v)) n s v.
Proof.
  unfold input_command.
  destruct (w_nodes w n) as [nd|] eqn:En.
  2:{ msimpl. repeat split; auto. }
  destruct (n_inputs nd) as [q|] eqn:Eq.
  - msimpl. split; [reflexivity|]. split.
    { intros m Hm. msimpl. apply emap_set_neq; assumption. }
    left. split; [exists nd, q; auto|]. split.
    { eexists _, _. msimpl. rewrite emap_set_eq. split; reflexivity. }
    split.
    + rewrite pending_set, Nat.eqb_refl. msimpl. cbn [rev].
      unfold pending. rewrite En, Eq. reflexivity.
    + intros m. unfold scheduled. msimpl. apply count_snoc.
  - repeat split; auto.
Qed.

(** One step, seen from node [n]. *)
Definition step_facts w (o : iop V) (n : entity) : Prop :=
  let w' := fst (istep w o) in
  let out := [snd (istep w o)] in
  (receives w n -> receives w' n) /\
  (receives w n -> scheduled w' n + executions n out = scheduled w n + length (accepted n out)) /\
  (forall s, ~ cleans n s o ->
     of_session s (pending w n ++ accepted n out) = of_session s (taken n out ++ pending w' n)) /\
  ((forall s, ~ cleans n s o) -> pending w n ++ accepted n out = taken n out ++ pending w' n) /\
  (receives w n -> length (pending w n) <= scheduled w n ->
   length (pending w' n) <= scheduled w' n).

Lemma delivers_step w w' m s v n :
  delivers w w' m s v ->
  let out := [delivery_out w w' m s v] in
  (receives w n -> receives w' n) /\
  (receives w n -> scheduled w' n + executions n out = scheduled w n + length (accepted n out)) /\
  (pending w n ++ accepted n out = taken n out ++ pending w' n) /\
  (receives w n -> length (pending w n) <= scheduled w n ->
   length (pending w' n) <= scheduled w' n).
Proof.
  intros [Hst [Hoth Hcase]]. cbn zeta.
  assert (Hpo : n <> m -> pending w' n = pending w n).
  { intros H. unfold pending. rewrite (Hoth n H). reflexivity. }
  assert (Hro : n <> m -> receives w n -> receives w' n).
  { intros H. unfold receives. rewrite (Hoth n H). auto. }
  destruct Hcase as [[Hr [Hr' [Hp Hs]]]|[Hn Hs]].
  - assert (Ho : delivery_out w w' m s v = Accepted m s v).
    { unfold delivery_out. rewrite Hp, app_length; cbn [length].
      destruct (Nat.ltb_spec (length (pending w m)) (length (pending w m) + 1)); [reflexivity|lia]. }
    rewrite Ho. cbn [accepted executions taken]. rewrite (Hs n).
    destruct (Nat.eqb_spec m n) as [->|Hne].
    + rewrite Nat.eqb_refl. cbn [length app]. repeat split; intros; auto; try lia.
      rewrite Hp, app_length; cbn [length]; lia.
    + destruct (Nat.eqb_spec n m); [congruence|]. cbn [length].
      rewrite Hpo, app_nil_r by congruence. repeat split; intros; auto; try lia.
  - assert (Hp : pending w' n = pending w n).
    { destruct (Nat.eq_dec n m) as [->|H]; [unfold pending; rewrite Hn; reflexivity|auto]. }
    assert (Hpm : pending w' m = pending w m) by (unfold pending; rewrite Hn; reflexivity).
    assert (Ho : delivery_out w w' m s v = Refused).
    { unfold delivery_out. rewrite Hpm, Nat.ltb_irrefl. reflexivity. }
    rewrite Ho. cbn [accepted executions taken length app]. rewrite Hp, app_nil_r.
    assert (Hrr : receives w n -> receives w' n).
    { destruct (Nat.eq_dec n m) as [->|H]; [unfold receives; rewrite Hn; auto|auto]. }
    split; [exact Hrr|].
    assert (Hsn : receives w n -> scheduled w' n = scheduled w n).
    { apply Hs. }
    repeat split; intros; auto; rewrite ?Hsn by assumption; lia.
Qed.

Lemma delivers_facts w o m s v n :
  delivers w (fst (istep w o)) m s v ->
  snd (istep w o) = delivery_out w (fst (istep w o)) m s v ->
  step_facts w o n.
Proof.
  intros H E. unfold step_facts. rewrite E.
  destruct (delivers_step w (fst (istep w o)) m s v n H) as [H1 [H2 [H3 H4]]].
  split; [exact H1|]. split; [exact H2|]. split; [|split; [intros _; exact H3|exact H4]].
  intros s' _. f_equal. exact H3.
Qed.

Lemma of_session_app s (l1 l2 : list (entity * V)) :
  of_session s (l1 ++ l2) = of_session s l1 ++ of_session s l2.
Proof. apply filter_app. Qed.

Lemma filter_neq_eq (l : list (entity * V)) s s' :
  s <> s' ->
  filter (fun i => Nat.eqb (fst i) s') (filter (fun i => negb (Nat.eqb (fst i) s)) l)
  = filter (fun i => Nat.eqb (fst i) s') l.
Proof.
  intros H. induction l as [|x l IH]; [reflexivity|]. cbn [filter].
  destruct (Nat.eqb_spec (fst x) s) as [E|E]; cbn [negb filter].
  - destruct (Nat.eqb_spec (fst x) s'); [congruence|exact IH].
  - destruct (Nat.eqb_spec (fst x) s'); [f_equal|]; exact IH.
Qed.

Lemma step_ok w o n : step_facts w o n.
Proof.
  destruct o as [m s v|m s v|m s v| | |m s|s st].
  - eapply delivers_facts; [apply give_delivers|reflexivity].
  - eapply delivers_facts; [apply defer_delivers|reflexivity].
  - eapply delivers_facts; [apply command_delivers|reflexivity].
  - (* execution *)
    unfold step_facts. cbn [istep].
    destruct (r_queue (w_roster w)) as [|m rest] eqn:Er.
    { cbn. rewrite app_nil_r, Nat.add_0_r. repeat split; auto. }
    unfold take_input. msimpl.
    destruct (w_nodes w m) as [nd|] eqn:En.
    2:{ msimpl. cbn [accepted executions taken length app].
        change (pending (mk_world (w_nodes w) _ _) n) with (pending w n).
        unfold scheduled. msimpl. rewrite Er. cbn [app count_occ].
        rewrite app_nil_r. repeat split; auto.
        - intros _. destruct (Nat.eq_dec m n) as [->|H].
          + rewrite Nat.eqb_refl. lia.
          + destruct (Nat.eqb_spec m n); [congruence|lia].
        - intros [nd' [q' [H1 H2]]]. destruct (Nat.eq_dec m n) as [->|H]; [congruence|auto]. }
    destruct (n_inputs nd) as [q|] eqn:Eq.
    2:{ msimpl. cbn [accepted executions taken length app].
        change (pending (mk_world (w_nodes w) _ _) n) with (pending w n).
        unfold scheduled. msimpl. rewrite Er. cbn [app count_occ].
        rewrite app_nil_r. repeat split; auto.
        - intros _. destruct (Nat.eq_dec m n) as [->|H].
          + rewrite Nat.eqb_refl. lia.
          + destruct (Nat.eqb_spec m n); [congruence|lia].
        - intros [nd' [q' [H1 H2]]]. destruct (Nat.eq_dec m n) as [->|H]; [congruence|auto]. }
    destruct (pop_last q) as [q' t] eqn:Ep.
    msimpl.
    assert (Hrec : forall st r, receives w n ->
              receives (mk_world (emap_set (w_nodes w) m
                (Some (mk_node (Some q') (n_unused nd) (n_detached nd) (n_buffer nd)))) st r) n).
    { intros st r [nd' [q'' [H1 H2]]]. unfold receives. msimpl.
      destruct (Nat.eq_dec n m) as [->|H].
      - rewrite emap_set_eq. eexists _, _; split; reflexivity.
      - rewrite emap_set_neq by assumption. eauto. }
    rewrite pending_set. msimpl.
    unfold scheduled. msimpl. rewrite Er. cbn [app count_occ].
    destruct (Nat.eqb_spec n m) as [->|Hne].
    + (* this node *)
      cbn [executions]. rewrite Nat.eqb_refl.
      destruct (Nat.eq_dec m m) as [_|]; [|congruence].
      unfold pending. rewrite En, Eq.
      destruct (rev_case q) as [->|[q0 [x ->]]].
      * cbn in Ep. injection Ep as <- <-. cbn [accepted taken length app rev].
        repeat split; auto; cbn; lia.
      * rewrite pop_last_app in Ep. injection Ep as <- <-.
        cbn [accepted taken]. rewrite Nat.eqb_refl. rewrite rev_app_distr. cbn [rev app length].
        rewrite app_nil_r. repeat split; auto; lia.
    + (* another node *)
      cbn [executions]. destruct (Nat.eqb_spec m n); [congruence|].
      destruct (Nat.eq_dec m n); [congruence|].
      assert (Ht : forall tt : take_result V, taken n [Executed m tt] = []).
      { intros [i| |]; cbn [taken]; try reflexivity.
        destruct (Nat.eqb_spec m n); [congruence|reflexivity]. }
      assert (Ha : forall tt, accepted n [@Executed V m tt] = []) by reflexivity.
      rewrite Ht, Ha. cbn [app length]. rewrite app_nil_r.
      change (pending (mk_world (w_nodes w) _ _) n) with (pending w n).
      repeat split; auto. 
  - (* deferrals *)
    unfold step_facts. cbn [istep]. msimpl. cbn [accepted executions taken length app].
    rewrite app_nil_r. change (pending (mk_world (w_nodes w) _ _) n) with (pending w n).
    assert (E : scheduled (mk_world (w_nodes w) (w_status w) (ro_process_deferrals (w_roster w))) n
                = scheduled w n).
    { unfold scheduled. msimpl. unfold ro_process_deferrals. msimpl. rewrite app_nil_r. reflexivity. }
    rewrite E. repeat split; auto.
  - (* cleanup *)
    unfold step_facts. cbn [istep]. msimpl. cbn [accepted executions taken length app].
    rewrite app_nil_r. unfold cleanup_inputs.
    destruct (w_nodes w m) as [nd|] eqn:En; [|repeat split; auto; lia].
    rewrite pending_set.
    assert (Hin : n_inputs (cleanup_inputs_node nd s)
                  = option_map (filter (fun i => negb (Nat.eqb (fst i) s))) (n_inputs nd)).
    { unfold cleanup_inputs_node. destruct (n_buffer nd), (n_inputs nd) eqn:E; cbn; auto. }
    rewrite Hin.
    unfold scheduled. msimpl.
    destruct (Nat.eqb_spec n m) as [->|Hne].
    + split.
      { intros [nd' [q' [H1 H2]]]. unfold receives. msimpl. rewrite emap_set_eq.
        eexists _, _. split; [reflexivity|]. rewrite Hin.
        assert (nd' = nd) as -> by congruence. rewrite H2. reflexivity. }
      split; [intros; lia|]. unfold pending. rewrite En.
      split; [|split].
      * intros s' Hc. destruct (n_inputs nd) as [q|]; cbn [option_map]; [|reflexivity].
        assert (Hne : s <> s') by (intros ->; apply Hc; reflexivity).
        unfold of_session. clear - Hne.
        rewrite <- (rev_involutive (filter (fun i => fst i =? s') (rev q))).
        rewrite <- (rev_involutive (filter _ (rev (filter _ q)))).
        f_equal.
        assert (Hfr : forall (f : entity * V -> bool) l, rev (filter f (rev l)) = filter f l).
        { intros f l. induction l as [|x l IH]; [reflexivity|]. cbn [rev filter].
          rewrite filter_app, rev_app_distr, IH. cbn [filter]. destruct (f x); reflexivity. }
        rewrite !Hfr. symmetry. exact (filter_neq_eq q s s' Hne).
      * intros Hc. exfalso. apply (Hc s). reflexivity.
      * intros Hr Hle. destruct (n_inputs nd) as [q|]; cbn [option_map] in *; [|cbn; lia].
        rewrite rev_length in *. eapply Nat.le_trans; [apply filter_length_le|exact Hle].
    + repeat split; auto; try lia.
      intros [nd' [q' [H1 H2]]]. unfold receives. msimpl. rewrite emap_set_neq by assumption. eauto.
  - (* status *)
    unfold step_facts. cbn [istep]. msimpl. cbn [accepted executions taken length app].
    rewrite app_nil_r. repeat split; auto.
Qed.

Lemma accepted_app n (a b : list (iout V)) : accepted n (a ++ b) = accepted n a ++ accepted n b.
Proof.
  induction a as [|x a IH]; [reflexivity|]. cbn [app accepted].
  destruct x; try exact IH. destruct (Nat.eqb n0 n); [cbn [app]; f_equal|]; exact IH.
Qed.

Lemma taken_app n (a b : list (iout V)) : taken n (a ++ b) = taken n a ++ taken n b.
Proof.
  induction a as [|x a IH]; [reflexivity|]. cbn [app taken].
  destruct x; try exact IH. destruct t; try exact IH.
  destruct (Nat.eqb n0 n); [cbn [app]; f_equal|]; exact IH.
Qed.

Lemma executions_app n (a b : list (iout V)) : executions n (a ++ b) = executions n a + executions n b.
Proof.
  induction a as [|x a IH]; [reflexivity|]. cbn [app executions].
  destruct x; try exact IH. destruct (Nat.eqb n0 n); [rewrite IH; reflexivity|exact IH].
Qed.

Lemma input_fifo n s ops : forall w,
  Forall (fun o => ~ cleans n s o) ops ->
  of_session s (pending w n ++ accepted n (snd (irun w ops)))
  = of_session s (taken n (snd (irun w ops)) ++ pending (fst (irun w ops)) n).
Proof.
  induction ops as [|o ops IH]; intros w Hc.
  - cbn. rewrite app_nil_r. reflexivity.
  - inversion Hc as [|? ? Hc1 Hc2]; subst. rewrite irun_cons. cbn [fst snd].
    change (snd (istep w o) :: snd (irun (fst (istep w o)) ops))
      with ([snd (istep w o)] ++ snd (irun (fst (istep w o)) ops)).
    rewrite accepted_app, taken_app, app_assoc.
    destruct (step_ok w o n) as [_ [_ [H _]]]. specialize (H s Hc1).
    rewrite of_session_app, H. rewrite <- app_assoc. rewrite !of_session_app, <- app_assoc.
    f_equal. rewrite <- !of_session_app. apply IH. exact Hc2.
Qed.

Lemma input_fifo_all n ops : forall w,
  Forall (fun o => forall s, ~ cleans n s o) ops ->
  pending w n ++ accepted n (snd (irun w ops))
  = taken n (snd (irun w ops)) ++ pending (fst (irun w ops)) n.
Proof.
  induction ops as [|o ops IH]; intros w Hc.
  - cbn. rewrite app_nil_r. reflexivity.
  - inversion Hc as [|? ? Hc1 Hc2]; subst. rewrite irun_cons. cbn [fst snd].
    change (snd (istep w o) :: snd (irun (fst (istep w o)) ops))
      with ([snd (istep w o)] ++ snd (irun (fst (istep w o)) ops)).
    rewrite accepted_app, taken_app, app_assoc.
    destruct (step_ok w o n) as [_ [_ [_ [H _]]]]. rewrite (H Hc1). rewrite <- !app_assoc.
    f_equal. apply IH. exact Hc2.
Qed.

Lemma input_scheduled n ops : forall w,
  receives w n ->
  receives (fst (irun w ops)) n /\
  scheduled (fst (irun w ops)) n + executions n (snd (irun w ops))
  = scheduled w n + length (accepted n (snd (irun w ops))) /\
  (length (pending w n) <= scheduled w n ->
   length (pending (fst (irun w ops)) n) <= scheduled (fst (irun w ops)) n).
Proof.
  induction ops as [|o ops IH]; intros w Hr.
  - cbn. repeat split; auto; lia.
  - rewrite irun_cons. cbn [fst snd].
    change (snd (istep w o) :: snd (irun (fst (istep w o)) ops))
      with ([snd (istep w o)] ++ snd (irun (fst (istep w o)) ops)).
    rewrite accepted_app, executions_app, app_length.
    destruct (step_ok w o n) as [H1 [H2 [_ [_ H3]]]].
    destruct (IH (fst (istep w o)) (H1 Hr)) as [I1 [I2 I3]].
    split; [exact I1|]. split; [specialize (H2 Hr); lia|].
    intros Hle. apply I3. apply H3; assumption.
Qed.

Lemma input_nothing_stranded n ops : forall w,
  receives w n -> length (pending w n) <= scheduled w n ->
  scheduled (fst (irun w ops)) n = 0 ->
  pending (fst (irun w ops)) n = [].
Proof.
  intros w Hr Hle H0. destruct (input_scheduled n ops w Hr) as [_ [_ H]].
  specialize (H Hle). rewrite H0 in H. apply length_zero_iff_nil. lia.
Qed.

Lemma inactive_refused w n s v :
  w_status w s <> Some Active ->
  istep w (IGive n s v) = (w, Refused) /\ istep w (IDefer n s v) = (w, Refused).
Proof.
  intros Hs. cbn [istep]. unfold give_input, defer_input, sneak_input, delivery_out.
  destruct (w_nodes w n) as [nd|]; [|cbn [fst]; rewrite Nat.ltb_irrefl; split; reflexivity].
  destruct (w_status w s) as [[|]|]; try congruence; cbn [andb negb fst];
    rewrite Nat.ltb_irrefl; split; reflexivity.
Qed.

(** ** Cleaning *)

Lemma filter_rev_comm {A} (f : A -> bool) l : filter f (rev l) = rev (filter f l).
Proof.
  induction l as [|x l IH]; [reflexivity|]. cbn [rev filter].
  rewrite filter_app, IH. cbn [filter]. destruct (f x); cbn [rev]; rewrite ?app_nil_r; reflexivity.
Qed.

Lemma cleanup_pending w n s m :
  pending (cleanup_inputs w n s) m
  = if Nat.eqb m n then filter (fun i => negb (Nat.eqb (fst i) s)) (pending w m) else pending w m.
Proof.
  unfold cleanup_inputs. destruct (w_nodes w n) as [nd|] eqn:En.
  - rewrite pending_set. destruct (Nat.eqb_spec m n) as [->|H]; [|reflexivity].
    unfold pending. rewrite En. unfold cleanup_inputs_node.
    destruct (n_buffer nd), (n_inputs nd) as [q|] eqn:Eq; cbn [n_inputs];
      rewrite ?Eq, ?filter_rev_comm; reflexivity.
  - destruct (Nat.eqb_spec m n) as [->|H]; [|reflexivity].
    unfold pending. rewrite En. reflexivity.
Qed.

(** Contents of a buffer node, oldest first. *)
Definition contents w n s : list V :=
  match w_nodes w n with
  | Some nd => match n_buffer nd with Some b => iter b s | None => [] end
  | None => []
  end.

Lemma push_remaining_keepall l : forall (b : storage V) s,
  policy b = KeepAll ->
  (forall s', s' <> s -> iter (fold_left (fun b v => fst (force_push b s v)) l b) s' = iter b s') /\
  iter (fold_left (fun b v => fst (force_push b s v)) l b) s = iter b s ++ l.
Proof.
  induction l as [|v l IH]; intros b s Hp; cbn [fold_left].
  - rewrite app_nil_r. split; [auto|reflexivity].
  - assert (E : fst (force_push b s v)
                = mk_storage (policy b) (emap_set (queues b) s
                    (Some (v :: match queues b s with Some q => q | None => [] end)))).
    { unfold force_push. rewrite Hp. reflexivity. }
    rewrite E.
    destruct (IH (mk_storage (policy b) (emap_set (queues b) s
                    (Some (v :: match queues b s with Some q => q | None => [] end)))) s Hp)
      as [I1 I2].
    split.
    + intros s' H. rewrite I1 by assumption. unfold iter. cbn [queues].
      rewrite emap_set_neq by assumption. reflexivity.
    + rewrite I2. unfold iter. cbn [queues]. rewrite emap_set_eq.
      destruct (queues b s); cbn [rev]; rewrite <- ?app_assoc; reflexivity.
Qed.

Lemma force_push_other (b : storage V) s v s' :
  s' <> s -> iter (fst (force_push b s v)) s' = iter b s'.
Proof.
  intros H. unfold force_push. destruct (impl_push _ (policy b) v) as [q r].
  unfold iter. cbn [fst queues]. rewrite emap_set_neq by assumption. reflexivity.
Qed.

Lemma push_remaining_other l : forall (b : storage V) s s',
  s' <> s -> iter (fold_left (fun b v => fst (force_push b s v)) l b) s' = iter b s'.
Proof.
  induction l as [|v l IH]; intros b s s' H; cbn [fold_left]; [reflexivity|].
  rewrite IH by assumption. apply force_push_other. assumption.
Qed.

Lemma cleanup_other_contents w n s m s' :
  s' <> s -> contents (cleanup_inputs w n s) m s' = contents w m s'.
Proof.
  intros H. unfold cleanup_inputs, contents. destruct (w_nodes w n) as [nd|] eqn:En; [|reflexivity].
  msimpl. unfold emap_set. destruct (Nat.eqb_spec m n) as [->|Hm]; [|reflexivity].
  rewrite En. unfold cleanup_inputs_node.
  destruct (n_buffer nd) as [b|] eqn:Eb, (n_inputs nd) as [q|]; cbn [n_buffer];
    rewrite ?Eb; try reflexivity.
  unfold push_remaining. apply push_remaining_other. assumption.
Qed.

(** A buffer which keeps everything keeps every leftover. *)
Lemma cleanup_keeps_all w n s nd b :
  w_nodes w n = Some nd -> n_buffer nd = Some b -> policy b = KeepAll ->
  n_inputs nd <> None ->
  contents (cleanup_inputs w n s) n s
  = contents w n s ++ rev (map snd (of_session s (pending w n))).
Proof.
  intros En Eb Hp Hi. unfold cleanup_inputs, contents. rewrite En. msimpl. rewrite emap_set_eq.
  unfold cleanup_inputs_node, pending. rewrite En, Eb.
  destruct (n_inputs nd) as [q|]; [|congruence]. cbn [n_buffer].
  unfold push_remaining. destruct (push_remaining_keepall (rev (reverse_remaining q s)) b s Hp) as [_ ->].
  f_equal. unfold reverse_remaining, of_session. rewrite filter_rev_comm. reflexivity.
Qed.

End InputProofs.


Lemma cleanup_reverses :
  exists (w : world nat) (n s : entity),
  map snd (of_session s (pending w n)) = [1; 2] /\
  contents (cleanup_inputs w n s) n s = [2; 1] /\
  exists ops, w = fst (irun (mk_world
     (fun k => Some (mk_node (Some []) false false (Some (new_storage KeepAll))))
     (fun _ => Some Active) roster_new) ops).
Proof.
  exists (fst (irun (mk_world
     (fun k => Some (mk_node (Some []) false false (Some (new_storage KeepAll))))
     (fun _ => Some Active) roster_new) [IGive 5 7 1; IGive 5 7 2])), 5, 7.
  split; [reflexivity|]. split; [reflexivity|]. eexists. reflexivity.
Qed.

Lemma cleanup_keeps_older :
  exists (w : world nat) (n s : entity),
  map snd (of_session s (pending w n)) = [1; 2] /\
  contents (cleanup_inputs w n s) n s = [1] /\
  exists ops, w = fst (irun (mk_world
     (fun k => Some (mk_node (Some []) false false (Some (new_storage (KeepLast 1)))))
     (fun _ => Some Active) roster_new) ops).
Proof.
  exists (fst (irun (mk_world
     (fun k => Some (mk_node (Some []) false false (Some (new_storage (KeepLast 1)))))
     (fun _ => Some Active) roster_new) [IGive 5 7 1; IGive 5 7 2])), 5, 7.
  split; [reflexivity|]. split; [reflexivity|]. eexists. reflexivity.
Qed.

Lemma cleanup_clears {V} (w : world V) n s m s' :
  of_session s' (pending (cleanup_inputs w n s) m)
  = if Nat.eqb m n && Nat.eqb s' s then [] else of_session s' (pending w m).
Proof.
  rewrite cleanup_pending. destruct (Nat.eqb m n) eqn:E; cbn [andb]; [|reflexivity].
  destruct (Nat.eqb_spec s' s) as [->|H].
  - unfold of_session. induction (pending w m) as [|x l IH]; [reflexivity|]. cbn [filter].
    destruct (Nat.eqb (fst x) s) eqn:Ex; cbn [negb filter]; [exact IH|]. rewrite Ex. exact IH.
  - apply filter_neq_eq. congruence.
Qed.

Lemma cleanup_others_order {V} (w : world V) n s m :
  filter (fun i => negb (Nat.eqb (fst i) s)) (pending (cleanup_inputs w n s) m)
  = filter (fun i => negb (Nat.eqb (fst i) s)) (pending w m).
Proof.
  rewrite cleanup_pending. destruct (Nat.eqb m n); [|reflexivity].
  induction (pending w m) as [|x l IH]; [reflexivity|]. cbn [filter].
  destruct (Nat.eqb (fst x) s) eqn:Ex; cbn [negb filter]; [exact IH|].
  rewrite Ex. cbn [negb]. f_equal. exact IH.
Qed.
