(** Collecting, disposal notices, the end of sessions, and single steps of the whole. *)
From Verif Require Import Base RosterModel BufferModel InputModel InputSpec InputProofs GateModel
  OpsModel OpsSpec OpsProofs ReachModel ReachSpec ReachProofs ExecModel ExecSpec ExecProofs ExecProofs2.

Lemma set_progress_change f o n s l s' : shaped f o -> change f o (set_progress o n s l) s' [] [] [].
Proof. intros Ho. split; cbn; intros; rewrite ?app_nil_r; try reflexivity. exact Ho. Qed.

(** What is gathered by other nodes and for other sessions stays. *)
Definition gathered (o o' : oworld) (n s : entity) (l : list val) : Prop :=
  forall n' s', progress o' n' s' = if Nat.eqb n' n && Nat.eqb s' s then l else progress o n' s'.

Lemma gathered_set o n s l : gathered o (set_progress o n s l) n s l.
Proof. intros n' s'. apply progress_set. Qed.

Lemma gathered_trans o o1 o2 n s l1 l2 : gathered o o1 n s l1 -> gathered o1 o2 n s l2 -> gathered o o2 n s l2.
Proof. intros H1 H2 n' s'. rewrite H2, H1. destruct (Nat.eqb n' n && Nat.eqb s' s); reflexivity. Qed.

Lemma gathered_same o o' o2 n s l : gathered o o' n s l -> o_coll o2 = o_coll o' -> gathered o o2 n s l.
Proof. intros H E n' s'. unfold progress. rewrite E. apply H. Qed.

Lemma gathered_id o n s : gathered o o n s (progress o n s).
Proof.
  intros n' s'. destruct (Nat.eqb_spec n' n) as [->|]; [|reflexivity].
  destruct (Nat.eqb_spec s' s) as [->|]; reflexivity.
Qed.

Lemma unreachable_change f o n s t min : built f -> shaped f o -> is_collect f n = true ->
  In t (node_targets f n) ->
  let l := progress o n s in
  exists o' ms ns, on_unreachable o n s t min (length l) = (o', OpOk) /\ change f o o' s ms ns [] /\
    ((ms = [] /\ ns = [notice_of f n s] /\ gathered o o' n s l) \/
     (ns = [] /\ w_status (o_w o) s = Some Active /\ ms = [(t, VList l)] /\ min <= length l /\ gathered o o' n s []) \/
     (ns = [] /\ ms = [] /\ w_status (o_w o) s <> Some Active /\ gathered o o' n s [])).
Proof.
  intros Hb Ho Hc Ht. cbn zeta. unfold on_unreachable. pose proof (collect_working f n Hc) as Hw.
  assert (Hkt : f_kind f t <> None).
  { destruct Hb as (_ & Hn & Htg & _). apply Hn, (Htg n), Ht. }
  destruct (Nat.ltb_spec (length (progress o n s)) min) as [Hlt|Hle].
  - destruct (emit_change f o n s (DDeficient n min (length (progress o n s))) Ho Hw) as [C K].
    eexists _, _, _. split; [reflexivity|]. split; [exact C|]. left. split; [reflexivity|]. split; [reflexivity|].
    exact (gathered_same _ _ _ _ _ _ (gathered_id o n s) K).
  - pose proof (set_progress_change f o n s [] s Ho) as C1.
    destruct (active_dec (o_w o) s) as [Ha|Ha].
    + destruct (give_change f (set_progress o n s []) t s (VList (progress o n s)) (ch_shaped _ _ _ _ _ _ _ C1) Ha Hkt)
        as [o' [E [C2 K]]].
      rewrite E. eexists _, _, _. split; [reflexivity|]. split; [exact (change_trans _ _ _ _ _ _ _ _ _ _ _ C1 C2)|].
      right. left. split; [reflexivity|]. split; [exact Ha|]. split; [reflexivity|]. split; [exact Hle|].
      exact (gathered_same _ _ _ _ _ _ (gathered_set o n s []) K).
    + rewrite (give_dead f (set_progress o n s []) t s _ (ch_shaped _ _ _ _ _ _ _ C1) Ha Hkt).
      eexists _, _, _. split; [reflexivity|]. split; [exact C1|]. right. right.
      split; [reflexivity|]. split; [reflexivity|]. split; [exact Ha|]. apply gathered_set.
Qed.

Lemma collect_kind f n : is_collect f n = true -> exists min max t, f_kind f n = Some (OCollect min max t).
Proof. unfold is_collect. destruct (f_kind f n) as [[]|]; try discriminate. eauto. Qed.

(** The effect of a collect taking one message [v]. *)
Definition collected (f : workflow) (n s t min : nat) (max : option nat) (v : val) (o o' : oworld) : Prop :=
  let l := progress o n s ++ [v] in
  (did f o o' n s [(t, VList l)] [] [] /\ gathered o o' n s [] /\
   ((exists m, max = Some m /\ m <= length l) \/ min <= length l)) \/
  (gathered o o' n s l /\ (forall m, max = Some m -> length l < m) /\
   (did f o o' n s [] [notice_of f n s] [] \/
    (did f o o' n s [] [] [] /\ exists m, reaches f m n /\ waits o' s m))).

Lemma collect_ok f n min max t o s v rest :
  built f -> shaped f o -> f_kind f n = Some (OCollect min max t) ->
  pending (o_w o) n = (s, v) :: rest -> w_status (o_w o) s = Some Active ->
  exists o', op_execute f (OCollect min max t) n o = (o', OpOk) /\ collected f n s t min max v o o'.
Proof.
  intros Hb Ho Hk Hp Hs. assert (Hc : is_collect f n = true) by (unfold is_collect; rewrite Hk; reflexivity).
  pose proof (collect_working f n Hc) as Hw.
  assert (Ht : In t (node_targets f n)) by (unfold node_targets; rewrite Hk; left; reflexivity).
  destruct (take_pulled f o n Ho Hw) as [o1 [P E]]. rewrite Hp in E.
  assert (Hs1 : w_status (o_w o1) s = Some Active) by (rewrite (pu_status _ _ _ _ P); exact Hs).
  pose proof (pu_shaped _ _ _ _ P) as Ho1.
  assert (K1 : forall n' s', progress o1 n' s' = progress o n' s').
  { intros n' s'. unfold progress. rewrite (pu_coll _ _ _ _ P). reflexivity. }
  cbn [op_execute]. unfold collect_execute, with_input, collected. rewrite E. cbn zeta. rewrite <- (K1 n s).
  remember (progress o1 n s ++ [v]) as l eqn:El. clear El.
  pose proof (set_progress_change f o1 n s l s Ho1) as C1. pose proof (ch_shaped _ _ _ _ _ _ _ C1) as Ho2.
  assert (G1 : gathered o (set_progress o1 n s l) n s l).
  { intros n' s'. rewrite gathered_set, K1. reflexivity. }
  destruct (match max with Some m => m <=? length l | None => false end) eqn:Em.
  - pose proof (set_progress_change f _ n s [] s Ho2) as C2.
    destruct (give_change f _ t s (VList l) (ch_shaped _ _ _ _ _ _ _ C2) Hs1) as [o3 [E3 [C3 K3]]].
    { destruct Hb as (_ & Hn & Htg & _). apply Hn, (Htg n), Ht. }
    rewrite E3. exists o3. split; [reflexivity|]. left. split; [|split].
    + exact (pulled_change _ _ _ _ _ _ _ _ _ P
             (change_trans _ _ _ _ _ _ _ _ _ _ _ (change_trans _ _ _ _ _ _ _ _ _ _ _ C1 C2) C3)).
    + exact (gathered_same _ _ _ _ _ _ (gathered_trans _ _ _ _ _ _ _ G1 (gathered_set _ n s [])) K3).
    + left. destruct max as [m|]; [|discriminate]. apply Nat.leb_le in Em. eauto.
  - assert (Hmax : forall m, max = Some m -> length l < m).
    { intros m ->. apply Nat.leb_gt in Em. exact Em. }
    destruct (upstream_active f (set_progress o1 n s l) s n None) as [b|] eqn:Ea.
    + destruct b.
      * eexists. split; [reflexivity|]. right. split; [exact G1|]. split; [exact Hmax|]. right.
        split; [exact (pulled_change _ _ _ _ _ _ _ _ _ P C1)|].
        destruct (active_source f _ s n None Ho2 Hc Ea) as [m [Hr [Hm|[_ [_ [d [Hd _]]]]]]]; [eauto|discriminate].
      * assert (El : progress (set_progress o1 n s l) n s = l).
        { rewrite (gathered_set o1 n s l n s), !Nat.eqb_refl. reflexivity. }
        destruct (unreachable_change f _ n s t min Hb Ho2 Hc Ht) as [o3 [ms [ns [E3 [C3 H3]]]]].
        cbn zeta in *. rewrite El in *.
        rewrite E3. exists o3. split; [reflexivity|].
        pose proof (pulled_change _ _ _ _ _ _ _ _ _ P (change_trans _ _ _ _ _ _ _ _ _ _ _ C1 C3)) as D.
        destruct H3 as [[-> [-> G]]|[[-> [_ [-> [Hmin G]]]]|[_ [_ [H3 _]]]]].
        -- right. split; [exact (gathered_trans _ _ _ _ _ _ _ G1 G)|]. split; [exact Hmax|]. left. exact D.
        -- left. split; [exact D|]. split; [exact (gathered_trans _ _ _ _ _ _ _ G1 G)|]. right. exact Hmin.
        -- exfalso. apply H3. exact Hs1.
    + exfalso. exact (active_answer f _ s n None Hb Ho2 Hc Ea).
Qed.

(** ** Listeners *)
Lemma waits_change f o o' s ms ns cs s' m : change f o o' s ms ns cs -> waits o s' m -> waits o' s' m.
Proof.
  intros C [v H]. exists v. rewrite (ch_pending _ _ _ _ _ _ _ C). apply in_or_app. auto.
Qed.

Lemma sent_in m v ms : In v (sent_to m ms) <-> In (m, v) ms.
Proof.
  unfold sent_to. rewrite in_map_iff. split.
  - intros [[t v'] [E H]]. cbn in E. subst v'. apply filter_In in H. destruct H as [H E]. cbn in E.
    apply Nat.eqb_eq in E. subst. exact H.
  - intros H. exists (m, v). split; [reflexivity|]. apply filter_In. split; [exact H|apply Nat.eqb_refl].
Qed.

Lemma live_in f p ms : In p (live f ms) <-> In p ms /\ unused f (fst p) = false.
Proof. unfold live. rewrite filter_In, Bool.negb_true_iff. tauto. Qed.

Definition noticed (f : workflow) (o : oworld) (s : entity) : Prop := exists n, In (notice_of f n s) (told o).

(** What is known of a collect told of a disposal, once its listener ran. *)
Definition heard (f : workflow) (o : oworld) (s : entity) (origin : entity) (n : entity) : Prop :=
  noticed f o s \/
  (exists t, In t (node_targets f n) /\ (waits o s t \/ unused f t = true)) \/
  (exists m, reaches f m n /\ (waits o s m \/ (m <> n /\ told_of f (Some origin) m))).

Lemma noticed_change f o o' s ms ns cs s' : change f o o' s ms ns cs -> noticed f o s' -> noticed f o' s'.
Proof.
  intros C [n H]. exists n. rewrite (ch_told _ _ _ _ _ _ _ C). apply in_or_app. auto.
Qed.

Lemma heard_change f o o' s ms ns cs origin n : change f o o' s ms ns cs ->
  heard f o s origin n -> heard f o' s origin n.
Proof.
  intros C [H|[[t [Ht H]]|[m [Hr H]]]].
  - left. exact (noticed_change _ _ _ _ _ _ _ _ C H).
  - right. left. exists t. split; [exact Ht|]. destruct H as [H|H]; [|auto]. left.
    exact (waits_change _ _ _ _ _ _ _ _ _ C H).
  - right. right. exists m. split; [exact Hr|]. destruct H as [H|H]; [|auto]. left.
    exact (waits_change _ _ _ _ _ _ _ _ _ C H).
Qed.

(** The batches sent by listeners, and what is gathered afterwards. *)
Definition batch_of (f : workflow) (o : oworld) (s : entity) (p : entity * val) : Prop :=
  exists n min max l, f_kind f n = Some (OCollect min max (fst p)) /\ snd p = VList l /\ min <= length l /\
    (l = progress o n s \/ l = []).
Definition shrunk (o o' : oworld) : Prop :=
  forall n s, progress o' n s = progress o n s \/ progress o' n s = [].

Lemma gathered_shrunk o o' n s l : gathered o o' n s l -> l = progress o n s \/ l = [] -> shrunk o o'.
Proof.
  intros H Hl n' s'. rewrite H. destruct (Nat.eqb_spec n' n) as [->|]; [|auto].
  destruct (Nat.eqb_spec s' s) as [->|]; auto.
Qed.

(** Messages sent while handling a notice of a session. *)
Definition told_only (f : workflow) (s : entity) (ns : list disposal_notice) : Prop :=
  Forall (fun d => d_source d = f_scope f /\ d_session d = s) ns.

Lemma listener_ok f n min max t origin s o :
  built f -> shaped f o -> f_kind f n = Some (OCollect min max t) ->
  exists o' ms ns,
    collect_disposal (upstream_active f) (downstream f) min t n origin s o = (o', OpOk) /\
    change f o o' s ms ns [] /\ told_only f s ns /\ ((forall p, In p ms -> batch_of f o s p) /\ shrunk o o') /\
    (ms <> [] -> w_status (o_w o) s = Some Active) /\
    (told_of f (Some origin) n -> w_status (o_w o) s = Some Active -> n <> origin -> heard f o' s origin n) /\
    (downstream f origin n = false -> o' = o /\ ms = [] /\ ns = []).
Proof.
  intros Hb Ho Hk. assert (Hc : is_collect f n = true) by (unfold is_collect; rewrite Hk; reflexivity).
  assert (Ht : In t (node_targets f n)) by (unfold node_targets; rewrite Hk; left; reflexivity).
  assert (Hid : forall P : Prop, (told_of f (Some origin) n -> w_status (o_w o) s = Some Active ->
            n <> origin -> heard f o s origin n) ->
     exists o' ms ns, (o, OpOk) = (o', OpOk) /\ change f o o' s ms ns [] /\ told_only f s ns /\
     ((forall p, In p ms -> batch_of f o s p) /\ shrunk o o') /\
    (ms <> [] -> w_status (o_w o) s = Some Active) /\
    (told_of f (Some origin) n -> w_status (o_w o) s = Some Active -> n <> origin -> heard f o' s origin n) /\
    (downstream f origin n = false -> o' = o /\ ms = [] /\ ns = [])).
  { intros _ H. exists o, [], []. split; [reflexivity|]. split; [apply change_refl, Ho|].
    split; [constructor|]. split; [split; [intros p []|intros n' s'; auto]|]. split; [congruence|]. auto. }
  unfold collect_disposal. destruct (Nat.eqb_spec n origin) as [->|Hne].
  { apply (Hid True). intros _ _ H. congruence. }
  destruct (downstream f origin n) eqn:Ed; cbn [negb].
  2:{ apply (Hid True). intros [_ [d [E H]]]. injection E as <-. congruence. }
  destruct (upstream_active f o s n (Some origin)) as [[|]|] eqn:Ea.
  - apply (Hid True). intros _ _ _. right. right.
    destruct (active_source f o s n (Some origin) Ho Hc Ea) as [m Hm]. eauto.
  - destruct (unreachable_change f o n s t min Hb Ho Hc Ht)
      as [o3 [ms [ns [E3 [C3 H3]]]]]. cbn zeta in *.
    exists o3, ms, ns. split; [exact E3|]. split; [exact C3|].
    destruct H3 as [[-> [-> G]]|[[-> [Hact [-> [Hmin G]]]]|[-> [-> [H3 G]]]]];
      pose proof (gathered_shrunk _ _ _ _ _ G) as Hsh.
    + split; [repeat constructor|]. split; [split; [intros p []|auto]|]. split; [congruence|]. split; [|congruence].
      intros _ _ _. left. exists n. rewrite (ch_told _ _ _ _ _ _ _ C3). apply in_or_app. right. left. reflexivity.
    + split; [constructor|]. split.
      { split; [|auto]. intros p [<-|[]]. exists n, min, max, (progress o n s). cbn. auto. }
      split; [auto|]. split; [|congruence].
      intros _ _ _. right. left. exists t. split; [exact Ht|].
      destruct (unused f t) eqn:Eu; [auto|]. left. exists (VList (progress o n s)).
      rewrite (ch_pending _ _ _ _ _ _ _ C3).
      apply in_or_app. right. apply in_map. apply sent_in, live_in. split; [left; reflexivity|exact Eu].
    + split; [constructor|]. split; [split; [intros p []|auto]|]. split; [congruence|]. split; [|congruence].
      intros _ Ha. congruence.
  - exfalso. exact (active_answer f _ s n (Some origin) Hb Ho Hc Ea).
Qed.

Lemma told_app f s a b : told_only f s a -> told_only f s b -> told_only f s (a ++ b).
Proof. apply Forall_app_2 || (intros; apply Forall_app; auto). Qed.

Lemma listeners_ok f origin s : built f -> forall l o, shaped f o ->
  exists o' ms ns, listeners f origin s l o = (o', true) /\ change f o o' s ms ns [] /\
    told_only f s ns /\ ((forall p, In p ms -> batch_of f o s p) /\ shrunk o o') /\
    (ms <> [] -> w_status (o_w o) s = Some Active) /\
    (forall n, In n l -> told_of f (Some origin) n -> w_status (o_w o) s = Some Active -> n <> origin ->
       heard f o' s origin n) /\
    ((forall n, downstream f origin n = false) -> o' = o /\ ms = [] /\ ns = []).
Proof.
  intros Hb. induction l as [|n l IH]; intros o Ho.
  - exists o, [], []. split; [reflexivity|]. split; [apply change_refl, Ho|]. split; [constructor|].
    split; [split; [intros p []|intros n' s'; auto]|]. split; [congruence|]. split; [intros n []|auto].
  - cbn [listeners]. destruct (is_collect f n) eqn:Ec.
    + destruct (collect_kind f n Ec) as [min [max [t Hk]]]. rewrite Hk.
      destruct (listener_ok f n min max t origin s o Hb Ho Hk) as [o1 [ms1 [ns1 [E1 [C1 [T1 [M1 [A1 [H1 D1]]]]]]]]].
      rewrite E1. destruct (IH o1 (ch_shaped _ _ _ _ _ _ _ C1)) as [o2 [ms2 [ns2 [E2 [C2 [T2 [M2 [A2 [H2 D2]]]]]]]]].
      rewrite (ch_status _ _ _ _ _ _ _ C1) in A2, H2.
      exists o2, (ms1 ++ ms2), (ns1 ++ ns2). split; [exact E2|].
      split; [exact (change_trans f _ _ _ s _ _ _ _ [] [] C1 C2)|]. split; [apply told_app; assumption|].
      split; [|split; [|split]].
      * destruct M1 as [M1 S1], M2 as [M2 S2]. split.
        -- intros p Hp. apply in_app_or in Hp. destruct Hp as [Hp|Hp]; [apply M1, Hp|].
           destruct (M2 p Hp) as [n' [min' [max' [l' [Q1 [Q2 [Q3 Q4]]]]]]]. exists n', min', max', l'.
           split; [exact Q1|]. split; [exact Q2|]. split; [exact Q3|]. destruct Q4 as [->|Q4]; [apply S1|auto].
        -- intros n' s'. destruct (S2 n' s') as [->|]; [apply S1|auto].
      * intros Hne. destruct ms1 as [|p ms1]; [apply A2, Hne|apply A1; discriminate].
      * intros x [<-|Hx] Ht Ha Hne; [|apply H2; assumption].
        apply (heard_change _ _ _ _ _ _ _ _ _ C2). apply H1; assumption.
      * intros Hd. destruct (D1 (Hd n)) as [-> [-> ->]]. destruct (D2 Hd) as [-> [-> ->]]. auto.
    + assert (El : listeners f origin s (n :: l) o = listeners f origin s l o).
      { cbn [listeners]. unfold is_collect in Ec. destruct (f_kind f n) as [[]|]; try reflexivity. discriminate. }
      cbn [listeners] in El. rewrite El.
      destruct (IH o Ho) as [o2 [ms2 [ns2 [E2 [C2 [T2 [M2 [A2 [H2 D2]]]]]]]]].
      exists o2, ms2, ns2. split; [exact E2|]. split; [exact C2|]. split; [exact T2|]. split; [exact M2|].
      split; [exact A2|]. split; [|exact D2]. intros x [<-|Hx] Ht Ha Hne; [|apply H2; assumption].
      destruct Ht as [Ht _]. congruence.
Qed.

(** ** The end of a session *)
Definition others (s : entity) (l : list (entity * val)) : list (entity * val) :=
  filter (fun i => negb (Nat.eqb (fst i) s)) l.

Lemma others_in s i l : In i (others s l) <-> In i l /\ fst i <> s.
Proof.
  unfold others. rewrite filter_In, Bool.negb_true_iff, Nat.eqb_neq. tauto.
Qed.

Lemma filter_rev' {A} (P : A -> bool) l : filter P (rev l) = rev (filter P l).
Proof.
  induction l as [|x l IH]; [reflexivity|]. cbn. rewrite filter_app, IH. cbn. destruct (P x); cbn; [reflexivity|].
  rewrite app_nil_r. reflexivity.
Qed.

Lemma cleanup_inputs_effect f o n s : shaped f o ->
  shaped f (with_w o (cleanup_inputs (o_w o) n s)) /\
  (forall m, pending (cleanup_inputs (o_w o) n s) m
             = if Nat.eqb m n then others s (pending (o_w o) m) else pending (o_w o) m) /\
  w_status (cleanup_inputs (o_w o) n s) = w_status (o_w o) /\
  w_roster (cleanup_inputs (o_w o) n s) = w_roster (o_w o).
Proof.
  intros [Hn Hsc]. unfold cleanup_inputs. destruct (w_nodes (o_w o) n) as [nd|] eqn:En.
  - split; [|split; [|split; reflexivity]].
    + split; [|exact Hsc]. intros m. cbn -[emap_set]. destruct (Nat.eq_dec m n) as [->|Hne].
      * rewrite emap_set_eq. specialize (Hn n). rewrite En in Hn.
        assert (Hgen : (exists nd0 q, Some nd = Some nd0 /\ n_inputs nd0 = Some q /\ n_buffer nd0 = None) ->
          exists nd0 q, Some (cleanup_inputs_node nd s) = Some nd0 /\ n_inputs nd0 = Some q /\ n_buffer nd0 = None).
        { intros [nd0 [q [E [E1 E2]]]]. injection E as <-. unfold cleanup_inputs_node. rewrite E1, E2.
          eexists _, _. split; [reflexivity|]. split; reflexivity. }
        destruct (f_kind f n) as [k|]; [|discriminate]. destruct k; try (apply Hgen, Hn).
        destruct Hn as [nd0 [E [E1 E2]]]. injection E as <-. exists nd.
        assert (Ec : cleanup_inputs_node nd s = nd) by (unfold cleanup_inputs_node; rewrite E1; destruct (n_buffer nd); reflexivity).
        rewrite Ec. auto.
      * rewrite emap_set_neq by assumption. apply Hn.
    + intros m. rewrite !pending_node. cbn -[emap_set]. destruct (Nat.eqb_spec m n) as [->|Hne].
      * rewrite emap_set_eq, En. unfold cleanup_inputs_node.
        destruct (n_buffer nd), (n_inputs nd) as [q|] eqn:Eq; cbn; rewrite ?Eq; try reflexivity;
          unfold others; rewrite filter_rev'; reflexivity.
      * rewrite emap_set_neq by assumption. reflexivity.
  - split; [rewrite with_w_id; split; assumption|]. split; [|split; reflexivity].
    intros m. destruct (Nat.eqb_spec m n) as [->|Hne]; [|reflexivity].
    rewrite pending_node, En. reflexivity.
Qed.

(** [clean_node], on messages, statuses and roster. *)
Lemma clean_node_effect f s o n : shaped f o ->
  shaped f (clean_node f s o n) /\
  (forall m, pending (o_w (clean_node f s o n)) m
             = if Nat.eqb m n && negb (match f_kind f n with Some OTerminate => true | _ => false end)
               then others s (pending (o_w o) m) else pending (o_w o) m) /\
  w_status (o_w (clean_node f s o n)) = w_status (o_w o) /\
  w_roster (o_w (clean_node f s o n)) = w_roster (o_w o).
Proof.
  intros Ho. destruct (cleanup_inputs_effect f o n s Ho) as [H1 [H2 [H3 H4]]].
  unfold clean_node. pose proof (proj1 Ho n) as Hn.
  destruct (f_kind f n) as [k|] eqn:Ek; [destruct k|]; cbn [negb];
    try (split; [exact H1|]; split; [intros m; rewrite Bool.andb_true_r; apply H2|split; [exact H3|exact H4]]).
  - split; [exact Ho|]. split; [|split; reflexivity]. intros m. rewrite Bool.andb_false_r. reflexivity.
  - split; [exact Ho|]. split; [|split; reflexivity]. intros m. rewrite Bool.andb_true_r.
    destruct (Nat.eqb_spec m n) as [->|Hne]; [|reflexivity]. rewrite pending_node.
    destruct Hn as [nd [-> [-> _]]]. reflexivity.
  - split; [exact Ho|]. split; [|split; reflexivity]. intros m. rewrite Bool.andb_true_r.
    destruct (Nat.eqb_spec m n) as [->|Hne]; [|reflexivity]. rewrite pending_node, Hn. reflexivity.
Qed.

Lemma others_twice s l : others s (others s l) = others s l.
Proof.
  unfold others. induction l as [|x l IH]; [reflexivity|]. cbn. destruct (negb (fst x =? s)) eqn:E; cbn; [|exact IH].
  rewrite E, IH. reflexivity.
Qed.

Lemma clean_all_effect f s : forall l o, shaped f o ->
  let o' := fold_left (clean_node f s) l o in
  shaped f o' /\
  (forall m, f_kind f m <> Some OTerminate -> In m l -> pending (o_w o') m = others s (pending (o_w o) m)) /\
  (forall m, f_kind f m = Some OTerminate \/ ~ In m l -> pending (o_w o') m = pending (o_w o) m) /\
  w_status (o_w o') = w_status (o_w o) /\ w_roster (o_w o') = w_roster (o_w o).
Proof.
  induction l as [|n l IH]; intros o Ho; cbn zeta.
  - cbn [fold_left]. split; [exact Ho|]. split; [intros m _ []|]. auto.
  - cbn [fold_left]. destruct (clean_node_effect f s o n Ho) as [H1 [H2 [H3 H4]]].
    destruct (IH _ H1) as [I1 [I2 [I3 [I4 I5]]]]. split; [exact I1|]. split; [|split; [|split; congruence]].
    + intros m Hk Hin. destruct (in_dec Nat.eq_dec m l) as [Hl|Hl].
      * rewrite (I2 m Hk Hl), H2. destruct (Nat.eqb_spec m n) as [->|]; cbn [andb]; [|reflexivity].
        destruct (f_kind f n) as [[]|]; cbn; try apply others_twice. congruence.
      * rewrite (I3 m (or_intror Hl)), H2. destruct Hin as [<-|Hin]; [|contradiction].
        rewrite Nat.eqb_refl. cbn [andb]. destruct (f_kind f n) as [[]|]; cbn; try reflexivity. congruence.
    + intros m Hm. rewrite I3.
      * rewrite H2. destruct (Nat.eqb_spec m n) as [->|]; cbn [andb]; [|reflexivity].
        destruct Hm as [->|Hm]; [reflexivity|]. exfalso. apply Hm. left. reflexivity.
      * destruct Hm as [Hm|Hm]; [auto|]. right. intros H. apply Hm. right. exact H.
Qed.

Definition is_out (e : xevent) : bool := match e with EOut _ _ => true | _ => false end.

Lemma finish_effect f s e x : built f -> shaped f (x_o x) -> In s (x_ongoing x) ->
  let x' := finish f s e x in
  shaped f (x_o x') /\
  (forall m, pending (o_w (x_o x')) m
     = if Nat.eqb m (f_terminal f) && is_out e then pending (o_w (x_o x)) m else others s (pending (o_w (x_o x)) m)) /\
  (forall s', w_status (o_w (x_o x')) s' = if Nat.eqb s' s then None else w_status (o_w (x_o x)) s') /\
  w_roster (o_w (x_o x')) = w_roster (o_w (x_o x)) /\
  x_ongoing x' = filter (fun s' => negb (Nat.eqb s' s)) (x_ongoing x) /\
  x_initial x' = x_initial x /\ x_log x' = x_log x ++ [e].
Proof.
  intros Hb Ho Hin. cbn zeta. unfold finish.
  assert (E : existsb (Nat.eqb s) (x_ongoing x) = true) by (apply existsb_eqb, Hin). rewrite E.
  destruct (clean_all_effect f s (f_nodes f) (x_o x) Ho) as [H1 [H2 [H3 [H4 H5]]]].
  set (o1 := fold_left (clean_node f s) (f_nodes f) (x_o x)) in *.
  assert (Hp : forall m, pending (o_w o1) m
     = if Nat.eqb m (f_terminal f) then pending (o_w (x_o x)) m else others s (pending (o_w (x_o x)) m)).
  { intros m. destruct Hb as (_ & Hn & _ & _ & Ht & _). destruct (Nat.eqb_spec m (f_terminal f)) as [->|Hne].
    - apply H3. left. apply Ht. reflexivity.
    - destruct (in_dec Nat.eq_dec m (f_nodes f)) as [Hm|Hm].
      + apply H2; [|exact Hm]. intros Hk. apply Hne, Ht, Hk.
      + rewrite H3 by auto. pose proof (proj1 Ho m) as Hk.
        destruct (f_kind f m) eqn:Ek; [exfalso; apply Hm, Hn; congruence|]. rewrite pending_node, Hk. reflexivity. }
  destruct (is_out e) eqn:Ee.
  - destruct e; try discriminate. cbn [x_o x_ongoing x_initial x_log]. split; [exact H1|]. split.
    + intros m. rewrite Bool.andb_true_r. apply Hp.
    + split; [intros s'; cbn; rewrite H4; unfold emap_set; rewrite (Nat.eqb_sym s' s) || idtac; reflexivity|].
      cbn. auto.
  - destruct (cleanup_inputs_effect f o1 (f_terminal f) s H1) as [K1 [K2 [K3 K4]]].
    assert (Eo : (match e with EOut _ _ => o1 | _ => with_w o1 (cleanup_inputs (o_w o1) (f_terminal f) s) end)
                 = with_w o1 (cleanup_inputs (o_w o1) (f_terminal f) s)) by (destruct e; [reflexivity|discriminate|reflexivity..]).
    rewrite Eo. cbn [x_o x_ongoing x_initial x_log]. split; [exact K1|]. split.
    + intros m. rewrite Bool.andb_false_r.
      change (pending (cleanup_inputs (o_w o1) (f_terminal f) s) m = others s (pending (o_w (x_o x)) m)).
      rewrite K2, Hp. destruct (Nat.eqb m (f_terminal f)); reflexivity.
    + split; [intros s'; cbn -[emap_set cleanup_inputs]; rewrite K3, H4; unfold emap_set; reflexivity|].
      cbn -[cleanup_inputs]. rewrite K4. auto.
Qed.

Lemma finish_other f s e x : ~ In s (x_ongoing x) -> finish f s e x = x.
Proof.
  intros H. unfold finish. destruct (existsb (Nat.eqb s) (x_ongoing x)) eqn:E; [|reflexivity].
  apply existsb_eqb in E. contradiction.
Qed.
