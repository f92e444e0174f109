(** The invariant of a running workflow: every session which runs has something on its way
    to the terminal, or is about to be checked or cancelled. *)
From Verif Require Import Base RosterModel BufferModel InputModel InputSpec InputProofs GateModel
  OpsModel OpsSpec OpsProofs ReachModel ReachSpec ReachProofs ExecModel ExecSpec ExecProofs ExecProofs2 ExecProofs3.

Record base (f : workflow) (x : xworld) : Prop := mk_base {
  b_shaped : shaped f (x_o x);
  b_status : forall s, w_status (o_w (x_o x)) s = Some Active <-> In s (x_ongoing x);
  b_pend : forall s v n, In (s, v) (pending (o_w (x_o x)) n) -> n <> f_terminal f -> In s (x_ongoing x);
  b_known : forall s v n, In (s, v) (pending (o_w (x_o x)) n) -> known s (x_log x) = true;
  b_queue : forall n, length (pending (o_w (x_o x)) n) <= count_occ Nat.eq_dec (queue (x_o x)) n;
  b_init : x_initial x = Some IConfirmed \/ x_initial x = Some IInvalidated -> circular f (f_nodes f) = false;
  b_entry : x_initial x = Some IConfirmed -> leads f (f_entry f) /\ unused f (f_entry f) = false;
  b_run : forall s, In s (x_ongoing x) -> known s (x_log x) = true /\ endings x s = [];
  b_over : forall s, known s (x_log x) = true -> ~ In s (x_ongoing x) -> exists e, endings x s = [e];
  b_new : forall s, known s (x_log x) = false -> endings x s = []
}.

(** Sessions only run if no two collects are in a cycle. *)
Definition calm (f : workflow) (x : xworld) : Prop := x_ongoing x <> [] -> circular f (f_nodes f) = false.

(** Something will still happen to the session. *)
Definition alive (f : workflow) (o : oworld) (s : entity) : Prop :=
  (exists m, waits o s m /\ leads f m) \/ noticed f o s \/
  (exists c, In c (asked o) /\ c_target c = f_scope f /\ (c_session c = Some s \/ c_session c = None)).

Definition all_alive (f : workflow) (x : xworld) : Prop := forall s, In s (x_ongoing x) -> alive f (x_o x) s.

Lemma alive_change f o o' s ms ns cs s' : change f o o' s ms ns cs -> alive f o s' -> alive f o' s'.
Proof.
  intros C [[m [H1 H2]]|[H|[c [H1 H2]]]].
  - left. exists m. split; [exact (waits_change _ _ _ _ _ _ _ _ _ C H1)|exact H2].
  - right. left. exact (noticed_change _ _ _ _ _ _ _ _ C H).
  - right. right. exists c. split; [|exact H2]. rewrite (ch_asked _ _ _ _ _ _ _ C). apply in_or_app. auto.
Qed.

Lemma after_take_in w n m (i : entity * val) : In i (after_take w n m) -> In i (pending w m).
Proof.
  unfold after_take. destruct (Nat.eqb_spec m n) as [->|]; [|auto]. destruct (pending w n); [intros []|].
  cbn. auto.
Qed.

Lemma sent_length_le f m ms :
  length (sent_to m (live f ms)) <= count_occ Nat.eq_dec (map fst ms) m.
Proof.
  induction ms as [|[t v] ms IH]; [reflexivity|]. unfold sent_to, live in *. cbn [filter fst map count_occ].
  destruct (unused f t); cbn [negb]; destruct (Nat.eq_dec t m) as [->|Hne]; cbn [filter fst].
  - lia.
  - exact IH.
  - rewrite Nat.eqb_refl. cbn. lia.
  - destruct (Nat.eqb_spec t m); [congruence|]. exact IH.
Qed.

Lemma endings_tell x e s o : ends s e = false ->
  endings (mk_x o (x_ongoing x) (x_initial x) (x_log x ++ [e])) s = endings x s.
Proof. intros H. unfold endings. cbn. rewrite filter_app. cbn. rewrite H, app_nil_r. reflexivity. Qed.

(** Changes of the operations' world. *)
Lemma base_change f x o' s ms ns cs :
  base f x -> change f (x_o x) o' s ms ns cs -> (ms <> [] -> In s (x_ongoing x)) -> base f (set_o x o').
Proof.
  intros B C Hm.
  assert (Hin : forall s' v n, In (s', v) (pending (o_w o') n) ->
            In (s', v) (pending (o_w (x_o x)) n) \/ (s' = s /\ ms <> [])).
  { intros s' v n H. rewrite (ch_pending _ _ _ _ _ _ _ C) in H. apply in_app_or in H. destruct H as [H|H]; [auto|].
    right. apply in_map_iff in H. destruct H as [v' [E H]]. injection E as <- <-. split; [reflexivity|].
    intros ->. destruct H. }
  split; cbn [set_o x_o x_ongoing x_initial x_log].
  - exact (ch_shaped _ _ _ _ _ _ _ C).
  - intros s'. rewrite (ch_status _ _ _ _ _ _ _ C). apply (b_status _ _ B).
  - intros s' v n H Hn. destruct (Hin _ _ _ H) as [H1|[-> H1]]; [exact (b_pend _ _ B _ _ _ H1 Hn)|auto].
  - intros s' v n H. destruct (Hin _ _ _ H) as [H1|[-> H1]]; [exact (b_known _ _ B _ _ _ H1)|].
    apply (b_run _ _ B), Hm, H1.
  - intros n. rewrite (ch_pending _ _ _ _ _ _ _ C), (ch_queue _ _ _ _ _ _ _ C), app_length, map_length, count_occ_app.
    pose proof (b_queue _ _ B n). pose proof (sent_length_le f n ms). lia.
  - apply (b_init _ _ B).
  - apply (b_entry _ _ B).
  - apply (b_run _ _ B).
  - apply (b_over _ _ B).
  - apply (b_new _ _ B).
Qed.

Lemma known_app s l e : known s (l ++ [e]) = known s l || match e with EStart s' _ => Nat.eqb s s' | _ => false end.
Proof. unfold known. rewrite existsb_app. cbn. rewrite Bool.orb_false_r. reflexivity. Qed.

Lemma base_tell f x e : (forall s, ends s e = false) -> (forall s v, e <> EStart s v) -> base f x -> base f (tell x e).
Proof.
  intros He Hs [H1 H2 H3 H4 H5 H7 H8 H9 H10 H11].
  assert (Hk : forall s, known s (x_log x ++ [e]) = known s (x_log x)).
  { intros s. rewrite known_app. destruct e; try apply Bool.orb_false_r. exfalso. eapply Hs. reflexivity. }
  assert (Hen : forall s, endings (mk_x (x_o x) (x_ongoing x) (x_initial x) (x_log x ++ [e])) s = endings x s) by (intros s; apply endings_tell, He).
  split; cbn [tell x_o x_ongoing x_initial x_log]; auto.
  - intros s v n H. rewrite Hk. eauto.
  - intros s H. rewrite Hk, Hen. auto.
  - intros s. rewrite Hk, Hen. auto.
  - intros s. rewrite Hk, Hen. auto.
Qed.

(** One message was taken by [n]. *)
Lemma base_did f x o' n rest s v more ms ns cs :
  base f x -> queue (x_o x) = n :: rest -> pending (o_w (x_o x)) n = (s, v) :: more ->
  (forall m, pending (o_w o') m = after_take (o_w (x_o x)) n m ++ map (pair s) (sent_to m (live f ms))) ->
  w_status (o_w o') = w_status (o_w (x_o x)) -> queue o' = rest ++ map fst ms ->
  told o' = told (x_o x) ++ ns -> asked o' = asked (x_o x) ++ cs -> shaped f o' ->
  (ms <> [] -> In s (x_ongoing x)) -> base f (set_o x o').
Proof.
  intros B Hq Hp DP DS DQ DT DA DH Hm.
  assert (Hin : forall s' v' m, In (s', v') (pending (o_w o') m) ->
            In (s', v') (pending (o_w (x_o x)) m) \/ (s' = s /\ ms <> [])).
  { intros s' v' m H. rewrite DP in H. apply in_app_or in H. destruct H as [H|H].
    - left. exact (after_take_in _ _ _ _ H).
    - right. apply in_map_iff in H. destruct H as [v0 [E H]]. injection E as <- <-. split; [reflexivity|].
      intros ->. destruct H. }
  split; cbn [set_o x_o x_ongoing x_initial x_log].
  - exact DH.
  - intros s'. rewrite DS. apply (b_status _ _ B).
  - intros s' v' m H Hn. destruct (Hin _ _ _ H) as [H1|[-> H1]]; [exact (b_pend _ _ B _ _ _ H1 Hn)|auto].
  - intros s' v' m H. destruct (Hin _ _ _ H) as [H1|[-> H1]]; [exact (b_known _ _ B _ _ _ H1)|].
    apply (b_run _ _ B), Hm, H1.
  - intros m. rewrite DP, DQ, app_length, map_length, count_occ_app.
    pose proof (b_queue _ _ B m) as H1. rewrite Hq in H1. pose proof (sent_length_le f m ms). unfold after_take.
    cbn [count_occ] in H1. destruct (Nat.eqb_spec m n) as [->|Hne].
    + rewrite Hp in *. cbn in *. destruct (Nat.eq_dec n n); [lia|congruence].
    + destruct (Nat.eq_dec n m); [congruence|lia].
  - apply (b_init _ _ B).
  - apply (b_entry _ _ B).
  - apply (b_run _ _ B).
  - apply (b_over _ _ B).
  - apply (b_new _ _ B).
Qed.

(** The queue entry of a node without messages is passed over. *)
Lemma base_skip f x o' n rest :
  base f x -> queue (x_o x) = n :: rest -> pending (o_w (x_o x)) n = [] ->
  (forall m, pending (o_w o') m = pending (o_w (x_o x)) m) ->
  w_status (o_w o') = w_status (o_w (x_o x)) -> queue o' = rest -> shaped f o' -> base f (set_o x o').
Proof.
  intros B Hq Hp DP DS DQ DH. split; cbn [set_o x_o x_ongoing x_initial x_log]; try apply B.
  - exact DH.
  - intros s'. rewrite DS. apply (b_status _ _ B).
  - intros s v m. rewrite DP. apply (b_pend _ _ B).
  - intros s v m. rewrite DP. apply (b_known _ _ B).
  - intros m. rewrite DP, DQ. pose proof (b_queue _ _ B m) as H. rewrite Hq in H. cbn in H.
    destruct (Nat.eq_dec n m) as [<-|]; [rewrite Hp; cbn; lia|exact H].
Qed.

Lemma filter_not_in s l s' : In s' (filter (fun a => negb (Nat.eqb a s)) l) <-> In s' l /\ s' <> s.
Proof. rewrite filter_In, Bool.negb_true_iff, Nat.eqb_neq. tauto. Qed.

Lemma others_length s l : length (others s l) <= length l.
Proof. apply filter_length_le. Qed.

Lemma base_finish f x s e :
  built f -> base f x -> (forall s', ends s' e = Nat.eqb s s') -> (forall a v, e <> EStart a v) ->
  base f (finish f s e x).
Proof.
  intros Hb B He Hns. destruct (in_dec Nat.eq_dec s (x_ongoing x)) as [Hin|Hin]; [|rewrite finish_other; assumption].
  destruct (finish_effect f s e x Hb (b_shaped _ _ B) Hin) as [F1 [F2 [F3 [F4 [F5 [F6 F7]]]]]].
  cbn zeta in *. set (x' := finish f s e x) in *.
  assert (Hp : forall s' v m, In (s', v) (pending (o_w (x_o x')) m) -> In (s', v) (pending (o_w (x_o x)) m) /\
             (m <> f_terminal f -> s' <> s)).
  { intros s' v m H. rewrite F2 in H. destruct (Nat.eqb_spec m (f_terminal f)) as [E|Hne].
    - split; [|congruence]. destruct (is_out e); cbn in H; [exact H|]. apply others_in in H. tauto.
    - cbn [andb] in H. apply others_in in H. cbn in H. tauto. }
  assert (Hk : forall s', known s' (x_log x') = known s' (x_log x)).
  { intros s'. rewrite F7, known_app. destruct e; try apply Bool.orb_false_r. exfalso. eapply Hns. reflexivity. }
  assert (Hen : forall s', endings x' s' = endings x s' ++ if Nat.eqb s s' then [e] else []).
  { intros s'. unfold endings. rewrite F7, filter_app. cbn. rewrite He. destruct (Nat.eqb s s'); reflexivity. }
  split.
  - exact F1.
  - intros s'. rewrite F3, F5, filter_not_in. destruct (Nat.eqb_spec s' s) as [->|Hne].
    + split; [discriminate|]. intros [_ H]. congruence.
    + rewrite (b_status _ _ B). tauto.
  - intros s' v n H Hn. destruct (Hp _ _ _ H) as [H1 H2]. rewrite F5, filter_not_in. split; [|auto].
    exact (b_pend _ _ B _ _ _ H1 Hn).
  - intros s' v n H. rewrite Hk. exact (b_known _ _ B _ _ _ (proj1 (Hp _ _ _ H))).
  - intros n. rewrite F2, F4. pose proof (b_queue _ _ B n) as H. pose proof (others_length s (pending (o_w (x_o x)) n)).
    destruct (Nat.eqb n (f_terminal f) && is_out e); lia.
  - rewrite F6. apply (b_init _ _ B).
  - rewrite F6. apply (b_entry _ _ B).
  - intros s'. rewrite F5, filter_not_in, Hk, Hen. intros [H Hne]. destruct (Nat.eqb_spec s s'); [congruence|].
    rewrite app_nil_r. apply (b_run _ _ B), H.
  - intros s'. rewrite F5, filter_not_in, Hk, Hen. intros H1 H2. destruct (Nat.eqb_spec s s') as [<-|Hne].
    + rewrite (proj2 (b_run _ _ B s Hin)). exists e. reflexivity.
    + rewrite app_nil_r. apply (b_over _ _ B); [exact H1|]. intros H. apply H2. auto.
  - intros s'. rewrite Hk, Hen. intros H. destruct (Nat.eqb_spec s s') as [<-|Hne].
    + rewrite (proj1 (b_run _ _ B s Hin)) in H. discriminate.
    + rewrite app_nil_r. apply (b_new _ _ B), H.
Qed.

Lemma alive_finish f x s e s' : built f -> base f x -> s' <> s -> alive f (x_o x) s' -> alive f (x_o (finish f s e x)) s'.
Proof.
  intros Hb B Hne Ha. destruct (in_dec Nat.eq_dec s (x_ongoing x)) as [Hin|Hin]; [|rewrite finish_other; assumption].
  destruct (finish_effect f s e x Hb (b_shaped _ _ B) Hin) as [F1 [F2 [F3 [F4 _]]]]. cbn zeta in *.
  destruct Ha as [[m [[v H1] H2]]|[H|H]].
  - left. exists m. split; [|exact H2]. exists v. rewrite F2.
    destruct (Nat.eqb m (f_terminal f) && is_out e); [exact H1|]. apply others_in. auto.
  - right. left. unfold noticed. rewrite F4. exact H.
  - right. right. rewrite F4. exact H.
Qed.

Lemma ongoing_finish f x s e s' : In s' (x_ongoing (finish f s e x)) <-> In s' (x_ongoing x) /\ s' <> s.
Proof.
  unfold finish. destruct (existsb (Nat.eqb s) (x_ongoing x)) eqn:E; cbn [x_ongoing].
  - apply filter_not_in.
  - split; [|tauto]. intros H. split; [exact H|]. intros ->.
    assert (existsb (Nat.eqb s) (x_ongoing x) = true) by (apply existsb_eqb, H). congruence.
Qed.

Lemma all_alive_finish f x s e : built f -> base f x ->
  (forall s', In s' (x_ongoing x) -> s' <> s -> alive f (x_o x) s') -> all_alive f (finish f s e x).
Proof.
  intros Hb B H s' Hin. apply ongoing_finish in Hin. destruct Hin as [H1 H2].
  apply alive_finish; auto.
Qed.

Lemma initial_finish f x s e : x_initial (finish f s e x) = x_initial x.
Proof. unfold finish. destruct (existsb (Nat.eqb s) (x_ongoing x)); reflexivity. Qed.

(** ** Collects which were told of a disposal *)
(** The collects upstream of [n]. *)
Definition above (f : workflow) (n : entity) : list entity :=
  filter (fun c => is_collect f c && downstream f c n) (f_nodes f).

Lemma collect_node f n : built f -> is_collect f n = true -> In n (f_nodes f) /\ f_kind f n <> None.
Proof.
  intros (_ & Hn & _) H. destruct (collect_kind f n H) as [a [b [c E]]]. rewrite Hn, E. split; discriminate.
Qed.

Lemma above_lt f m n : built f -> circular f (f_nodes f) = false -> is_collect f m = true -> is_collect f n = true ->
  m <> n -> reaches f m n -> length (above f m) < length (above f n).
Proof.
  intros Hb Hc Cm Cn Hne Hr.
  destruct (collect_node f m Hb Cm) as [Im Km]. destruct (collect_node f n Hb Cn) as [In_ Kn].
  assert (Dmn : downstream f m n = true) by (apply downstream_iff; auto).
  assert (Hsub : forall c, In c (above f m) -> In c (above f n)).
  { intros c. unfold above. rewrite !filter_In, !Bool.andb_true_iff. intros [H1 [H2 H3]].
    split; [exact H1|]. split; [exact H2|].
    destruct (collect_node f c Hb H2) as [Ic Kc]. apply downstream_iff; auto.
    apply downstream_iff in H3; auto. destruct H3 as [H3 H4]. split.
    - intros ->. apply (not_circular f (f_nodes f) m n); auto. apply downstream_iff; auto.
    - exact (reaches_trans f c m n H4 Hr). }
  assert (Hm1 : In m (above f n)).
  { unfold above. rewrite filter_In, Cm, Dmn. auto. }
  assert (Hm2 : ~ In m (above f m)).
  { unfold above. rewrite filter_In, Bool.andb_true_iff. intros [_ [_ H]]. apply downstream_iff in H; auto.
    destruct H as [H _]. congruence. }
  assert (Hnd : NoDup (m :: above f m)).
  { constructor; [exact Hm2|]. unfold above. apply NoDup_filter, Hb. }
  pose proof (NoDup_incl_length Hnd (l' := above f n)) as Hl. cbn in Hl. apply Hl.
  intros c [<-|Hcc]; [exact Hm1|exact (Hsub c Hcc)].
Qed.

(** Once all listeners ran, every collect which was told has something coming to it, has sent
    something, or there is a notice left. *)
Lemma heard_all f o s origin : built f -> circular f (f_nodes f) = false ->
  (forall n, In n (f_nodes f) -> told_of f (Some origin) n -> n <> origin -> heard f o s origin n) ->
  forall n, told_of f (Some origin) n ->
    noticed f o s \/ (exists t, In t (node_targets f n) /\ (waits o s t \/ unused f t = true)) \/
    (exists m, reaches f m n /\ waits o s m).
Proof.
  intros Hb Hc Hh. intros n. remember (length (above f n)) as k eqn:Ek. revert n Ek.
  induction k as [k IH] using lt_wf_ind. intros n -> Hn. pose proof Hn as [Cn [d [Ed Dn]]]. injection Ed as <-.
  destruct (collect_node f n Hb Cn) as [Inn Kn].
  assert (Hne : n <> origin).
  { intros ->. unfold downstream, is_downstream_of in Dn. rewrite Nat.eqb_refl in Dn. discriminate. }
  destruct (Hh n Inn Hn Hne) as [H|[H|[m [Hr [H|[Hmn Hm]]]]]]; [auto|auto|right; right; eauto|].
  pose proof Hm as [Cm _].
  destruct (IH _ (above_lt f m n Hb Hc Cm Cn Hmn Hr) m eq_refl Hm) as [H|[[t [Ht H]]|[m' [Hr' H]]]].
  - auto.
  - right. right. destruct (collect_kind f m Cm) as [a [b [t0 Km]]].
    unfold node_targets in Ht. rewrite Km in Ht. cbn in Ht. destruct Ht as [<-|[]].
    assert (Hrt : reaches f t0 n).
    { destruct Hr as [m|m x n Hs Hr]; [congruence|]. unfold node_targets in Hs. rewrite Km in Hs.
      destruct Hs as [<-|[]]. exact Hr. }
    destruct H as [H|H]; [eauto|]. exfalso.
    assert (Hu : f_kind f t0 = Some OUnused) by (unfold unused in H; destruct (f_kind f t0) as [[]|]; congruence).
    destruct Hrt as [t0|t0 x n Hs _].
    + destruct (collect_kind f t0 Cn) as [a' [b' [t' E]]]. congruence.
    + unfold node_targets in Hs. rewrite Hu in Hs. destruct Hs.
  - right. right. exists m'. split; [exact (reaches_trans f m' m n Hr' Hr)|exact H].
Qed.

Lemma leads_used f n : built f -> leads f n -> unused f n = false.
Proof.
  intros (_ & _ & _ & _ & Ht & _) H. unfold unused. destruct H as [|n t Hin _].
  - rewrite (proj2 (Ht _) eq_refl). reflexivity.
  - unfold node_targets in Hin. destruct (f_kind f n) as [[]|]; try reflexivity. destruct Hin.
Qed.

(** ** Validation *)
Lemma validate_ok f origin s x : built f -> base f x -> calm f x ->
  exists x' b, validate f origin s x = (x', Some b) /\ base f x' /\
    x_initial x' = x_initial x /\
    (b = true -> x_ongoing x' = x_ongoing x /\ x_log x' = x_log x) /\
    (b = false -> forall s', In s' (x_ongoing x') <-> In s' (x_ongoing x) /\ s' <> s) /\
    (b = true -> In s (x_ongoing x) -> alive f (x_o x') s) /\
    (b = true -> (forall n, downstream f origin n = false) -> exists m, leads f m /\ waits (x_o x) s m) /\
    (forall s', s' <> s -> alive f (x_o x) s' -> alive f (x_o x') s').
Proof.
  intros Hb B Hcalm. unfold validate.
  destruct (listeners_ok f origin s Hb (f_nodes f) (x_o x) (b_shaped _ _ B))
    as [o1 [ms [ns [E [C [T [M [A [H D]]]]]]]]]. rewrite E.
  assert (B1 : base f (set_o x o1)).
  { apply (base_change f x o1 s ms ns [] B C). intros Hm. apply (b_status _ _ B), A, Hm. }
  destruct (terminal_answer f o1 s (Some origin) Hb (ch_shaped _ _ _ _ _ _ _ C)) as [Er|Er]; rewrite Er.
  - exists (set_o x o1), true. split; [reflexivity|]. split; [exact B1|]. split; [reflexivity|].
    split; [auto|]. split; [discriminate|]. split; [|split].
    + intros _ Hs. cbn [set_o x_o].
      destruct (terminal_source f o1 s (Some origin) (ch_shaped _ _ _ _ _ _ _ C) Er) as [m [Hl [Hm|Hm]]].
      * left. eauto.
      * assert (Hc : circular f (f_nodes f) = false).
        { apply Hcalm. intros E0. rewrite E0 in Hs. destruct Hs. }
        assert (Ha : w_status (o_w (x_o x)) s = Some Active) by (apply (b_status _ _ B), Hs).
        destruct (heard_all f o1 s origin Hb Hc (fun n Hn Ht Hne => H n Hn Ht Ha Hne) m Hm)
          as [Hx|[[t [Ht Hx]]|[m' [Hr Hx]]]].
        -- right. left. exact Hx.
        -- left. destruct (collect_kind f m (proj1 Hm)) as [a [b [t0 Km]]].
           unfold node_targets in Ht. rewrite Km in Ht. cbn in Ht. destruct Ht as [<-|[]].
           assert (Hlt : leads f t0).
           { destruct Hl as [|m t Hin Hl].
             - destruct Hb as (_ & _ & _ & _ & Htm & _). rewrite (proj2 (Htm _) eq_refl) in Km. discriminate.
             - unfold node_targets in Hin. rewrite Km in Hin. destruct Hin as [<-|[]]. exact Hl. }
           exists t0. split; [|exact Hlt]. destruct Hx as [Hx|Hx]; [exact Hx|].
           rewrite (leads_used f t0 Hb Hlt) in Hx. discriminate.
        -- left. exists m'. split; [exact Hx|exact (reaches_leads f m' m Hr Hl)].
    + intros _ Hd. destruct (D Hd) as [-> _].
      destruct (terminal_source f (x_o x) s (Some origin) (b_shaped _ _ B) Er) as [m [Hl [Hm|[_ [d [Ed Hm]]]]]]; [eauto|].
      injection Ed as <-. rewrite Hd in Hm. discriminate.
    + intros s' _ Ha. exact (alive_change _ _ _ _ _ _ _ _ C Ha).
  - exists (finish f s (ECancelled s cause_unreachable) (set_o x o1)), false. split; [reflexivity|].
    split; [|split; [|split; [discriminate|split; [|split; [discriminate|split; [discriminate|]]]]]].
    + apply base_finish; [exact Hb|exact B1|intros s'; reflexivity|discriminate].
    + rewrite initial_finish. reflexivity.
    + intros _ s'. rewrite ongoing_finish. reflexivity.
    + intros s' Hne Ha. apply alive_finish; auto. exact (alive_change _ _ _ _ _ _ _ _ C Ha).
Qed.
