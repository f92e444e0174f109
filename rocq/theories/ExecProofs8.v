(** Workflows in which every value comes to at most one result: nothing is broken. *)
From Verif Require Import Base RosterModel BufferModel InputModel InputSpec InputProofs GateModel
  OpsModel OpsSpec OpsProofs ReachModel ReachSpec ReachProofs ExecModel ExecSpec ExecProofs ExecProofs2 ExecProofs3
  ExecProofs4 ExecProofs5 ExecProofs6 ExecProofs7.

Scheme yields_ind2 := Induction for yields Sort Prop
  with yield_all_ind2 := Induction for yield_all Sort Prop.

(** ** Facts about [yields] *)
Lemma terminal_kind f : built f -> f_kind f (f_terminal f) = Some OTerminate.
Proof. intros Hb. apply Hb. reflexivity. Qed.

(** What is known of the results, from the kind of the node. *)
Lemma yields_inv f : built f -> forall n v l, yields f n v l ->
  match f_kind f n with
  | Some OTerminate => [RValue v] = l
  | Some OUnused => [] = l
  | Some k => match reacts k v with
              | Some Cancels => [RCancelled] = l
              | Some Breaks => [RBreaks] = l
              | Some (Sends ms _) => yield_all f ms l
              | None => False
              end
  | None => False
  end.
Proof.
  intros Hb n v l H. destruct H as [v|n v K|n k v K R|n k v K R|n k v ms d l K R A].
  - rewrite (terminal_kind f Hb). reflexivity.
  - rewrite K. reflexivity.
  - rewrite K. destruct k; try discriminate; rewrite R; reflexivity.
  - rewrite K. destruct k; try discriminate; rewrite R; reflexivity.
  - rewrite K. destruct k; try discriminate; rewrite R; exact A.
Qed.

Lemma yields_once f : built f -> forall n v l, yields f n v l -> forall l', yields f n v l' -> l = l'.
Proof.
  intros Hb.
  apply (yields_ind2 f (fun n v l _ => forall l', yields f n v l' -> l = l')
           (fun ms l _ => forall l', yield_all f ms l' -> l = l')).
  - intros v l' H. apply (yields_inv f Hb) in H. rewrite (terminal_kind f Hb) in H. exact H.
  - intros n v Hk l' H. apply (yields_inv f Hb) in H. rewrite Hk in H. exact H.
  - intros n k v Hk Hr l' H. apply (yields_inv f Hb) in H. rewrite Hk in H.
    destruct k; try discriminate; rewrite Hr in H; exact H.
  - intros n k v Hk Hr l' H. apply (yields_inv f Hb) in H. rewrite Hk in H.
    destruct k; try discriminate; rewrite Hr in H; exact H.
  - intros n k v ms d l Hk Hr _ IH l' H. apply (yields_inv f Hb) in H. rewrite Hk in H.
    destruct k; try discriminate; rewrite Hr in H; apply IH, H.
  - intros l' H. inversion H. reflexivity.
  - intros n v ms l l1 _ IH _ IHs l' H. inversion H as [|n0 v0 ms0 l2 l3 H1 H2]; subst.
    rewrite (IH _ H1), (IHs _ H2). reflexivity.
Qed.

Lemma yield_all_perm f ms ms' : Permutation ms ms' -> forall l, yield_all f ms l ->
  exists l', yield_all f ms' l' /\ Permutation l l'.
Proof.
  induction 1 as [|[n v] ms ms' H IH|[n v] [m w] ms|ms1 ms2 ms3 H1 IH1 H2 IH2]; intros l Hl.
  - eauto.
  - inversion Hl as [|? ? ? l1 l2 Y1 Y2]; subst. destruct (IH _ Y2) as [l' [Y3 P]].
    exists (l1 ++ l'). split; [constructor; assumption|]. apply Permutation_app_head, P.
  - inversion Hl as [|? ? ? l1 l2 Y1 Y2]; subst. inversion Y2 as [|? ? ? l3 l4 Y3 Y4]; subst.
    exists (l3 ++ l1 ++ l4). split; [constructor; [assumption|constructor; assumption]|].
    rewrite !app_assoc. apply Permutation_app_tail, Permutation_app_comm.
  - destruct (IH1 _ Hl) as [l2 [Y2 P2]]. destruct (IH2 _ Y2) as [l3 [Y3 P3]]. exists l3. split; [exact Y3|].
    eapply Permutation_trans; eauto.
Qed.

Lemma yield_all_app f ms1 ms2 l1 l2 : yield_all f ms1 l1 -> yield_all f ms2 l2 -> yield_all f (ms1 ++ ms2) (l1 ++ l2).
Proof.
  intros H1 H2. induction H1 as [|n v ms l l' Y _ IH]; cbn; [exact H2|]. rewrite <- app_assoc. constructor; assumption.
Qed.

Lemma yield_all_in f ms l n v : yield_all f ms l -> In (n, v) ms -> exists l', yields f n v l' /\ incl l' l.
Proof.
  intros H Hin. induction H as [|m w ms l1 l2 Y Ys IH]; [destruct Hin|]. destruct Hin as [E|Hin].
  - injection E as -> ->. exists l1. split; [exact Y|]. apply incl_appl, incl_refl.
  - destruct (IH Hin) as [l' [Y' I]]. exists l'. split; [exact Y'|]. apply incl_appr, I.
Qed.

Lemma unused_kind f n : unused f n = true -> f_kind f n = Some OUnused.
Proof. unfold unused. destruct (f_kind f n) as [[]|]; congruence. Qed.

Lemma yield_live f ms l : built f -> yield_all f ms l -> yield_all f (live f ms) l.
Proof.
  intros Hb H. induction H as [|n v ms l l' Y _ IH]; [constructor|]. unfold live in *. cbn [filter fst].
  destruct (unused f n) eqn:Eu; cbn [negb]; [|constructor; assumption].
  rewrite (yields_once f Hb n v l Y [] (Y_unused f n v (unused_kind f n Eu))). exact IH.
Qed.

(** ** The messages a session holds *)
Definition mine (s : entity) (l : list (entity * val)) : list val :=
  map snd (filter (fun i => Nat.eqb (fst i) s) l).

Definition held (nodes : list entity) (P : entity -> list (entity * val)) (s : entity) : list (entity * val) :=
  flat_map (fun n => map (pair n) (mine s (P n))) nodes.

Lemma mine_app s a b : mine s (a ++ b) = mine s a ++ mine s b.
Proof. unfold mine. rewrite filter_app, map_app. reflexivity. Qed.

Lemma mine_self s l : mine s (map (pair s) l) = l.
Proof. induction l as [|v l IH]; cbn; [reflexivity|]. unfold mine in *. cbn. rewrite Nat.eqb_refl. cbn. rewrite IH. reflexivity. Qed.

Lemma mine_other s s' (l : list val) : s' <> s -> mine s' (map (pair s) l) = [].
Proof.
  intros Hne. induction l as [|v l IH]; cbn; [reflexivity|]. unfold mine in *. cbn.
  destruct (Nat.eqb_spec s s'); [congruence|]. exact IH.
Qed.

Lemma held_in nodes P s n w : In (n, w) (held nodes P s) <-> In n nodes /\ In (s, w) (P n).
Proof.
  unfold held. rewrite in_flat_map. split.
  - intros [m [Hm H]]. apply in_map_iff in H. destruct H as [w' [E H]]. injection E as -> ->.
    unfold mine in H. apply in_map_iff in H. destruct H as [[a b] [<- H]]. apply filter_In in H. destruct H as [H E].
    cbn in E. apply Nat.eqb_eq in E. cbn in *. subst a. auto.
  - intros [Hn H]. exists n. split; [exact Hn|]. apply in_map. unfold mine. apply in_map_iff. exists (s, w).
    split; [reflexivity|]. apply filter_In. split; [exact H|apply Nat.eqb_refl].
Qed.

Lemma held_ext nodes P Q s : (forall n, mine s (P n) = mine s (Q n)) -> held nodes P s = held nodes Q s.
Proof. intros H. unfold held. apply flat_map_ext. intros n. rewrite H. reflexivity. Qed.

Lemma sent_all : forall nodes ms, NoDup nodes -> (forall p, In p ms -> In (fst p) nodes) ->
  Permutation (flat_map (fun n => map (pair n) (sent_to n ms)) nodes) (ms : list (entity * val)).
Proof.
  induction nodes as [|n nodes IH]; intros ms Hd Hin.
  - destruct ms as [|p ms]; [constructor|]. destruct (Hin p (or_introl eq_refl)).
  - inversion Hd as [|? ? H1 H2]; subst. cbn [flat_map].
    set (out := filter (fun p : entity * val => negb (Nat.eqb (fst p) n)) ms).
    assert (E : flat_map (fun m => map (pair m) (sent_to m ms)) nodes = flat_map (fun m => map (pair m) (sent_to m out)) nodes).
    { rewrite !flat_map_concat_map. f_equal. apply map_ext_in. intros m Hm. f_equal. unfold sent_to, out. f_equal.
      assert (Hne : m <> n) by congruence. clear - Hne. induction ms as [|[t v] ms IH]; [reflexivity|]. cbn [filter fst].
      destruct (Nat.eqb_spec t n) as [->|]; cbn [negb filter fst].
      - destruct (Nat.eqb_spec n m); [congruence|]. exact IH.
      - destruct (Nat.eqb t m); [f_equal|]; exact IH. }
    rewrite E, (IH out H2).
    + clear. unfold sent_to, out. induction ms as [|[t v] ms IH]; [constructor|]. cbn [filter fst].
      destruct (Nat.eqb_spec t n) as [->|]; cbn [negb map fst snd app].
      * apply perm_skip, IH.
      * eapply Permutation_trans; [apply Permutation_sym, Permutation_middle|]. apply perm_skip, IH.
    + intros p Hp. apply filter_In in Hp. destruct Hp as [Hp Hne]. destruct (Hin p Hp) as [E1|H]; [|exact H].
      rewrite <- E1, Nat.eqb_refl in Hne. discriminate.
Qed.

Lemma held_sent nodes P Q s ms : NoDup nodes -> (forall p, In p ms -> In (fst p) nodes) ->
  (forall n, Q n = P n ++ map (pair s) (sent_to n ms)) ->
  Permutation (held nodes Q s) (held nodes P s ++ ms) /\ (forall s', s' <> s -> held nodes Q s' = held nodes P s').
Proof.
  intros Hd Hin HQ. split.
  - eapply Permutation_trans; [|apply Permutation_app_head, (sent_all nodes ms Hd Hin)].
    clear Hd Hin. unfold held. induction nodes as [|n nodes IH]; [constructor|]. cbn [flat_map].
    rewrite HQ, mine_app, mine_self, map_app, <- !app_assoc. apply Permutation_app_head.
    eapply Permutation_trans; [apply Permutation_app_head, IH|]. rewrite !app_assoc.
    apply Permutation_app_tail, Permutation_app_comm.
  - intros s' Hne. apply held_ext. intros n. rewrite HQ, mine_app, mine_other, app_nil_r by assumption. reflexivity.
Qed.

Lemma held_taken nodes w n s v more : NoDup nodes -> In n nodes -> pending w n = (s, v) :: more ->
  Permutation (held nodes (pending w) s) ((n, v) :: held nodes (after_take w n) s) /\
  (forall s', s' <> s -> held nodes (pending w) s' = held nodes (after_take w n) s').
Proof.
  intros Hd Hin Hp. split.
  - unfold held. induction nodes as [|m nodes IH]; [destruct Hin|]. cbn [flat_map].
    inversion Hd as [|? ? H1 H2]; subst. destruct Hin as [->|Hin].
    + unfold after_take at 1. rewrite Nat.eqb_refl, Hp. cbn [tl]. unfold mine at 1. cbn [filter fst]. rewrite Nat.eqb_refl.
      cbn [map snd app]. apply perm_skip. apply Permutation_app_head.
      rewrite !flat_map_concat_map.
      erewrite map_ext_in; [apply Permutation_refl|]. intros m Hm. unfold after_take.
      destruct (Nat.eqb_spec m n); [congruence|reflexivity].
    + eapply Permutation_trans; [apply Permutation_app_head, (IH H2 Hin)|].
      unfold after_take at 2. destruct (Nat.eqb_spec m n); [congruence|].
      apply Permutation_sym, Permutation_middle.
  - intros s' Hne. apply held_ext. intros m. unfold after_take. destruct (Nat.eqb_spec m n) as [->|]; [|reflexivity].
    rewrite Hp. cbn [tl]. unfold mine. cbn [filter fst]. destruct (Nat.eqb_spec s s'); [congruence|reflexivity].
Qed.

(** ** The invariant *)
Definition tame (f : workflow) (v : val) : Prop :=
  exists l, yields f (f_entry f) v l /\ length l <= 1 /\ ~ In RBreaks l.

(** Nothing that comes of the value is for a cancelling node. *)
Definition gentle (f : workflow) (v : val) : Prop :=
  forall n w, occurs f (f_entry f) v n w -> f_kind f n <> Some OCancel.

Definition calm (f : workflow) (x : xworld) : Prop := forall n, In n (queue (x_o x)) -> f_kind f n <> Some OCancel.

Definition few (f : workflow) (ms : list (entity * val)) : Prop :=
  exists l, yield_all f ms l /\ length l <= 1 /\ ~ In RBreaks l.

Notation has f o s := (held (f_nodes f) (pending (o_w o)) s).

Record tidy (f : workflow) (x : xworld) : Prop := mk_tidy {
  y_few : forall s, In s (x_ongoing x) -> few f (has f (x_o x) s);
  y_end : forall s w, In (s, w) (pending (o_w (x_o x)) (f_terminal f)) -> In s (x_ongoing x);
  y_asked : forall c, In c (asked (x_o x)) -> c_session c <> None;
  y_log : forall n, ~ In (EBroken n) (x_log x)
}.

Lemma few_perm f ms ms' : Permutation ms ms' -> few f ms -> few f ms'.
Proof.
  intros P [l [Y [H1 H2]]]. destruct (yield_all_perm f ms ms' P l Y) as [l' [Y' P']]. exists l'.
  split; [exact Y'|]. split; [rewrite <- (Permutation_length P'); exact H1|].
  intros H. apply H2. exact (Permutation_in _ (Permutation_sym P') H).
Qed.

Lemma few_tail f p ms : few f (p :: ms) -> few f ms.
Proof.
  intros [l [Y [H1 H2]]]. inversion Y as [|n v ms' l1 l2 Y1 Y2]; subst. exists l2. split; [exact Y2|].
  rewrite app_length in H1. split; [lia|]. intros H. apply H2, in_or_app. auto.
Qed.

(** A message is replaced by those its node makes of it. *)
Lemma few_step f n k v ms dropped rest : built f -> f_kind f n = Some k -> reacts k v = Some (Sends ms dropped) ->
  few f ((n, v) :: rest) -> few f (rest ++ live f ms).
Proof.
  intros Hb Hk Hr [l [Y [H1 H2]]]. inversion Y as [|n' v' ms' l1 l2 Y1 Y2]; subst.
  assert (Ym : yield_all f ms l1).
  { apply (yields_inv f Hb) in Y1. rewrite Hk in Y1. destruct k; try discriminate; rewrite Hr in Y1; exact Y1. }
  apply (few_perm f (live f ms ++ rest)); [apply Permutation_app_comm|].
  exists (l1 ++ l2). split; [|auto]. apply yield_all_app; [apply yield_live; assumption|exact Y2].
Qed.

Lemma mine_others s s' l : s' <> s -> mine s' (others s l) = mine s' l.
Proof.
  intros Hne. unfold mine, others. induction l as [|[a v] l IH]; [reflexivity|]. cbn [filter fst].
  destruct (Nat.eqb_spec a s) as [->|].
  - cbn [negb]. destruct (Nat.eqb_spec s s'); [congruence|]. exact IH.
  - cbn [negb filter fst]. destruct (Nat.eqb a s'); cbn [map]; [f_equal|]; exact IH.
Qed.

Lemma tidy_finish f x s e : built f -> base f x -> (forall n, e <> EBroken n) ->
  (forall s', In s' (x_ongoing x) -> s' <> s -> few f (has f (x_o x) s')) ->
  (forall s' w, In (s', w) (pending (o_w (x_o x)) (f_terminal f)) -> In s' (x_ongoing x) /\ (is_out e = true -> s' <> s)) ->
  (forall c, In c (asked (x_o x)) -> c_session c <> None) -> (forall n, ~ In (EBroken n) (x_log x)) ->
  In s (x_ongoing x) -> tidy f (finish f s e x).
Proof.
  intros Hb B He Hf Hend Ha Hl Hin.
  destruct (finish_effect f s e x Hb (b_shaped _ _ B) Hin) as [F1 [F2 [F3 [F4 [F5 [F6 F7]]]]]]. cbn zeta in *.
  split.
  - intros s' H. apply ongoing_finish in H. destruct H as [H Hne].
    erewrite held_ext; [apply Hf; assumption|]. intros n. rewrite F2.
    destruct (Nat.eqb n (f_terminal f) && is_out e); [reflexivity|]. apply mine_others, Hne.
  - intros s' w H. rewrite F2, Nat.eqb_refl in H. cbn [andb] in H. rewrite F5, filter_not_in.
    destruct (is_out e) eqn:Eo.
    + destruct (Hend s' w H) as [H1 H2]. auto.
    + apply others_in in H. destruct H as [H Hne]. split; [apply (Hend s' w H)|exact Hne].
  - intros c H. rewrite F4 in H. auto.
  - intros n H. rewrite F7 in H. apply in_app_or in H. destruct H as [H|[H|[]]]; [exact (Hl n H)|exact (He n H)].
Qed.

Lemma tidy_cancelled f x s c : built f -> base f x -> tidy f x -> tidy f (finish f s (ECancelled s c) x).
Proof.
  intros Hb B Y. destruct (in_dec Nat.eq_dec s (x_ongoing x)) as [Hin|Hin]; [|rewrite finish_other; assumption].
  destruct Y as [H1 H2 H3 H4]. apply tidy_finish; auto; [discriminate|].
  intros s' w H. split; [exact (H2 s' w H)|discriminate].
Qed.

Lemma in_nodes f n s w o : built f -> shaped f o -> In (s, w) (pending (o_w o) n) -> In n (f_nodes f).
Proof.
  intros (_ & Hn & _) Ho H. apply Hn. intros E. pose proof (proj1 Ho n) as K. rewrite E in K.
  rewrite pending_node, K in H. destruct H.
Qed.

Lemma reacts_nodes f n k v ms dropped p : built f -> f_kind f n = Some k -> reacts k v = Some (Sends ms dropped) ->
  In p (live f ms) -> In (fst p) (f_nodes f).
Proof.
  intros (_ & _ & Ht & _) Hk Hr Hp. apply live_in in Hp. destruct Hp as [Hp _]. apply (Ht n). unfold node_targets.
  rewrite Hk. destruct p as [t w]. exact (reacts_targets _ _ _ _ _ _ Hr Hp).
Qed.

Lemma tidy_exec f x : built f -> collect_free f -> calm f x -> base f x -> tidy f x -> tidy f (exec f x).
Proof.
  intros Hb Hcf Hnc B Y. destruct (queue (x_o x)) as [|n rest] eqn:Hq.
  { unfold exec. rewrite Hq. exact Y. }
  assert (Hd : NoDup (f_nodes f)) by apply Hb.
  assert (Htake : forall s v more, pending (o_w (x_o x)) n = (s, v) :: more ->
     Permutation (has f (x_o x) s) ((n, v) :: held (f_nodes f) (after_take (o_w (x_o x)) n) s) /\
     (forall s', s' <> s -> has f (x_o x) s' = held (f_nodes f) (after_take (o_w (x_o x)) n) s')).
  { intros s v more Hp. apply (held_taken _ _ _ _ _ more Hd); [|exact Hp].
    apply (in_nodes f n s v (x_o x) Hb (b_shaped _ _ B)). rewrite Hp. left. reflexivity. }
  assert (Hbreaks : forall s v more k, pending (o_w (x_o x)) n = (s, v) :: more -> In s (x_ongoing x) ->
            f_kind f n = Some k -> reacts k v = Some Breaks -> False).
  { intros s v more k Hp Hs Hk Hr. destruct (y_few _ _ Y s Hs) as [l [Yl [_ H2]]].
    destruct (yield_all_in f _ l n v Yl) as [l' [Y' I]].
    - apply held_in. rewrite Hp. split; [|left; reflexivity].
      apply (in_nodes f n s v (x_o x) Hb (b_shaped _ _ B)). rewrite Hp. left. reflexivity.
    - apply H2, I. apply (yields_inv f Hb) in Y'. rewrite Hk in Y'.
      destruct k; try discriminate; rewrite Hr in Y'; subst l'; left; reflexivity. }
  destruct (exec_executed f x n rest Hb B Hq) as
    [o' Hp P|o' Hp Hk P|o' k s v more ms dropped ns Hk Hr Hp Hs D F Hd' K|o' k s v more c Hk Hr Hp Hs D Hc K
    |o' k s v more Hk Hr Hp Hs D K|o' min max t s v more Hk Hp Hs Hcol|o' s v more Hn Hp Hs P|o' s v more Hn Hp Hs P].
  - pose proof (fun m => pulled_pending _ _ _ _ _ m Hp P) as Hpe. split; cbn [set_o x_o x_ongoing x_log].
    + intros s Hs. erewrite held_ext; [apply (y_few _ _ Y), Hs|]. intros m. rewrite Hpe. reflexivity.
    + intros s w H. rewrite Hpe in H. exact (y_end _ _ Y s w H).
    + intros c H. rewrite (pu_roster _ _ _ _ P) in H. exact (y_asked _ _ Y c H).
    + apply (y_log _ _ Y).
  - exfalso. apply (Hnc n); [rewrite Hq; left; reflexivity|exact Hk].
  - destruct (Htake s v more Hp) as [P1 P2].
    destruct (held_sent (f_nodes f) (after_take (o_w (x_o x)) n) (pending (o_w o')) s (live f ms) Hd
                (fun p => reacts_nodes f n k v ms dropped p Hb Hk Hr) (di_pending _ _ _ _ _ _ _ _ D)) as [Q1 Q2].
    split; cbn [set_o x_o x_ongoing x_log].
    + intros s' Hs'. destruct (Nat.eq_dec s' s) as [->|Hne].
      * apply (few_perm f _ _ (Permutation_sym Q1)). apply (few_step f n k v ms dropped _ Hb Hk Hr).
        apply (few_perm f _ _ P1), (y_few _ _ Y), Hs'.
      * rewrite (Q2 s' Hne), <- (P2 s' Hne). apply (y_few _ _ Y), Hs'.
    + intros s' w H. destruct (did_pending _ _ _ _ _ _ _ _ _ _ _ _ _ _ Hp D H) as [H1|[-> _]]; [|exact Hs].
      exact (y_end _ _ Y s' w H1).
    + intros c H. rewrite (di_asked _ _ _ _ _ _ _ _ D), app_nil_r in H. exact (y_asked _ _ Y c H).
    + apply (y_log _ _ Y).
  - destruct (Htake s v more Hp) as [P1 P2].
    destruct (held_sent (f_nodes f) (after_take (o_w (x_o x)) n) (pending (o_w o')) s [] Hd
                (fun p H => match H with end) (di_pending _ _ _ _ _ _ _ _ D)) as [Q1 Q2].
    rewrite app_nil_r in Q1. split; cbn [set_o x_o x_ongoing x_log].
    + intros s' Hs'. destruct (Nat.eq_dec s' s) as [->|Hne].
      * apply (few_perm f _ _ (Permutation_sym Q1)). apply (few_tail f (n, v)).
        apply (few_perm f _ _ P1), (y_few _ _ Y), Hs'.
      * rewrite (Q2 s' Hne), <- (P2 s' Hne). apply (y_few _ _ Y), Hs'.
    + intros s' w H. destruct (did_pending _ _ _ _ _ _ _ _ _ _ _ _ _ _ Hp D H) as [H1|[-> _]]; [|exact Hs].
      exact (y_end _ _ Y s' w H1).
    + intros c' H. rewrite (di_asked _ _ _ _ _ _ _ _ D) in H. apply in_app_or in H.
      destruct H as [H|[<-|[]]]; [exact (y_asked _ _ Y c' H)|discriminate].
    + apply (y_log _ _ Y).
  - exfalso. eauto.
  - exfalso. specialize (Hcf n). unfold is_collect in Hcf. rewrite Hk in Hcf. discriminate.
  - pose proof (pulled_did _ _ _ _ s P) as D. destruct (Htake s v more Hp) as [P1 P2].
    destruct (held_sent (f_nodes f) (after_take (o_w (x_o x)) n) (pending (o_w o')) s [] Hd
                (fun p H => match H with end) (di_pending _ _ _ _ _ _ _ _ D)) as [Q1 Q2]. rewrite app_nil_r in Q1.
    apply tidy_finish; auto.
    + exact (did_base _ _ _ _ _ _ _ _ _ _ _ B Hq Hp Hs D).
    + discriminate.
    + cbn [set_o x_o x_ongoing]. intros s' Hs' Hne. rewrite (Q2 s' Hne), <- (P2 s' Hne). apply (y_few _ _ Y), Hs'.
    + cbn [set_o x_o x_ongoing]. intros s' w H. split.
      * destruct (did_pending _ _ _ _ _ _ _ _ _ _ _ _ _ _ Hp D H) as [H1|[_ []]]. exact (y_end _ _ Y s' w H1).
      * intros _ ->. destruct (few_perm f _ _ P1 (y_few _ _ Y s Hs)) as [l [Yl [H1 _]]].
        inversion Yl as [|? ? ? l1 l2 Y1 Y2]; subst.
        apply (yields_inv f Hb) in Y1. rewrite (terminal_kind f Hb) in Y1. subst l1.
        destruct (yield_all_in f _ l2 (f_terminal f) w Y2) as [l' [Y' I]].
        -- apply (Permutation_in _ Q1). apply held_in. split; [|exact H].
           apply (proj1 (proj2 Hb)). rewrite (terminal_kind f Hb). discriminate.
        -- apply (yields_inv f Hb) in Y'. rewrite (terminal_kind f Hb) in Y'. subst l'.
           specialize (I _ (or_introl eq_refl)). destruct l2; [destruct I|]. cbn in H1. lia.
    + intros c H. cbn [set_o x_o] in H. rewrite (di_asked _ _ _ _ _ _ _ _ D), app_nil_r in H. exact (y_asked _ _ Y c H).
    + apply (y_log _ _ Y).
  - exfalso. apply Hs. apply (y_end _ _ Y s v). subst n. rewrite Hp. left. reflexivity.
Qed.

Lemma tidy_roster f x r : tidy f x -> (forall c, In c (r_cancel r) -> In c (asked (x_o x))) ->
  tidy f (set_o x (with_roster (x_o x) r)).
Proof. intros [H1 H2 H3 H4] H. split; auto. Qed.

Lemma tidy_do_cancel f x : built f -> base f x -> tidy f x -> tidy f (do_cancel f x).
Proof.
  intros Hb B Y. unfold do_cancel. destruct (asked (x_o x)) as [|c rest] eqn:Ea; [exact Y|].
  match goal with |- context [with_roster (x_o x) ?r] => set (r0 := r) end.
  assert (B0 : base f (set_o x (with_roster (x_o x) r0))) by (apply roster_base; [exact B|reflexivity]).
  assert (Y0 : tidy f (set_o x (with_roster (x_o x) r0))).
  { apply tidy_roster; [exact Y|]. intros c' H. rewrite Ea. right. exact H. }
  destruct (Nat.eqb_spec (c_target c) (f_scope f)) as [Et|Et]; [|exact Y0].
  destruct (c_session c) as [s|] eqn:Es.
  - apply tidy_cancelled; assumption.
  - exfalso. apply (y_asked _ _ Y c); [rewrite Ea; left; reflexivity|exact Es].
Qed.

Lemma tidy_validate f origin s x : built f -> collect_free f -> base f x -> tidy f x -> tidy f (fst (validate f origin s x)).
Proof.
  intros Hb Hc B Y. unfold validate. rewrite no_listeners by exact Hc.
  assert (E : set_o x (x_o x) = x) by (destruct x; reflexivity). rewrite E.
  destruct (check_reachability _ _ _); try exact Y. apply tidy_cancelled; assumption.
Qed.

Lemma tidy_notice f x : built f -> collect_free f -> base f x -> tidy f x -> tidy f (notice f x).
Proof.
  intros Hb Hs B Y. unfold notice. destruct (pop_last (told (x_o x))) as [l [d|]]; [|exact Y].
  match goal with |- context [with_roster (x_o x) ?r] => set (r0 := r) end.
  assert (B0 : base f (set_o x (with_roster (x_o x) r0))) by (apply roster_base; [exact B|reflexivity]).
  assert (Y0 : tidy f (set_o x (with_roster (x_o x) r0))) by (apply tidy_roster; [exact Y|auto]).
  destruct (Nat.eqb_spec (d_source d) (f_scope f)); [apply tidy_validate; assumption|exact Y0].
Qed.

Lemma not_circular_free f : collect_free f -> forall l, circular f l = false.
Proof. intros Hc. induction l as [|n l IH]; [reflexivity|]. cbn [circular]. rewrite (Hc n), IH. reflexivity. Qed.

Lemma tidy_start f s v x : built f -> collect_free f -> base f x -> tidy f x -> tame f v -> tidy f (start f s v x).
Proof.
  intros Hb Hsi B Y Hv. unfold start. destruct (known s (x_log x)) eqn:Ek; [exact Y|].
  match goal with |- context [o_give ?o _ _ _] => set (o1 := o) end.
  assert (Hs1 : w_status (o_w o1) s = Some Active) by (cbn -[emap_set]; apply emap_set_eq).
  assert (Hen : In (f_entry f) (f_nodes f)) by apply Hb.
  assert (He : f_kind f (f_entry f) <> None) by (apply (proj1 (proj2 Hb)), Hen).
  destruct (give_change f o1 (f_entry f) s v (b_shaped _ _ B) Hs1 He) as [o2 [Eo [C K]]]. rewrite Eo.
  set (x1 := mk_x o2 (x_ongoing x ++ [s]) (x_initial x) (x_log x ++ [EStart s v])).
  assert (B1 : base f x1) by (apply base_start; assumption).
  destruct (endings_none f x s B Ek) as [Hns Hnw].
  assert (Y1 : tidy f x1).
  { destruct (held_sent (f_nodes f) (pending (o_w (x_o x))) (pending (o_w o2)) s (live f [(f_entry f, v)]) (proj1 Hb))
      as [Q1 Q2]; [|exact (ch_pending _ _ _ _ _ _ _ C)|].
    { intros p H. apply live_in in H. destruct H as [[<-|[]] _]. exact Hen. }
    split; cbn [x1 x_o x_ongoing x_log].
    - intros s' H. apply in_app_or in H. destruct (Nat.eq_dec s' s) as [->|Hne].
      + apply (few_perm f _ _ (Permutation_sym Q1)).
        assert (E0 : has f (x_o x) s = []).
        { destruct (has f (x_o x) s) as [|[n w] l] eqn:E; [reflexivity|]. exfalso. apply (Hnw n). exists w.
          apply (held_in (f_nodes f)). rewrite E. left. reflexivity. }
        rewrite E0. cbn [app]. destruct Hv as [l [H1 [H2 H3]]]. exists l. split; [|auto]. apply yield_live; [exact Hb|].
        rewrite <- (app_nil_r l). constructor; [exact H1|constructor].
      + rewrite (Q2 s' Hne). apply (y_few _ _ Y). destruct H as [H|[<-|[]]]; [exact H|congruence].
    - intros s' w H. rewrite (ch_pending _ _ _ _ _ _ _ C) in H. apply in_or_app. apply in_app_or in H. destruct H as [H|H].
      + left. exact (y_end _ _ Y s' w H).
      + right. apply in_map_iff in H. destruct H as [w' [E _]]. injection E as <- _. left. reflexivity.
    - intros c H. rewrite (ch_asked _ _ _ _ _ _ _ C), app_nil_r in H. exact (y_asked _ _ Y c H).
    - intros n H. apply in_app_or in H. destruct H as [H|[H|[]]]; [exact (y_log _ _ Y n H)|discriminate]. }
  assert (Hini : forall i y, tidy f y -> tidy f (mk_x (x_o y) (x_ongoing y) i (x_log y))).
  { intros i y []. split; assumption. }
  pose proof (tidy_validate f (f_scope f) s x1 Hb Hsi B1 Y1) as Hval.
  rewrite (not_circular_free f Hsi).
  destruct (x_initial x) as [i|] eqn:Ei.
  - destruct i; [exact Y1|exact Hval|]. apply tidy_cancelled; assumption.
  - destruct (validate f (f_scope f) s x1) as [x2 [b|]]; [|exact Hval]. apply Hini, Hval.
Qed.

(** ** Results and values *)
Lemma yields_occurs f : built f -> collect_free f ->
  forall n v l, yields f n v l ->
    (forall r, occurs f n v (f_terminal f) r <-> In (RValue r) l) /\
    (forall m, occurs_with f n v m Cancels -> In RCancelled l).
Proof.
  intros Hb Hc.
  assert (Hfirst : forall n v, (n = f_terminal f \/ (exists k, f_kind f n = Some k /\
                     (k = OUnused \/ reacts k v = Some Cancels \/ reacts k v = Some Breaks))) ->
            forall m u, occurs f n v m u -> n = m /\ v = u).
  { intros n v Hn m u H. destruct (occurs_first f n v m u Hc H) as [H1|[k [ms [d [t [w [Hk [Hr _]]]]]]]]; [exact H1|].
    exfalso. destruct Hn as [->|[k' [Hk' Hn]]].
    - rewrite (terminal_kind f Hb) in Hk. injection Hk as <-. discriminate.
    - rewrite Hk in Hk'. injection Hk' as <-. destruct Hn as [->|[Hn|Hn]]; [discriminate|congruence|congruence]. }
  assert (Hnt : forall n k, f_kind f n = Some k -> k <> OTerminate -> n <> f_terminal f).
  { intros n k Hk Hne ->. rewrite (terminal_kind f Hb) in Hk. congruence. }
  apply (yields_ind2 f
    (fun n v l _ => (forall r, occurs f n v (f_terminal f) r <-> In (RValue r) l) /\
                    (forall m, occurs_with f n v m Cancels -> In RCancelled l))
    (fun ms l _ => (forall r, (exists n v, In (n, v) ms /\ occurs f n v (f_terminal f) r) <-> In (RValue r) l) /\
                   (forall n v m, In (n, v) ms -> occurs_with f n v m Cancels -> In RCancelled l))).
  - intros v. split.
    + intros r. split.
      * intros H. destruct (Hfirst _ v (or_introl eq_refl) _ _ H) as [_ ->]. left. reflexivity.
      * intros [H|[]]. injection H as ->. constructor.
    + intros m [k [w [Ho [Hk Hr]]]]. destruct (Hfirst _ v (or_introl eq_refl) _ _ Ho) as [<- <-].
      rewrite (terminal_kind f Hb) in Hk. injection Hk as <-. discriminate.
  - intros n v Hk. assert (Hn : n = f_terminal f \/ (exists k, f_kind f n = Some k /\
                     (k = OUnused \/ reacts k v = Some Cancels \/ reacts k v = Some Breaks))) by (right; eauto).
    split.
    + intros r. split; [|intros []]. intros H. destruct (Hfirst _ _ Hn _ _ H) as [E _].
      exfalso. apply (Hnt n _ Hk); [discriminate|exact E].
    + intros m [k [w [Ho [Hk' Hr]]]]. destruct (Hfirst _ _ Hn _ _ Ho) as [<- <-]. rewrite Hk in Hk'. injection Hk' as <-.
      discriminate.
  - intros n k v Hk Hr. assert (Hn : n = f_terminal f \/ (exists k, f_kind f n = Some k /\
                     (k = OUnused \/ reacts k v = Some Cancels \/ reacts k v = Some Breaks))) by (right; eauto).
    split; [|intros; left; reflexivity]. intros r. split; [|intros [H|[]]; discriminate].
    intros H. destruct (Hfirst _ _ Hn _ _ H) as [E _]. exfalso. apply (Hnt n _ Hk); [|exact E]. intros ->. discriminate.
  - intros n k v Hk Hr. assert (Hn : n = f_terminal f \/ (exists k, f_kind f n = Some k /\
                     (k = OUnused \/ reacts k v = Some Cancels \/ reacts k v = Some Breaks))) by (right; eauto).
    split.
    + intros r. split; [|intros [H|[]]; discriminate].
      intros H. destruct (Hfirst _ _ Hn _ _ H) as [E _]. exfalso. apply (Hnt n _ Hk); [|exact E]. intros ->. discriminate.
    + intros m [k' [w [Ho [Hk' Hr']]]]. destruct (Hfirst _ _ Hn _ _ Ho) as [<- <-]. congruence.
  - intros n k v ms d l Hk Hr _ [IH1 IH2]. assert (Hne : n <> f_terminal f) by (apply (Hnt n k Hk); intros ->; discriminate).
    split.
    + intros r. rewrite <- IH1. split.
      * intros H. destruct (occurs_first f n v _ r Hc H) as [[E _]|[k' [ms' [d' [t [w [Hk' [Hr' [Hin Ho]]]]]]]]]; [contradiction|].
        rewrite Hk in Hk'. injection Hk' as <-. rewrite Hr in Hr'. injection Hr' as <- <-. eauto.
      * intros [t [w [Hin Ho]]]. exact (occurs_trans f n v t w _ r (O_sent _ _ _ _ _ _ _ _ _ _ (O_here f n v) Hk Hr Hin) Ho).
    + intros m [k' [w [Ho [Hk' Hr']]]].
      destruct (occurs_first f n v m w Hc Ho) as [[E1 E2]|[k'' [ms' [d' [t [u [Hk2 [Hr2 [Hin Ho']]]]]]]]].
      * subst m w. congruence.
      * rewrite Hk in Hk2. injection Hk2 as <-. rewrite Hr in Hr2. injection Hr2 as <- <-.
        apply (IH2 t u m Hin). exists k', w. auto.
  - split; [|intros n v m []]. intros r. split; [intros [n [v [[] _]]]|intros []].
  - intros n v ms l l' _ [IH1 IH2] _ [IH3 IH4]. split.
    + intros r. rewrite in_app_iff, <- IH1, <- IH3. split.
      * intros [n' [v' [[E|Hin] H]]]; [injection E as <- <-; auto|]. right. eauto.
      * intros [H|[n' [v' [Hin H]]]]; [exists n, v|exists n', v']; cbn; auto.
    + intros n' v' m [E|Hin] H; apply in_or_app; [injection E as <- <-; left; eauto|]. right. eauto.
Qed.

(** A session which started was asked for. *)
Lemma finish_starts f s v s' e x : (forall a b, e <> EStart a b) ->
  In (EStart s v) (x_log (finish f s' e x)) -> In (EStart s v) (x_log x).
Proof.
  intros He. unfold finish. destruct (existsb (Nat.eqb s') (x_ongoing x)); [|auto]. cbn. intros H.
  apply in_app_or in H. destruct H as [H|[H|[]]]; [exact H|]. exfalso. eapply He, H.
Qed.

Lemma broken_starts f s v n x : In (EStart s v) (x_log (broken f n x)) -> In (EStart s v) (x_log x).
Proof. cbn. intros H. apply in_app_or in H. destruct H as [H|[H|[]]]; [exact H|discriminate]. Qed.

Lemma validate_starts f s v o a x : In (EStart s v) (x_log (fst (validate f o a x))) -> In (EStart s v) (x_log x).
Proof.
  unfold validate. destruct (listeners f o a (f_nodes f) (x_o x)) as [o1 [|]]; [|auto].
  destruct (check_reachability _ _ _); auto. cbn [fst]. intros H. apply finish_starts in H; [exact H|discriminate].
Qed.

Lemma step_starts f s v x a : In (EStart s v) (x_log (xstep f x a)) -> In (EStart s v) (x_log x) \/ a = XStart s v.
Proof.
  destruct a as [s' v'| | | |s']; cbn [xstep].
  - unfold start. destruct (known s' (x_log x)); [auto|]. destruct (o_give _ _ _ _) as [o2 [|]].
    + assert (Hl : In (EStart s v) (x_log x ++ [EStart s' v']) -> In (EStart s v) (x_log x) \/ XStart s' v' = XStart s v).
      { intros H. apply in_app_or in H. destruct H as [H|[H|[]]]; [auto|]. injection H as -> ->. auto. }
      destruct (x_initial x) as [[]|].
      * intros H. apply Hl. exact H.
      * intros H. apply Hl. apply validate_starts in H. exact H.
      * intros H. apply Hl. apply finish_starts in H; [exact H|discriminate].
      * destruct (circular f (f_nodes f)).
        -- intros H. apply Hl. apply finish_starts in H; [exact H|discriminate].
        -- match goal with |- context [validate f ?a ?b ?y] => pose proof (validate_starts f s v a b y) as Hv;
             destruct (validate f a b y) as [x2 [b0|]] end; intros H; apply Hl, Hv, H.
    + cbn. intros H. apply in_app_or in H. destruct H as [H|[H|[]]]; [auto|discriminate].
  - unfold exec. destruct (queue (x_o x)) as [|n rest]; [auto|]. intros H. left.
    destruct (f_kind f n) as [k|]; [|exact H].
    assert (Ht : forall y, x_log y = x_log x -> In (EStart s v) (x_log (terminate f n y)) -> In (EStart s v) (x_log x)).
    { intros y Ey. unfold terminate. destruct (o_take (x_o y) n) as [o1 [[a b]| |]]; intros Hy.
      - destruct (existsb (Nat.eqb a) (x_ongoing y)).
        + apply finish_starts in Hy; [|discriminate]. cbn in Hy. rewrite Ey in Hy. exact Hy.
        + apply broken_starts in Hy. cbn in Hy. rewrite Ey in Hy. exact Hy.
      - cbn in Hy. rewrite Ey in Hy. exact Hy.
      - apply broken_starts in Hy. cbn in Hy. rewrite Ey in Hy. exact Hy. }
    assert (Ho : forall q, In (EStart s v) (x_log (match q : oworld * opres with
          | (o1, OpOk) | (o1, OpNotReady) => set_o x o1
          | (o1, OpBroken) => broken f n (set_o x o1)
          | (o1, OpPanic) => tell (set_o x o1) (EPanic n) end)) -> In (EStart s v) (x_log x)).
    { intros [o1 []] Hy; try exact Hy.
      - apply broken_starts in Hy. exact Hy.
      - cbn in Hy. apply in_app_or in Hy. destruct Hy as [Hy|[Hy|[]]]; [exact Hy|discriminate]. }
    destruct k; match type of H with
      | context [op_execute ?a ?b ?c ?d] => exact (Ho (op_execute a b c d) H)
      | context [terminate f n ?y] => exact (Ht y eq_refl H) end.
  - unfold do_cancel. destruct (asked (x_o x)) as [|c rest]; [auto|]. intros H. left.
    destruct (c_target c =? f_scope f); [|exact H]. destruct (c_session c).
    + apply finish_starts in H; [exact H|discriminate].
    + unfold finish_all in H. assert (Hg : forall l z, In (EStart s v) (x_log (fold_left (fun x s => finish f s (ECancelled s (c_cause c)) x) l z)) ->
                   In (EStart s v) (x_log z)).
      { induction l as [|a l IH]; intros z; cbn [fold_left]; [auto|]. intros Hz. apply IH in Hz.
        apply finish_starts in Hz; [exact Hz|discriminate]. }
      apply Hg in H. exact H.
  - unfold notice. destruct (pop_last (told (x_o x))) as [l [d|]]; [|auto]. intros H. left.
    destruct (d_source d =? f_scope f); [|exact H]. apply validate_starts in H. exact H.
  - auto.
Qed.

Lemma run_starts f s v : forall l x, In (EStart s v) (x_log (xrun f l x)) -> In (EStart s v) (x_log x) \/ In (XStart s v) l.
Proof.
  induction l as [|a l IH]; intros x H; [auto|]. cbn [xrun fold_left] in H. apply IH in H.
  destruct H as [H|H]; [|right; right; exact H]. apply step_starts in H. destruct H as [H| ->]; [auto|].
  right. left. reflexivity.
Qed.

(** ** Cancelling nodes which nothing comes to stay out of the queue. *)
Lemma finish_queue f s e x : built f -> shaped f (x_o x) -> queue (x_o (finish f s e x)) = queue (x_o x).
Proof.
  intros Hb Ho. destruct (in_dec Nat.eq_dec s (x_ongoing x)) as [Hin|Hin]; [|rewrite finish_other by assumption; reflexivity].
  destruct (finish_effect f s e x Hb Ho Hin) as (_ & _ & _ & F & _). cbn zeta in F. unfold queue. rewrite F. reflexivity.
Qed.

Lemma finish_shaped f s e x : built f -> shaped f (x_o x) -> shaped f (x_o (finish f s e x)).
Proof.
  intros Hb Ho. destruct (in_dec Nat.eq_dec s (x_ongoing x)) as [Hin|Hin]; [|rewrite finish_other by assumption; exact Ho].
  exact (proj1 (finish_effect f s e x Hb Ho Hin)).
Qed.

Lemma finish_all_queue f c x : built f -> shaped f (x_o x) -> queue (x_o (finish_all f c x)) = queue (x_o x).
Proof.
  intros Hb Ho. unfold finish_all.
  assert (H : forall l y, shaped f (x_o y) -> queue (x_o (fold_left (fun x s => finish f s (ECancelled s c) x) l y)) = queue (x_o y)).
  { induction l as [|s l IH]; intros y Hy; [reflexivity|]. cbn [fold_left].
    etransitivity; [apply IH, finish_shaped; assumption|]. apply finish_queue; assumption. }
  apply H, Ho.
Qed.

Lemma validate_queue f origin s x : built f -> collect_free f -> shaped f (x_o x) ->
  queue (x_o (fst (validate f origin s x))) = queue (x_o x).
Proof.
  intros Hb Hc Ho. unfold validate. rewrite no_listeners by exact Hc.
  assert (E : set_o x (x_o x) = x) by (destruct x; reflexivity). rewrite E.
  destruct (check_reachability _ _ _); try reflexivity. apply finish_queue; assumption.
Qed.

Lemma calm_step f x a E : built f -> collect_free f -> base f x -> traced f E x ->
  (forall s v, In (EStart s v) (x_log x) -> gentle f v) -> (forall s v, a = XStart s v -> gentle f v) ->
  calm f x -> calm f (xstep f x a).
Proof.
  intros Hb Hc B T G Ga C. destruct a as [s v| | | |s]; cbn [xstep].
  - unfold start. destruct (known s (x_log x)) eqn:Ek; [exact C|].
    match goal with |- context [o_give ?o _ _ _] => set (o1 := o) end.
    assert (Hs1 : w_status (o_w o1) s = Some Active) by (cbn -[emap_set]; apply emap_set_eq).
    assert (Hen : In (f_entry f) (f_nodes f)) by apply Hb.
    assert (He : f_kind f (f_entry f) <> None) by (apply (proj1 (proj2 Hb)), Hen).
    destruct (give_change f o1 (f_entry f) s v (b_shaped _ _ B) Hs1 He) as [o2 [Eo [Ch K]]]. rewrite Eo.
    set (x1 := mk_x o2 (x_ongoing x ++ [s]) (x_initial x) (x_log x ++ [EStart s v])).
    assert (S1 : shaped f (x_o x1)) by exact (ch_shaped _ _ _ _ _ _ _ Ch).
    assert (C1 : calm f x1).
    { intros n H. cbn [x1 x_o] in H. rewrite (ch_queue _ _ _ _ _ _ _ Ch) in H. apply in_app_or in H. destruct H as [H|[<-|[]]].
      - apply C. exact H.
      - apply (Ga s v eq_refl _ v). constructor. }
    pose proof (validate_queue f (f_scope f) s x1 Hb Hc S1) as Vq. rewrite (not_circular_free f Hc).
    destruct (x_initial x) as [i|].
    + destruct i; [exact C1| |].
      * intros n H. rewrite Vq in H. exact (C1 n H).
      * intros n H. rewrite finish_queue in H by assumption. exact (C1 n H).
    + destruct (validate f (f_scope f) s x1) as [x2 [b|]]; intros n H; cbn [fst x_o] in *; rewrite Vq in H; exact (C1 n H).
  - destruct (queue (x_o x)) as [|n rest] eqn:Hq; [unfold exec; rewrite Hq; exact C|].
    assert (Cr : forall m, In m rest -> f_kind f m <> Some OCancel) by (intros m H; apply C; rewrite Hq; right; exact H).
    assert (Cp : forall o' m, pulled f (popped (x_o x) rest) o' n -> In m (queue o') -> f_kind f m <> Some OCancel).
    { intros o' m P H. unfold queue in H. rewrite (pu_roster _ _ _ _ P) in H. exact (Cr m H). }
    assert (Cd : forall o' s ns cs m, did f (popped (x_o x) rest) o' n s [] ns cs -> In m (queue o') -> f_kind f m <> Some OCancel).
    { intros o' s ns cs m D H. rewrite (di_queue _ _ _ _ _ _ _ _ D), app_nil_r in H. exact (Cr m H). }
    destruct (exec_executed f x n rest Hb B Hq) as
      [o' Hp P|o' Hp Hk P|o' k s v more ms dropped ns Hk Hr Hp Hs D F Hd' K|o' k s v more c Hk Hr Hp Hs D Hcc K
      |o' k s v more Hk Hr Hp Hs D K|o' min max t s v more Hk Hp Hs Hcol|o' s v more Hn Hp Hs P|o' s v more Hn Hp Hs P].
    + intros m H. exact (Cp _ _ P H).
    + intros m H. exact (Cp _ _ P H).
    + intros m H. cbn [set_o x_o] in H. rewrite (di_queue _ _ _ _ _ _ _ _ D) in H. apply in_app_or in H. destruct H as [H|H]; [exact (Cr m H)|].
      apply in_map_iff in H. destruct H as [[t u] [<- H]]. cbn [fst].
      assert (Hpn : In (s, v) (pending (o_w (x_o x)) n)) by (rewrite Hp; left; reflexivity).
      destruct (t_pend _ _ _ T s v n Hpn) as [v0 [Hv0 Ho]]. apply (G s v0 Hv0 t u). exact (O_sent _ _ _ _ _ _ _ _ _ _ Ho Hk Hr H).
    + intros m H. exact (Cd _ _ _ _ _ D H).
    + intros m H. exact (Cd _ _ _ _ _ D H).
    + exfalso. specialize (Hc n). unfold is_collect in Hc. rewrite Hk in Hc. discriminate.
    + intros m H. rewrite finish_queue in H; [|exact Hb|exact (pu_shaped _ _ _ _ P)]. exact (Cp _ _ P H).
    + intros m H. exact (Cp _ _ P H).
  - unfold do_cancel. destruct (asked (x_o x)) as [|c rest] eqn:Ea; [exact C|].
    destruct (c_target c =? f_scope f); [|exact C]. destruct (c_session c) as [s|].
    + intros n H. rewrite finish_queue in H; [exact (C n H)|exact Hb|exact (b_shaped _ _ B)].
    + intros n H. rewrite finish_all_queue in H; [exact (C n H)|exact Hb|exact (b_shaped _ _ B)].
  - unfold notice. destruct (pop_last (told (x_o x))) as [l [d|]]; [|exact C].
    destruct (d_source d =? f_scope f); [|exact C]. intros n H. rewrite validate_queue in H; [exact (C n H)|exact Hb|exact Hc|exact (b_shaped _ _ B)].
  - exact C.
Qed.

Lemma tidy_run f acts : built f -> collect_free f -> (forall s v, In (XStart s v) acts -> tame f v) ->
  (forall s v, In (XStart s v) acts -> gentle f v) ->
  tidy f (xrun f acts (fresh f)) /\ calm f (xrun f acts (fresh f)).
Proof.
  intros Hb Hsi. induction acts as [|a acts IH] using rev_ind; intros Ha Hg.
  - assert (Hp : forall n, pending (o_w (x_o (fresh f))) n = []).
    { intros n. rewrite pending_node. cbn. destruct (f_kind f n) as [[]|]; reflexivity. }
    split; [|intros n []]. split; try (intros; rewrite ?Hp in *; cbn in *; contradiction). intros n [].
  - destruct IH as [Y C]; [intros s v H; apply (Ha s v), in_or_app; auto|intros s v H; apply (Hg s v), in_or_app; auto|].
    assert (E : xrun f (acts ++ [a]) (fresh f) = xstep f (xrun f acts (fresh f)) a) by (unfold xrun; rewrite fold_left_app; reflexivity).
    pose proof (run_sound f acts Hb) as S. pose proof (proj1 S) as B. destruct (traced_run f acts Hb) as [T _].
    rewrite E. split.
    + destruct a as [s v| | | |s]; cbn [xstep].
      * apply tidy_start; auto. apply (Ha s v), in_or_app. right. left. reflexivity.
      * apply tidy_exec; assumption.
      * apply tidy_do_cancel; assumption.
      * apply tidy_notice; assumption.
      * destruct Y as [H1 H2 H3 H4]. split; auto. intros c H. cbn in H. apply in_app_or in H.
        destruct H as [H|[<-|[]]]; [apply H3, H|discriminate].
    + eapply calm_step; try eassumption.
      * intros s v H. destruct (run_starts f s v acts (fresh f) H) as [[]|Hw]. apply (Hg s v), in_or_app. auto.
      * intros s v ->. apply (Hg s v), in_or_app. right. left. reflexivity.
Qed.

(** How a session ends, in terms of its results. *)
Definition ends_with (x : xworld) (s : entity) (l : list result) : Prop :=
  match l with
  | [RValue r] => endings x s = [EOut s r]
  | _ => exists c, endings x s = [ECancelled s c]
  end.

Lemma outcome f acts s v l : built f -> collect_free f -> (forall s v, In (XStart s v) acts -> tame f v) ->
  (forall s v, In (XStart s v) acts -> gentle f v) ->
  let x := xrun f acts (fresh f) in
  quiet x -> started x s v -> ~ In (XCancel s) acts -> yields f (f_entry f) v l -> ends_with x s l.
Proof.
  intros Hb Hsi Ha Hg x Hq Hs He Hl. destruct (quiet_ended f acts s v Hb Hq Hs) as [e Ee]. fold x in Ee.
  destruct (traced_run f acts Hb) as [T _]. fold x in T. pose proof (proj1 (tidy_run f acts Hb Hsi Ha Hg)) as Y. fold x in Y.
  destruct (yields_occurs f Hb Hsi _ _ _ Hl) as [Hval Hcan].
  assert (Hin : In e (endings x s)) by (rewrite Ee; left; reflexivity).
  unfold endings in Hin. apply filter_In in Hin. destruct Hin as [Hin Hse]. pose proof (t_log _ _ _ T e Hin) as Hex.
  assert (Hlen : length l <= 1).
  { destruct (run_starts f s v acts (fresh f) Hs) as [[]|Hw]. destruct (Ha s v Hw) as [l' [Y' [H _]]].
    rewrite (yields_once f Hb _ _ _ Hl _ Y'). exact H. }
  destruct e as [|s' r|s' c| |]; try discriminate; cbn in Hse; apply Nat.eqb_eq in Hse; subst s'; cbn in Hex.
  - destruct Hex as [v' [Hv' Ho]]. rewrite (t_once _ _ _ T s v' v Hv' Hs) in Ho. apply Hval in Ho.
    destruct l as [|a [|b l]]; [destruct Ho|destruct Ho as [->|[]]; exact Ee|cbn in Hlen; lia].
  - assert (Hno : forall r, l <> [RValue r]).
    { intros r ->. inversion Hex as [c' v' n Hc' Hv' Ho|H|n H|H|H]; subst.
      - rewrite (t_once _ _ _ T s v' v Hv' Hs) in Ho. apply Hcan in Ho. destruct Ho as [Ho|[]]; discriminate.
      - destruct (H Hsi) as [v' [Hv' Hno]]. rewrite (t_once _ _ _ T s v' v Hv' Hs) in Hno.
        apply (Hno r), Hval. left. reflexivity.
      - exact (y_log _ _ Y n H).
      - rewrite (not_circular_free f Hsi) in H. discriminate.
      - contradiction. }
    unfold ends_with. destruct l as [|[r| |] [|b l]]; eauto. exfalso. exact (Hno r eq_refl).
Qed.
