(** The order of nested requests, and services that are despawned. *)
From Verif Require Import Base RequestModel RequestSpec RequestProofs RequestProofs2.

Lemma existsb_same {A} (f g : A -> bool) (l : list A) :
  (forall a, f a = g a) -> existsb f l = existsb g l.
Proof. intros H. induction l as [|a l IH]; [reflexivity|]. cbn [existsb]. rewrite H, IH. reflexivity. Qed.

Section Proofs.
  Context {V U : Type}.
  Implicit Types (w : rworld V U) (l : list (entity * snode V)).
  Variable run : U -> entity -> entity -> entity -> V -> U * option (list (action V)).

  Lemma made_app (a b : list (revent V)) : made_order (a ++ b) = made_order a ++ made_order b.
  Proof. apply flat_map_app. Qed.
  Lemma served_app (a b : list (revent V)) : served_order (a ++ b) = served_order a ++ served_order b.
  Proof. apply flat_map_app. Qed.

  Definition idle w : Prop :=
    rw_queue w = [] /\ (forall m, inp m (rw_nodes w) = []) /\
    made_order (rw_log w) = served_order (rw_log w).

  Definition busy w q : Prop :=
    rw_queue w = [q] /\
    exists s v, (forall m, inp m (rw_nodes w) = if Nat.eqb m (pd_src q) then [(s, v)] else []) /\
                made_order (rw_log w) = served_order (rw_log w) ++ [(pd_src q, s, v)].

  Lemma all_sig_available w :
    all_available w <-> forall n p, In (n, p) (sig (rw_nodes w)) -> rw_alive w p = true.
  Proof.
    split.
    - intros H n p Hi. exact (sig_all _ _ _ H Hi).
    - intros H n x Hx. apply (H n). apply in_map_iff. exists (n, x). split; [reflexivity|exact Hx].
  Qed.

  Lemma give_enqueue_chain w n s v :
    idle w -> all_available w ->
    let w1 := enqueue n (give n s v w) in
    all_available w1 /\ Qok w1 /\ (idle w1 \/ exists q, busy w1 q).
  Proof.
    intros (Hq & Hi & Hl) Ha w1.
    assert (Hq0 : Qok w) by (intros a Hin; rewrite Hq in Hin; destruct Hin).
    split; [|split].
    - apply all_sig_available. intros m p Hin. unfold w1 in *.
      rewrite enqueue_nodes, give_sig in Hin.
      destruct (same2_trans _ _ _ (give_same2 n s v w) (enqueue_same2 n (give n s v w))) as (-> & _).
      exact (sig_all _ _ _ Ha Hin).
    - apply enqueue_Qok, give_Qok, Hq0.
    - destruct (find_node n (rw_nodes w)) as [x|] eqn:E.
      + right. unfold w1, enqueue. destruct (give_find n s v w n) as (Hf & _ & Eq).
        destruct (find_node n (rw_nodes (give n s v w))) as [y|] eqn:E2.
        2:{ destruct Hf as [Hf _]. specialize (Hf eq_refl). congruence. }
        exists (mk_pending (sn_prov y) n). split.
        * cbn [set_queue rw_queue]. rewrite Eq, Hq. reflexivity.
        * exists s, v. cbn [set_queue rw_nodes rw_log pd_src]. split.
          -- intros m. rewrite give_inp, E, Hi. reflexivity.
          -- unfold give. rewrite E. cbn [add_log rw_log set_nodes].
             rewrite made_app, served_app, Hl. cbn [made_order served_order flat_map].
             rewrite !app_nil_r. reflexivity.
      + left. unfold w1, enqueue, give. rewrite E, E. split; [exact Hq|]. split; [exact Hi|exact Hl].
  Qed.

  Lemma serve_chain w q :
    nests_once run -> busy w q -> all_available w -> Qok w ->
    let w1 := serve run q (set_queue w []) in
    all_available w1 /\ Qok w1 /\ (idle w1 \/ exists q', busy w1 q').
  Proof.
    intros Hn (Hq & s & v & Hi & Hl) Ha Hok w1.
    unfold w1, serve. cbn [set_queue rw_nodes rw_user].
    assert (Hs := Hi (pd_src q)). rewrite Nat.eqb_refl in Hs. unfold inp in Hs.
    destruct (find_node (pd_src q) (rw_nodes w)) as [x|] eqn:E; [|discriminate]. rewrite Hs.
    destruct (Hn (rw_user w) (pd_prov q) (pd_src q) s v) as (u & acts & -> & Hacts).
    match goal with |- context [fold_left act acts ?w2] => set (w2' := w2) end.
    assert (Hid : idle w2').
    { split; [reflexivity|]. split.
      - intros m. cbn [w2' add_log set_user set_nodes set_queue rw_nodes]. rewrite inp_put.
        destruct (Nat.eqb_spec m (pd_src q)) as [->|Hne].
        + rewrite E. reflexivity.
        + rewrite Hi. destruct (Nat.eqb_spec m (pd_src q)); [contradiction|reflexivity].
      - cbn [w2' add_log set_user set_nodes set_queue rw_log]. rewrite made_app, served_app, Hl.
        cbn [made_order served_order flat_map]. rewrite !app_nil_r. reflexivity. }
    assert (Hav : all_available w2').
    { apply all_sig_available. intros m p. cbn [w2' add_log set_user set_nodes set_queue rw_nodes rw_alive].
      rewrite sig_put. intros Hin. exact (sig_all _ _ _ Ha Hin). }
    destruct Hacts as [->|(m & t & y & ->)]; cbn [fold_left act].
    - split; [exact Hav|]. split; [|left; exact Hid].
      intros a Hin. destruct Hid as (Hq2 & _). rewrite Hq2 in Hin. destruct Hin.
    - exact (give_enqueue_chain w2' m t y Hid Hav).
  Qed.

  Lemma deliver_chain fuel p w w' :
    nests_once run -> all_available w -> Qok w -> idle w \/ (exists q, busy w q) ->
    deliver run fuel p w = Some w' -> idle w'.
  Proof.
    intros Hn. revert w. induction fuel as [|fuel IH]; intros w Ha Hok Hc; cbn [deliver].
    - destruct Hc as [Hi|[q (Hq & _)]].
      + rewrite (proj1 Hi). cbn [pop_back]. intros [= <-]. exact Hi.
      + rewrite Hq. cbn [pop_back]. discriminate.
    - destruct Hc as [Hi|[q Hb]].
      + rewrite (proj1 Hi). cbn [pop_back]. intros [= <-]. exact Hi.
      + destruct (serve_chain w q Hn Hb Ha Hok) as (A & B & C).
        rewrite (proj1 Hb). cbn [pop_back].
        rewrite (sig_all w (pd_prov q) (pd_src q) Ha).
        * apply IH; assumption.
        * apply Hok. rewrite (proj1 Hb). left. reflexivity.
  Qed.

  Lemma exec_chain fuel n s v w w' :
    nests_once run -> all_available w -> idle w ->
    exec_node run fuel n (give n s v w) = Some w' -> idle w'.
  Proof.
    intros Hn Ha Hi. destruct (give_enqueue_chain w n s v Hi Ha) as (A & B & C).
    unfold exec_node. destruct (find_node n (rw_nodes (give n s v w))) as [x|] eqn:E.
    - apply deliver_chain; assumption.
    - intros [= <-]. destruct (give_find n s v w n) as ([Hf _] & _ & _). apply Hf in E.
      unfold give. rewrite E. exact Hi.
  Qed.

  (** ** Despawned services *)

  Definition owned (n p : entity) l : bool :=
    existsb (Nat.eqb n) (map fst (filter (fun nx => Nat.eqb (sn_prov (snd nx)) p) l)).

  Lemma owned_sig n p l : owned n p l = true <-> In (n, p) (sig l).
  Proof. apply disposed_nodes. Qed.

  Lemma owned_same n p l l' : sig l = sig l' -> owned n p l = owned n p l'.
  Proof.
    intros E. destruct (owned n p l) eqn:E1, (owned n p l') eqn:E2; try reflexivity.
    - apply owned_sig in E1. rewrite E in E1. apply owned_sig in E1. congruence.
    - apply owned_sig in E2. rewrite <- E in E2. apply owned_sig in E2. congruence.
  Qed.

  Lemma owned_one n p q l : NoDup (map fst l) -> owned n p l = true -> owned n q l = true -> p = q.
  Proof.
    rewrite !owned_sig. rewrite <- sig_fst. induction (sig l) as [|[a b] r IH]; intros Hn H1 H2; [destruct H1|].
    inversion Hn as [|? ? Hni Hnd]; subst. destruct H1 as [[= <- <-]|H1], H2 as [H2|H2].
    - congruence.
    - exfalso. apply Hni. apply (in_map fst) in H2. exact H2.
    - injection H2 as <- <-. exfalso. apply Hni. apply (in_map fst) in H1. exact H1.
    - apply IH; assumption.
  Qed.

  Lemma collect_fold_inp ps w n :
    inp n (rw_nodes (fold_left (fun w p => dispose_service p w) ps w)) =
    if existsb (fun p => owned n p (rw_nodes w)) ps then [] else inp n (rw_nodes w).
  Proof.
    revert w. induction ps as [|p ps IH]; intros w; [reflexivity|].
    cbn [fold_left existsb]. rewrite IH. unfold dispose_service at 2.
    rewrite fold_dispose_inp. fold (owned n p (rw_nodes w)).
    rewrite (existsb_same (fun q => owned n q (rw_nodes (dispose_service p w))) (fun q => owned n q (rw_nodes w))).
    - destruct (owned n p (rw_nodes w)), (existsb (fun p0 => owned n p0 (rw_nodes w)) ps); reflexivity.
    - intros q. apply owned_same. apply fold_dispose_sig.
  Qed.

  Lemma collect_fold_log ps w p n :
    NoDup (map fst (rw_nodes w)) ->
    disposed_at p n (rw_log (fold_left (fun w q => dispose_service q w) ps w)) =
    disposed_at p n (rw_log w) ++
    (if existsb (Nat.eqb p) ps && owned n p (rw_nodes w) then inp n (rw_nodes w) else []).
  Proof.
    revert w. induction ps as [|q ps IH]; intros w Hn.
    - cbn [fold_left existsb andb]. rewrite app_nil_r. reflexivity.
    - cbn [fold_left existsb].
      assert (Hs : sig (rw_nodes (dispose_service q w)) = sig (rw_nodes w)) by apply fold_dispose_sig.
      rewrite IH by (rewrite <- sig_fst, Hs, sig_fst; exact Hn).
      rewrite (owned_same n p _ _ Hs). unfold dispose_service.
      rewrite fold_dispose_log, fold_dispose_inp. fold (owned n q (rw_nodes w)).
      rewrite <- app_assoc. f_equal. rewrite (Nat.eqb_sym q p).
      destruct (Nat.eqb_spec p q) as [->|Hne]; cbn [orb andb].
      + destruct (owned n q (rw_nodes w)); cbn [andb]; [|rewrite andb_false_r; reflexivity].
        rewrite andb_true_r. destruct (existsb (Nat.eqb q) ps); apply app_nil_r.
      + destruct (owned n q (rw_nodes w)) eqn:Eq; [|reflexivity].
        destruct (owned n p (rw_nodes w)) eqn:Ep.
        * exfalso. apply Hne. exact (owned_one _ _ _ _ Hn Ep Eq).
        * rewrite andb_false_r. reflexivity.
  Qed.

  Lemma collect_fold_told ps w s :
    told s (rw_log (fold_left (fun w p => dispose_service p w) ps w)) ->
    told s (rw_log w) \/ exists n v, In (s, v) (inp n (rw_nodes w)).
  Proof.
    revert w. induction ps as [|p ps IH]; intros w; [left; assumption|].
    cbn [fold_left]. intros H. apply IH in H. destruct H as [H|(n & v & Hv)].
    - unfold dispose_service in H. apply fold_dispose_told in H. destruct H as [H|(n & v & _ & Hv)]; [left; exact H|].
      right. exists n, v. exact Hv.
    - right. exists n, v. unfold dispose_service in Hv. rewrite fold_dispose_inp in Hv.
      destruct (existsb _ _); [destruct Hv|exact Hv].
  Qed.

  (** A session that has no inputs anywhere hears of no disposal. *)
  Definition silent (s : entity) w : Prop :=
    ~ told s (rw_log w) /\ forall n v, ~ In (s, v) (inp n (rw_nodes w)).

  Lemma silent_dispose s p w : silent s w -> silent s (dispose_service p w).
  Proof.
    intros [H1 H2]. split.
    - intros H. unfold dispose_service in H. apply fold_dispose_told in H.
      destruct H as [H|(n & v & _ & Hv)]; [exact (H1 H)|exact (H2 _ _ Hv)].
    - intros n v. unfold dispose_service. rewrite fold_dispose_inp. destruct (existsb _ _); [intros []|apply H2].
  Qed.

  Lemma silent_despawn s p w : silent s w -> silent s (despawn p w).
  Proof. intros H. unfold despawn. destruct (rw_alive w p); exact H. Qed.

  Lemma silent_despawns s acts w :
    (forall a, In a acts -> match a with AcRequest _ _ _ => False | AcDespawn _ => True end) ->
    silent s w -> silent s (fold_left act acts w).
  Proof.
    revert w. induction acts as [|a acts IH]; intros w H Hs; [exact Hs|]. cbn [fold_left].
    apply IH; [intros b Hb; apply H; right; exact Hb|].
    destruct a; [destruct (H _ (or_introl eq_refl))|]. apply silent_despawn, Hs.
  Qed.

  Lemma told_app s (a b : list (revent V)) : told s (a ++ b) <-> told s a \/ told s b.
  Proof.
    unfold told. split.
    - intros (p & n & v & H). apply in_app_or in H. destruct H; [left|right]; exists p, n, v; assumption.
    - intros [(p & n & v & H)|(p & n & v & H)]; exists p, n, v; apply in_or_app; auto.
  Qed.

  Lemma silent_serve s q w : never_nests run -> silent s w -> silent s (serve run q w).
  Proof.
    intros Hn [H1 H2]. unfold serve. destruct (find_node (pd_src q) (rw_nodes w)) as [x|] eqn:E; [|split; assumption].
    destruct (sn_inputs x) as [|[t v] rest] eqn:Ei; [split; assumption|].
    assert (Hi : forall n y, ~ In (s, y) (inp n (put_inputs (pd_src q) rest (rw_nodes w)))).
    { intros n y. rewrite inp_put. destruct (Nat.eqb_spec n (pd_src q)) as [->|]; [|apply H2].
      rewrite E. intros Hin. apply (H2 (pd_src q) y). unfold inp. rewrite E, Ei. right. exact Hin. }
    destruct (run _ _ _ _ _) as [u [acts|]] eqn:Er.
    - apply silent_despawns; [exact (Hn _ _ _ _ _ _ _ Er)|]. split; [|exact Hi].
      cbn [add_log set_user set_nodes rw_log]. rewrite told_app. intros [H|(p & n & y & [H|[]])]; [exact (H1 H)|discriminate].
    - split; [|exact Hi]. cbn [add_log set_user set_nodes set_orders rw_log].
      rewrite told_app. intros [H|(p & n & y & [H|[]])]; [exact (H1 H)|discriminate].
  Qed.

  Lemma silent_deliver s fuel p w w' :
    never_nests run -> silent s w -> deliver run fuel p w = Some w' -> silent s w'.
  Proof.
    intros Hn. revert w. induction fuel as [|fuel IH]; intros w H; cbn [deliver];
      destruct (pop_back (rw_queue w)) as [[q rest]|]; try discriminate;
      try (intros [= <-]; exact H).
    destruct (rw_alive w (pd_prov q)); apply IH.
    - apply silent_serve; [exact Hn|exact H].
    - apply silent_dispose. exact H.
  Qed.

  Lemma silent_collect s w : silent s w -> silent s (collect w).
  Proof.
    intros H. unfold collect.
    match goal with |- silent s (fold_left _ _ ?w1) => assert (H1 : silent s w1) by exact H; revert H1; generalize w1 end.
    induction (rw_removed w) as [|p ps IH]; intros w1 H1; [exact H1|]. apply IH, silent_dispose, H1.
  Qed.

  Lemma silent_later s w0 w : never_nests run -> silent s w0 -> later run s w0 w -> silent s w.
  Proof.
    intros Hn H0 L. induction L as [|w o w' L IH Ho St]; [exact H0|].
    destruct St as [w n t v|w n r fuel w' Hr He|w p|w p|w].
    - destruct IH as [H1 H2]. split.
      + cbn [set_roster rw_log]. unfold give. destruct (find_node n (rw_nodes w)); [|exact H1].
        cbn [add_log set_nodes rw_log]. rewrite told_app. intros [H|(p & m & y & [H|[]])]; [exact (H1 H)|discriminate].
      + intros m y. cbn [set_roster rw_nodes]. rewrite give_inp.
        destruct (find_node n (rw_nodes w)); [|apply H2]. intros Hin. apply in_app_or in Hin.
        destruct Hin as [Hin|Hin]; [exact (H2 _ _ Hin)|].
        destruct (Nat.eqb m n); [|destruct Hin]. destruct Hin as [[= E _]|[]]. exact (Ho E).
    - unfold exec_node in He. cbn [set_roster rw_nodes] in He.
      destruct (find_node n (rw_nodes w)); [|injection He as <-; exact IH].
      eapply silent_deliver; [exact Hn| |exact He].
      unfold enqueue. destruct (find_node n (rw_nodes (set_roster w r))); exact IH.
    - unfold serve_next. destruct (pop_order p (rw_orders w)) as [[o rest]|]; [|exact IH].
      destruct IH as [H1 H2]. split; [|exact H2]. cbn [add_log set_orders rw_log].
      rewrite told_app. intros [H|(q & m & y & [H|[]])]; [exact (H1 H)|discriminate].
    - apply silent_despawn, IH.
    - apply silent_collect, IH.
  Qed.
End Proofs.
