(** Proofs about continuous services. *)
From Coq Require Import Sorted.
From Verif Require Import Base DeliveryModel DeliverySpec DeliveryProofs ContinuousModel ContinuousSpec.

Section Proofs.
Context {V R : Type}.
Implicit Types (w : csrv V R) (q : list (corder V)) (d : list (answer R)) (dl : delivery V).

(** ** One cycle *)

Lemma unanswered_app base idx x y :
  @unanswered V base idx (x ++ y) = unanswered base idx x ++ unanswered (base + length x) idx y.
Proof.
  revert base. induction x as [|o x IH]; intros base; cbn [app unanswered length].
  - rewrite Nat.add_0_r. reflexivity.
  - rewrite IH. replace (S base + length x) with (base + S (length x)) by lia.
    destruct (existsb (Nat.eqb base) idx); reflexivity.
Qed.

Lemma unanswered_all base idx q : (forall i, In i idx -> i < base) -> unanswered base idx q = q.
Proof.
  revert base. induction q as [|o q IH]; intros base H; cbn [unanswered]; [reflexivity|].
  replace (existsb (Nat.eqb base) idx) with false.
  - rewrite IH; [reflexivity|]. intros i Hi. specialize (H i Hi). lia.
  - symmetry. apply not_true_is_false. intros E. apply existsb_exists in E. destruct E as (i & Hi & E).
    apply Nat.eqb_eq in E. specialize (H i Hi). lia.
Qed.

Lemma unanswered_ext base idx idx' q : (forall i, In i idx <-> In i idx') ->
  unanswered base idx q = unanswered base idx' q.
Proof.
  intros H. revert base. induction q as [|o q IH]; intros base; cbn [unanswered]; [reflexivity|].
  assert (E : existsb (Nat.eqb base) idx = existsb (Nat.eqb base) idx').
  { apply eq_true_iff_eq. rewrite !existsb_exists. split; intros (i & Hi & E); exists i; split; auto; apply H; assumption. }
  rewrite E, IH. reflexivity.
Qed.

Lemma unanswered_drop base i idx q : i < base -> unanswered base (i :: idx) q = unanswered base idx q.
Proof.
  revert base. induction q as [|o q IH]; intros base H; cbn [unanswered existsb]; [reflexivity|].
  destruct (Nat.eqb_spec base i); [lia|]. cbn [orb]. rewrite IH by lia. reflexivity.
Qed.

Lemma unanswered_high i idx q base : base + length q <= i -> unanswered base (i :: idx) q = unanswered base idx q.
Proof.
  revert base. induction q as [|o q IH]; intros base H; cbn [unanswered existsb length] in *; [reflexivity|].
  destruct (Nat.eqb_spec base i); [lia|]. cbn [orb]. rewrite IH by lia. reflexivity.
Qed.

(** Serving the next request only adds to the queue. *)
Lemma c_serve_next_effect fuel alive l w : exists news,
  let w' := c_serve_next fuel alive l w in
  cs_queue w' = cs_queue w ++ news /\ cs_start w' = cs_start w ++ map co_task news /\
  cs_given w' = cs_given w /\ cs_lost w' = cs_lost w /\ cs_oob w' = cs_oob w /\
  cs_commands w' = cs_commands w /\ cs_disp w' = cs_disp w.
Proof.
  revert w. induction fuel as [|fuel IH]; intros w; cbn [c_serve_next];
    destruct (pop_next (cs_del w) l) as [[dd [o|]]|]; try (exists []; cbn; rewrite !app_nil_r; auto 10; fail);
    destruct (alive (d_source o)); try (eexists [_]; cbn; auto 10; fail).
  - exists []. cbn. rewrite !app_nil_r. auto 10.
  - destruct (IH (c_log_dropped (c_set_del w dd) [d_task o])) as (news & H). exists news. exact H.
Qed.

Lemma retire_effect alive w i q m o : cs_queue w = q ++ m -> i < length q -> nth_error q i = Some o ->
  exists news, let w' := retire alive w i in
  cs_queue w' = (firstn i q ++ skipn (S i) q) ++ (m ++ news) /\ cs_start w' = cs_start w ++ map co_task news /\
  cs_given w' = cs_given w /\ cs_lost w' = cs_lost w /\ cs_oob w' = cs_oob w /\
  cs_commands w' = cs_commands w /\ cs_disp w' = cs_disp w.
Proof.
  intros Hq Hi Ho. apply nth_error_split in Ho. destruct Ho as (a & b & -> & <-).
  unfold retire. rewrite Hq, <- app_assoc. cbn [app]. rewrite remove_nth_at.
  assert (Ef : firstn (length a) (a ++ o :: b) ++ skipn (S (length a)) (a ++ o :: b) = a ++ b).
  { rewrite firstn_app, Nat.sub_diag, firstn_all. cbn [firstn]. rewrite app_nil_r.
    rewrite skipn_app. rewrite skipn_all2 by lia. replace (S (length a) - length a) with 1 by lia. reflexivity. }
  rewrite Ef. destruct (co_block o) as [l|].
  - destruct (c_serve_next_effect (length (queued (cs_del (c_set_queue w (a ++ b ++ m))))) alive l (c_set_queue w (a ++ b ++ m)))
      as (news & H). exists news. cbn [cs_queue cs_start c_set_queue] in H. unfold c_next.
    destruct H as (H1 & H2). split; [|exact H2]. rewrite H1, !app_assoc. reflexivity.
  - exists []. cbn. rewrite !app_nil_r, !app_assoc. auto 10.
Qed.

Lemma retire_all alive idx : forall w q m, cs_queue w = q ++ m -> StronglySorted (fun a b => b < a) idx ->
  (forall i, In i idx -> i < length q) ->
  exists news, let w' := fold_left (retire alive) idx w in
  cs_queue w' = unanswered 0 idx q ++ (m ++ news) /\ cs_start w' = cs_start w ++ map co_task news /\
  cs_given w' = cs_given w /\ cs_lost w' = cs_lost w /\ cs_oob w' = cs_oob w /\
  cs_commands w' = cs_commands w /\ cs_disp w' = cs_disp w.
Proof.
  induction idx as [|i idx IH]; intros w q m Hq Hs Hr; cbn [fold_left].
  - exists []. rewrite unanswered_all by (intros i []). rewrite !app_nil_r. auto 10.
  - inversion Hs as [|? ? Hs' Hall]; subst. rewrite Forall_forall in Hall.
    assert (Hi : i < length q) by (apply Hr; left; reflexivity).
    destruct (nth_error q i) as [o|] eqn:Eo; [|apply nth_error_None in Eo; lia].
    destruct (retire_effect alive w i q m o Hq Hi Eo) as (n1 & H1 & H2 & H3 & H4 & H5 & H6 & H7).
    apply nth_error_split in Eo. destruct Eo as (a & b & -> & <-).
    assert (Ef : firstn (length a) (a ++ o :: b) ++ skipn (S (length a)) (a ++ o :: b) = a ++ b).
    { rewrite firstn_app, Nat.sub_diag, firstn_all. cbn [firstn]. rewrite app_nil_r.
      rewrite skipn_app. rewrite skipn_all2 by lia. replace (S (length a) - length a) with 1 by lia. reflexivity. }
    rewrite Ef in H1.
    destruct (IH (retire alive w (length a)) (a ++ b) (m ++ n1) H1 Hs') as (n2 & G1 & G2 & G3 & G4 & G5 & G6 & G7).
    { intros j Hj. specialize (Hall j Hj). rewrite app_length. lia. }
    exists (n1 ++ n2). rewrite G1, G2, G3, G4, G5, G6, G7, H2, H3, H4, H5, H6, H7, map_app, <- !app_assoc.
    repeat split. f_equal.
    rewrite !unanswered_app. cbn [unanswered existsb Nat.add]. rewrite Nat.eqb_refl. cbn [orb].
    rewrite (unanswered_high (length a)) by lia.
    rewrite (unanswered_all (length a) idx b) by exact Hall.
    rewrite (unanswered_all (S (length a))); [reflexivity|].
    intros j [<-|Hj]; [lia|]. specialize (Hall j Hj). lia.
Qed.

Lemma insert_index_perm i l : Permutation (insert_index i l) (i :: l).
Proof.
  induction l as [|j l IH]; cbn [insert_index]; [apply Permutation_refl|].
  destruct (Nat.leb i j); [|apply Permutation_refl].
  rewrite IH. constructor.
Qed.

Lemma sort_acc l acc : Permutation (fold_left (fun acc i => insert_index i acc) l acc) (l ++ acc).
Proof.
  revert acc. induction l as [|i l IH]; intros acc; cbn [fold_left app]; [apply Permutation_refl|].
  rewrite IH, insert_index_perm. apply Permutation_sym, Permutation_middle.
Qed.

Lemma sort_perm l : Permutation (sort_indices l) l.
Proof. unfold sort_indices. rewrite sort_acc, app_nil_r. apply Permutation_refl. Qed.

Lemma insert_index_sorted i l : ~ In i l -> StronglySorted (fun a b => b < a) l ->
  StronglySorted (fun a b => b < a) (insert_index i l).
Proof.
  induction l as [|j l IH]; cbn [insert_index In]; intros Hn Hs; [repeat constructor|].
  inversion Hs as [|? ? Hs' Hall]; subst. rewrite Forall_forall in Hall. destruct (Nat.leb_spec i j) as [E|E].
  - constructor; [apply IH; tauto|]. rewrite Forall_forall. intros x Hx.
    apply (Permutation_in _ (insert_index_perm i l)) in Hx. destruct Hx as [<-|Hx]; [|auto].
    assert (i <> j) by (intros ->; tauto). lia.
  - constructor; [assumption|]. rewrite Forall_forall. intros x [<-|Hx]; [assumption|]. specialize (Hall x Hx). lia.
Qed.

Lemma sort_sorted l : NoDup l -> StronglySorted (fun a b => b < a) (sort_indices l).
Proof.
  unfold sort_indices. assert (H : forall acc, NoDup (l ++ acc) -> StronglySorted (fun a b => b < a) acc ->
    StronglySorted (fun a b => b < a) (fold_left (fun acc i => insert_index i acc) l acc)).
  { induction l as [|i l IH]; intros acc Hn Hs; cbn [fold_left]; [assumption|]. apply IH.
    - eapply Permutation_NoDup; [|exact Hn]. cbn [app]. rewrite insert_index_perm. apply Permutation_middle.
    - apply insert_index_sorted; [|assumption]. cbn in Hn. inversion Hn; subst. intros Hi. apply H1. apply in_or_app. right. assumption. }
  intros Hn. apply H; [rewrite app_nil_r; assumption|constructor].
Qed.

Lemma contains_seen i d : contains_key i d = existsb (Nat.eqb i) (map an_index d).
Proof.
  unfold contains_key. induction d as [|a d IH]; cbn [existsb map]; [reflexivity|].
  rewrite IH, Nat.eqb_sym. reflexivity.
Qed.

Lemma first_answers_ext n seen seen' (xs : list (nat * R)) : (forall i, In i seen <-> In i seen') ->
  first_answers n seen xs = first_answers n seen' xs.
Proof.
  revert seen seen'. induction xs as [|[i r] xs IH]; intros seen seen' H; cbn [first_answers]; [reflexivity|].
  assert (E : existsb (Nat.eqb i) seen = existsb (Nat.eqb i) seen').
  { apply eq_true_iff_eq. rewrite !existsb_exists. split; intros (j & Hj & E); exists j; split; auto; apply H; assumption. }
  rewrite E. destruct (Nat.ltb i n && negb (existsb (Nat.eqb i) seen')).
  - f_equal. apply IH. intros j. cbn. rewrite H. reflexivity.
  - apply IH. assumption.
Qed.

Lemma first_answers_nodup n (xs : list (nat * R)) : forall seen,
  NoDup (map fst (first_answers n seen xs)) /\
  (forall i, In i (map fst (first_answers n seen xs)) -> i < n /\ ~ In i seen).
Proof.
  induction xs as [|[i r] xs IH]; intros seen; cbn [first_answers].
  - split; [constructor|intros i []].
  - destruct (Nat.ltb i n && negb (existsb (Nat.eqb i) seen)) eqn:E; [|apply IH].
    apply andb_true_iff in E. destruct E as [E1 E2]. apply Nat.ltb_lt in E1. apply negb_true_iff in E2.
    destruct (IH (i :: seen)) as [H1 H2]. cbn [map fst]. split.
    + constructor; [|assumption]. intros Hi. destruct (H2 i Hi) as [_ H]. apply H. left. reflexivity.
    + intros j [<-|Hj].
      * split; [assumption|]. intros Hi. assert (existsb (Nat.eqb i) seen = true); [|congruence].
        apply existsb_exists. exists i. split; [assumption|apply Nat.eqb_refl].
      * destruct (H2 j Hj) as [H3 H4]. split; [assumption|]. intros Hi. apply H4. right. assumption.
Qed.

Lemma respond_all q xs : forall d, exists ans,
  fold_left (respond q) xs d = d ++ ans /\
  Forall2 (answers q) (first_answers (length q) (map an_index d) xs) ans.
Proof.
  induction xs as [|[i r] xs IH]; intros d; cbn [fold_left first_answers].
  - exists []. rewrite app_nil_r. split; [reflexivity|constructor].
  - unfold respond at 2. cbn [fst snd]. destruct (nth_error q i) as [o|] eqn:Eo.
    + assert (Hi : i < length q) by (apply nth_error_Some; congruence). apply Nat.ltb_lt in Hi. rewrite Hi. cbn [andb].
      rewrite <- contains_seen. destruct (contains_key i d); cbn [negb]; [apply IH|].
      set (a := mk_answer i (co_source o) (co_session o) (co_task o) r).
      destruct (IH (d ++ [a])) as (ans & H1 & H2). exists (a :: ans). split; [rewrite H1, <- app_assoc; reflexivity|].
      constructor; [exists o; cbn; auto|]. rewrite (first_answers_ext _ _ (map an_index (d ++ [a]))); [assumption|].
      intros j. rewrite map_app, in_app_iff. cbn. tauto.
    + apply nth_error_None in Eo. assert (Hi : Nat.ltb i (length q) = false) by (apply Nat.ltb_ge; assumption).
      rewrite Hi. cbn [andb]. apply IH.
Qed.

Lemma answers_index q (acc : list (nat * R)) ans : Forall2 (answers q) acc ans -> map an_index ans = map fst acc.
Proof. induction 1 as [|x a acc ans (o & _ & ->) H IH]; cbn; congruence. Qed.

Lemma give_all alive ans : forall w, let w' := fold_left (give alive) ans w in
  cs_given w' = cs_given w ++ filter (fun a => alive (an_source a)) ans /\
  cs_lost w' = cs_lost w ++ filter (fun a => negb (alive (an_source a))) ans /\
  cs_queue w' = cs_queue w /\ cs_start w' = cs_start w /\ cs_oob w' = cs_oob w /\
  cs_commands w' = cs_commands w /\ cs_del w' = cs_del w /\ cs_disp w' = cs_disp w.
Proof.
  induction ans as [|a ans IH]; intros w; cbn [fold_left filter].
  - rewrite !app_nil_r. auto 10.
  - destruct (IH (give alive w a)) as (H1 & H2 & H3 & H4 & H5 & H6 & H7 & H8). unfold give in *.
    rewrite H1, H2, H3, H4, H5, H6, H7, H8. destruct (alive (an_source a)); cbn; rewrite <- ?app_assoc; auto 10.
Qed.

Lemma calm_effect w e : calm e -> exists news, let w' := cstep w e in
  cs_queue w' = cs_queue w ++ news /\ cs_start w' = cs_start w ++ map co_task news /\
  cs_given w' = cs_given w /\ cs_lost w' = cs_lost w /\ cs_oob w' = cs_oob w /\
  cs_commands w' = cs_commands w.
Proof.
  destruct e as [alive n s i v|xs|alive|alive|n s]; cbn [calm cstep]; try contradiction; intros Hc.
  - unfold c_serve. cbn [cs_del c_receive].
    assert (Hins : forall o (d' : delivery V) u, d_instr o = i -> insert_new_order (cs_del w) o = (d', u) -> 
      match u with Queued cn st l => cn = [] /\ st = None | _ => True end).
    { assert (Hs : forall (s0 : serial V) o s' u, d_instr o = i -> insert_serial_order s0 o = (s', u) ->
        match u with Queued cn st l => cn = [] /\ st = None | _ => True end).
      { intros s0 o s' u Ho. unfold insert_serial_order. destruct (s_delivering s0) as [a|].
        - rewrite Ho. destruct i as [inc|]; [rewrite (Hc inc eq_refl)|]; intros [= <- <-]; auto.
        - destruct (s_queue s0); intros [= <- <-]; exact I. }
      intros o dn u Ho. unfold insert_new_order. destruct (cs_del w) as [s0|ls].
      - destruct (insert_serial_order s0 o) as [s' u'] eqn:E. intros [= <- <-]. apply (Hs _ _ _ _ Ho E).
      - rewrite Ho. destruct i as [inc|].
        + destruct (insert_serial_order _ o) as [s' u'] eqn:E. intros [= <- <-]. apply (Hs _ _ _ _ Ho E).
        + intros [= <- <-]. exact I. }
    destruct (insert_new_order (cs_del w) _) as [d' u] eqn:E. apply Hins in E; [|reflexivity].
    destruct u as [bl r|cn st l|].
    + eexists [_]. cbn. auto 10.
    + destruct E as [-> ->]. exists []. cbn. rewrite !app_nil_r. auto 10.
    + exists []. cbn. rewrite !app_nil_r. auto 10.
  - unfold c_unblock. destruct (cs_unblock w) as [|l us]; [exists []; rewrite !app_nil_r; auto 10|].
    destruct (c_serve_next_effect (length (queued (cs_del (c_set_unblock w us)))) alive l (c_set_unblock w us))
      as (news & H1 & H2 & H3 & H4 & H5 & H6 & _). exists news. auto 10.
Qed.

Lemma calm_run es : forall w, Forall calm es -> exists news, let w' := crun w es in
  cs_queue w' = cs_queue w ++ news /\ cs_start w' = cs_start w ++ map co_task news /\
  cs_given w' = cs_given w /\ cs_lost w' = cs_lost w /\ cs_oob w' = cs_oob w /\
  cs_commands w' = cs_commands w.
Proof.
  induction es as [|e es IH]; intros w H.
  - exists []. cbn. rewrite !app_nil_r. auto 10.
  - inversion H as [|? ? H1 H2]; subst. destruct (calm_effect w e H1) as (n1 & A1 & A2 & A3 & A4 & A5 & A6).
    destruct (IH (cstep w e) H2) as (n2 & B1 & B2 & B3 & B4 & B5 & B6). exists (n1 ++ n2).
    change (crun w (e :: es)) with (crun (cstep w e) es). cbn zeta.
    rewrite B1, B2, B3, B4, B5, B6, A1, A2, A3, A4, A5, A6, map_app, <- !app_assoc. auto 10.
Qed.

Lemma cycle_retires w xs es alive : cs_commands w = [] -> Forall calm es ->
  let w' := crun w (CCycle xs :: es ++ [CApply alive]) in
  let acc := first_answers (length (cs_queue w)) [] xs in
  NoDup (map fst acc) /\
  exists ans news, Forall2 (answers (cs_queue w)) acc ans /\
    cs_given w' = cs_given w ++ filter (fun a => alive (an_source a)) ans /\
    cs_lost w' = cs_lost w ++ filter (fun a => negb (alive (an_source a))) ans /\
    cs_queue w' = unanswered 0 (map fst acc) (cs_queue w) ++ news /\
    cs_start w' = cs_start w ++ map co_task news /\
    cs_oob w' = cs_oob w /\ cs_commands w' = [].
Proof.
  intros Hc He w' acc. pose proof (first_answers_nodup (length (cs_queue w)) xs []) as [Hn Hlt].
  split; [exact Hn|]. destruct (respond_all (cs_queue w) xs []) as (ans & Ha & Hf). cbn [app map] in *.
  fold acc in Hf, Hn, Hlt. pose proof (answers_index _ _ _ Hf) as Hi.
  assert (E' : w' = apply (crun (cycle w xs) es) alive).
  { unfold w', crun. cbn [fold_left cstep]. rewrite fold_left_app. reflexivity. }
  rewrite E'. unfold cycle. rewrite Ha. destruct ans as [|a ans'] eqn:Ean.
  - destruct (calm_run es w He) as (news & B1 & B2 & B3 & B4 & B5 & B6). exists [], news.
    unfold apply. rewrite B6, Hc. cbn [map] in Hi. rewrite <- Hi.
    rewrite unanswered_all by (intros i []). cbn [filter]. rewrite !app_nil_r.
    repeat split; try assumption. congruence.
  - rewrite <- Ean in *. clear Ean a ans'.
    set (w1 := c_set_commands w (cs_commands w ++ [ans])).
    destruct (calm_run es w1 He) as (n1 & B1 & B2 & B3 & B4 & B5 & B6). set (w2 := crun w1 es) in *.
    assert (Ec : cs_commands w2 = [ans]) by (rewrite B6; unfold w1; cbn [cs_commands c_set_commands]; rewrite Hc; reflexivity).
    unfold apply. rewrite Ec.
    destruct (give_all alive ans (c_set_commands w2 [])) as (G1 & G2 & G3 & G4 & G5 & G6 & G7 & G8).
    set (w3 := fold_left (give alive) ans (c_set_commands w2 [])) in *.
    cbn [cs_given cs_lost cs_queue cs_start cs_oob cs_commands c_set_commands] in *.
    destruct (retire_all alive (sort_indices (map an_index ans)) w3 (cs_queue w) n1) as (n2 & R1 & R2 & R3 & R4 & R5 & R6 & R7).
    + rewrite G3, B1. reflexivity.
    + apply sort_sorted. rewrite Hi. assumption.
    + intros i Hin. apply (Permutation_in _ (sort_perm _)) in Hin. rewrite Hi in Hin. apply (Hlt i Hin).
    + exists ans, (n1 ++ n2). rewrite R1, R2, R3, R4, R5, R6, G1, G2, G4, G5, G6, B2, B3, B4, B5.
      rewrite (unanswered_ext 0 (sort_indices (map an_index ans)) (map fst acc)).
      2:{ intros i. rewrite <- Hi. split; apply Permutation_in; [|apply Permutation_sym]; apply sort_perm. }
      cbn [cs_given cs_lost cs_start cs_oob w1 c_set_commands]. rewrite map_app, <- !app_assoc. auto 10.
Qed.

(** What the service sees during the cycle. *)
Lemma view_unanswered base q d : map snd (view_from base q d) = unanswered base (map an_index d) q.
Proof.
  revert base. induction q as [|o q IH]; intros base; cbn [view_from unanswered map]; [reflexivity|].
  rewrite contains_seen. destruct (existsb (Nat.eqb base) (map an_index d)); cbn [map snd]; rewrite IH; reflexivity.
Qed.

Lemma unanswered_length idx : forall base q, NoDup idx -> (forall i, In i idx -> base <= i < base + length q) ->
  length (unanswered base idx q) + length idx = length q.
Proof.
  intros base q. revert base idx. induction q as [|o q IH]; intros base idx Hn Hr; cbn [unanswered length].
  - destruct idx as [|i idx]; [reflexivity|]. specialize (Hr i (or_introl eq_refl)). cbn in Hr. lia.
  - destruct (existsb (Nat.eqb base) idx) eqn:E.
    + apply existsb_exists in E. destruct E as (i & Hi & E). apply Nat.eqb_eq in E. subst i.
      apply in_split in Hi. destruct Hi as (a & b & ->). apply NoDup_remove in Hn. destruct Hn as [Hn Hb].
      rewrite (unanswered_ext (S base) (a ++ base :: b) (base :: a ++ b)).
      2:{ intros i. cbn [In]. rewrite !in_app_iff. cbn. tauto. }
      rewrite unanswered_drop by lia.
      assert (Hr' : forall i, In i (a ++ b) -> S base <= i < S base + length q).
      { intros i Hi. assert (Hi' : In i (a ++ base :: b)) by (apply in_app_or in Hi; apply in_or_app; cbn; tauto).
        specialize (Hr i Hi'). cbn [length] in Hr. assert (i <> base) by (intros ->; contradiction). lia. }
      specialize (IH (S base) (a ++ b) Hn Hr'). rewrite app_length in *. cbn [length]. lia.
    + cbn [length]. rewrite <- (IH (S base) idx); auto. intros i Hi. specialize (Hr i Hi). cbn [length] in Hr.
      assert (i <> base). { intros ->. assert (existsb (Nat.eqb base) idx = true); [|congruence]. apply existsb_exists. exists base. split; [assumption|apply Nat.eqb_refl]. }
      lia.
Qed.

Lemma view_during q (xs : list (nat * R)) : let d := fold_left (respond q) xs [] in
  map snd (view q d) = unanswered 0 (map fst (first_answers (length q) [] xs)) q /\
  view_len q d = length (view q d).
Proof.
  intros d. destruct (respond_all q xs []) as (ans & Ha & Hf). cbn [app map] in *. unfold d. rewrite Ha.
  unfold view. pose proof (answers_index _ _ _ Hf) as Hi. rewrite view_unanswered, Hi. split; [reflexivity|].
  rewrite <- (map_length snd), view_unanswered, Hi. unfold view_len.
  destruct (first_answers_nodup (length q) xs []) as [Hn Hlt].
  pose proof (unanswered_length (map fst (first_answers (length q) [] xs)) 0 q Hn) as H.
  assert (Hl : length ans = length (map fst (first_answers (length q) [] xs))) by (rewrite <- Hi, map_length; reflexivity).
  rewrite Hl. rewrite <- H at 1; [lia|]. intros i Hin. apply Hlt in Hin. lia.
Qed.

(** ** Invariant *)

(** [q]: the requests in progress, [us]: the pending unblocks, [SF]: nothing failed to be
    stopped, [SW]: nothing was swept away while in progress. *)
Definition cblockers q (us : list (option nat)) : list (option (option nat)) := map co_block q ++ map Some us.

Record CC (d : delivery V) q (us : list (option nat)) (nx : nat) (st : list entity) (SF SW : Prop) : Prop := {
  k_known : forall b, In (Some b) (cblockers q us) -> known d b;
  k_lane : forall k o, In o (s_queue (serial_at d k)) -> lane d (d_instr o) = Some k;
  k_idle : forall k, s_delivering (serial_at d k) = None -> s_queue (serial_at d k) = [];
  k_ids : NoDup (map co_task q ++ map d_task (queued d));
  k_lt : forall x, In x (map co_task q ++ map d_task (queued d)) -> x < nx;
  k_new : forall k a, s_delivering (serial_at d k) = Some a ->
      a_task a < nx /\ ~ In (a_task a) (map d_task (queued d));
  k_act : forall k a o, s_delivering (serial_at d k) = Some a -> In o q -> co_task o = a_task a ->
      holds d k (co_block o) = true;
  k_exact : SF -> forall k, hcount d k (cblockers q us)
      <= match s_delivering (serial_at d k) with Some _ => 1 | None => 0 end;
  k_ident : SF -> forall k o, In o q -> holds d k (co_block o) = true ->
      exists a, s_delivering (serial_at d k) = Some a /\ a_task a = co_task o;
  k_busy : SW -> forall k, s_delivering (serial_at d k) <> None -> hcount d k (cblockers q us) >= 1;
  k_order : forall s, d = Serial s -> subsequence (st ++ map d_task (s_queue s)) (seq 0 nx);
  k_free : forall o, In o q -> co_block o = None -> same_kind d (Parallel []) }.

Lemma cc_weaken dl q us nx st SF SW (SF' SW' : Prop) : CC dl q us nx st SF SW -> (SF' -> SF) -> (SW' -> SW) ->
  CC dl q us nx st SF' SW'.
Proof. intros [] ? ?. constructor; eauto. Qed.

Lemma cblockers_cons q b us : Permutation (cblockers q (b :: us)) (Some b :: cblockers q us).
Proof. unfold cblockers. cbn [map]. apply Permutation_sym, Permutation_middle. Qed.

Lemma cblockers_hcount dl k q b us :
  hcount dl k (cblockers q (b :: us)) = (if keqb (blane dl b) k then 1 else 0) + hcount dl k (cblockers q us).
Proof. rewrite (hcount_perm _ _ _ _ (cblockers_cons q b us)), hcount_cons. reflexivity. Qed.

Lemma cblockers_start q o us : Permutation (cblockers (q ++ [o]) us) (co_block o :: cblockers q us).
Proof.
  unfold cblockers. rewrite map_app, <- app_assoc. cbn [map app].
  apply Permutation_sym, Permutation_middle.
Qed.

Lemma cblockers_take a o b us : Permutation (cblockers (a ++ o :: b) us) (co_block o :: cblockers (a ++ b) us).
Proof.
  unfold cblockers. rewrite !map_app, <- !app_assoc. cbn [map app].
  apply Permutation_sym, Permutation_middle.
Qed.

Lemma serial_lane dl k s : valid dl k = true -> upd dl k s = Serial s -> dl = Serial (serial_at dl k).
Proof. destruct dl, k; cbn; congruence. Qed.

Lemma cc_pop_none dl q b us nx st SF SW : CC dl q (b :: us) nx st SF SW ->
  s_queue (serial_at dl (blane dl b)) = [] ->
  CC (upd dl (blane dl b) serial_new) q us nx st SF SW.
Proof.
  intros I Hq. remember (blane dl b) as k eqn:Ek.
  assert (Hk : known dl b).
  { apply (k_known _ _ _ _ _ _ _ I). apply (Permutation_in _ (Permutation_sym (cblockers_cons q b us))). left. reflexivity. }
  pose proof (known_valid _ _ Hk) as Hv. rewrite <- Ek in Hv.
  pose proof (upd_kind dl k serial_new) as Hkd.
  pose proof (fun k => cblockers_hcount dl k q b us) as How. rewrite <- Ek in How.
  destruct (queued_upd dl k serial_new Hv) as (rest & Hq1 & Hq2). rewrite Hq in Hq1.
  cbn [s_queue serial_new app] in *.
  assert (Hqq : Permutation (queued dl) (queued (upd dl k serial_new))) by (rewrite Hq1, Hq2; reflexivity).
  destruct I as [I1 I2 I3 I4 I5 I6 I7 I8 I9 I10 I11 I12].
  constructor.
  - intros b' Hb'. apply known_upd, I1, (Permutation_in _ (Permutation_sym (cblockers_cons q b us))). right. assumption.
  - intros k' o. rewrite (kind_lane dl) by assumption. destruct (keqb_spec k' k) as [->|E].
    + rewrite serial_at_upd_eq by assumption. intros [].
    + rewrite serial_at_upd_neq by assumption. apply I2.
  - intros k'. destruct (keqb_spec k' k) as [->|E].
    + rewrite serial_at_upd_eq by assumption. reflexivity.
    + rewrite serial_at_upd_neq by assumption. apply I3.
  - rewrite <- (Permutation_map d_task Hqq). assumption.
  - intros x. rewrite <- (Permutation_map d_task Hqq). apply I5.
  - intros k' a. rewrite <- (Permutation_map d_task Hqq). destruct (keqb_spec k' k) as [->|E].
    + rewrite serial_at_upd_eq by assumption. discriminate.
    + rewrite serial_at_upd_neq by assumption. apply I6.
  - intros k' a o. rewrite (kind_holds dl) by assumption. destruct (keqb_spec k' k) as [->|E].
    + rewrite serial_at_upd_eq by assumption. discriminate.
    + rewrite serial_at_upd_neq by assumption. apply I7.
  - intros Hs k'. rewrite (kind_hcount dl) by assumption. specialize (I8 Hs k'). rewrite How in I8.
    destruct (keqb_spec k' k) as [->|E].
    + rewrite serial_at_upd_eq by assumption. rewrite keqb_refl in I8. cbn. destruct (s_delivering _); lia.
    + rewrite serial_at_upd_neq by assumption. lia.
  - intros Hs k' o Ho. rewrite (kind_holds dl) by assumption. intros Hh. destruct (keqb_spec k' k) as [->|E].
    + exfalso. specialize (I8 Hs k). rewrite How, keqb_refl in I8.
      assert (hcount dl k (cblockers q us) >= 1).
      { apply (hcount_in _ _ (co_block o)); [|assumption]. apply in_or_app. left. apply in_map. assumption. }
      destruct (s_delivering _); lia.
    + rewrite serial_at_upd_neq by assumption. apply I9; assumption.
  - intros Hs k'. rewrite (kind_hcount dl) by assumption. destruct (keqb_spec k' k) as [->|E].
    + rewrite serial_at_upd_eq by assumption. cbn. congruence.
    + rewrite serial_at_upd_neq by assumption. intros Hd. specialize (I10 Hs k' Hd). rewrite How in I10.
      destruct (keqb_spec k k'); [congruence|]. lia.
  - intros s Hs. destruct dl as [s0|ls]; [|destruct k; discriminate]. cbn in Ek. subst k. cbn in Hs. injection Hs as <-.
    specialize (I11 s0 eq_refl). cbn [serial_at] in Hq. rewrite Hq in I11. exact I11.
  - intros y Hy Ey. specialize (I12 y Hy Ey). clear -I12. destruct dl, k; cbn in *; auto.
Qed.

Lemma cc_pop dl q b us nx st SF SW o r : CC dl q (b :: us) nx st SF SW ->
  s_queue (serial_at dl (blane dl b)) = o :: r ->
  let dl' := upd dl (blane dl b) (mk_serial (Some (active_of o)) r) in
  known dl b /\ valid dl (blane dl b) = true /\ same_kind dl dl' /\
  Permutation (queued dl) (o :: queued dl') /\ expected dl (d_instr o) = Some (option_map i_label (d_instr o)) /\
  lane dl (d_instr o) = Some (blane dl b).
Proof.
  intros I Hq dl'. remember (blane dl b) as k eqn:Ek.
  assert (Hk : known dl b).
  { apply (k_known _ _ _ _ _ _ _ I). apply (Permutation_in _ (Permutation_sym (cblockers_cons q b us))). left. reflexivity. }
  pose proof (known_valid _ _ Hk) as Hv. rewrite <- Ek in Hv.
  destruct (queued_upd dl k (mk_serial (Some (active_of o)) r) Hv) as (rest & Hq1 & Hq2). rewrite Hq in Hq1.
  cbn [s_queue] in Hq2.
  assert (Hl : lane dl (d_instr o) = Some k) by (apply (k_lane _ _ _ _ _ _ _ I); rewrite Hq; left; reflexivity).
  split; [assumption|]. split; [assumption|]. split; [apply upd_kind|]. split.
  - unfold dl'. rewrite Hq1, Hq2. reflexivity.
  - split; [|assumption]. symmetry. apply (expected_immediate _ _ k). assumption.
Qed.

(** The facts about the queues after a request has been popped. *)
Lemma cc_popped dl q b us nx st SF SW o r : CC dl q (b :: us) nx st SF SW ->
  s_queue (serial_at dl (blane dl b)) = o :: r ->
  let dl' := upd dl (blane dl b) (mk_serial (Some (active_of o)) r) in
  (forall k o, In o (s_queue (serial_at dl' k)) -> lane dl' (d_instr o) = Some k) /\
  (forall k, s_delivering (serial_at dl' k) = None -> s_queue (serial_at dl' k) = []) /\
  NoDup (map co_task q ++ d_task o :: map d_task (queued dl')) /\
  (forall x, In x (map co_task q ++ d_task o :: map d_task (queued dl')) -> x < nx) /\
  (forall k a, s_delivering (serial_at dl' k) = Some a ->
      a_task a < nx /\ ~ In (a_task a) (map d_task (queued dl'))).
Proof.
  intros I Hq dl'. destruct (cc_pop _ _ _ _ _ _ _ _ _ _ I Hq) as (Hk & Hv & Hkd & Hqq & _ & Hl). fold dl' in Hqq, Hkd.
  remember (blane dl b) as k eqn:Ek.
  destruct I as [I1 I2 I3 I4 I5 I6 I7 I8 I9 I10 I11 I12].
  rewrite (Permutation_map d_task Hqq) in I4. cbn [map] in I4.
  assert (Hin : forall x, In x (map co_task q ++ d_task o :: map d_task (queued dl')) ->
                          In x (map co_task q ++ map d_task (queued dl))).
  { intros x Hx. apply in_app_or in Hx. apply in_or_app. destruct Hx as [Hx|Hx]; [left; assumption|right].
    apply (Permutation_in _ (Permutation_sym (Permutation_map d_task Hqq))). exact Hx. }
  split; [|split; [|split; [|split]]].
  - intros k' x. rewrite (kind_lane dl) by assumption. unfold dl'. destruct (keqb_spec k' k) as [->|E].
    + rewrite serial_at_upd_eq by assumption. cbn [s_queue]. intros Hx. apply I2. rewrite Hq. right. assumption.
    + rewrite serial_at_upd_neq by assumption. apply I2.
  - intros k'. unfold dl'. destruct (keqb_spec k' k) as [->|E].
    + rewrite serial_at_upd_eq by assumption. discriminate.
    + rewrite serial_at_upd_neq by assumption. apply I3.
  - assumption.
  - intros x Hx. apply I5. auto.
  - intros k' a. unfold dl' at 1. destruct (keqb_spec k' k) as [->|E].
    + rewrite serial_at_upd_eq by assumption. cbn [s_delivering]. intros [= <-]. cbn [active_of a_task]. split.
      * apply I5, Hin, in_or_app. right. left. reflexivity.
      * intros Hx. apply nodup_app in I4. destruct I4 as (_ & I4 & _). inversion I4; subst. contradiction.
    + rewrite serial_at_upd_neq by assumption. intros Ha. destruct (I6 k' a Ha) as [H1 H2]. split; [assumption|].
      intros Hx. apply H2. apply (Permutation_in _ (Permutation_sym (Permutation_map d_task Hqq))). right. assumption.
Qed.

Lemma cc_pop_drop dl q b us nx st SF SW o r : CC dl q (b :: us) nx st SF SW ->
  s_queue (serial_at dl (blane dl b)) = o :: r ->
  CC (upd dl (blane dl b) (mk_serial (Some (active_of o)) r)) q (b :: us) nx st SF SW.
Proof.
  intros I Hq. destruct (cc_pop _ _ _ _ _ _ _ _ _ _ I Hq) as (Hk & Hv & Hkd & Hqq & He & Hl).
  destruct (cc_popped _ _ _ _ _ _ _ _ _ _ I Hq) as (H2 & H3 & H4 & H5 & H6).
  remember (blane dl b) as k eqn:Ek. set (sr := mk_serial (Some (active_of o)) r) in *.
  pose proof (fun k => cblockers_hcount dl k q b us) as How. rewrite <- Ek in How.
  destruct I as [I1 I2 I3 I4 I5 I6 I7 I8 I9 I10 I11 I12].
  constructor; auto.
  - intros b' Hb'. apply known_upd, I1. assumption.
  - apply NoDup_remove_1 in H4. assumption.
  - intros x Hx. apply H5. apply in_app_or in Hx. apply in_or_app. cbn. tauto.
  - intros k' a x. rewrite (kind_holds dl) by assumption. destruct (keqb_spec k' k) as [->|E].
    + rewrite serial_at_upd_eq by assumption. cbn [sr s_delivering]. intros [= <-] Hx Ex. exfalso.
      apply NoDup_remove_2 in H4. apply H4, in_or_app. left. cbn in Ex. rewrite <- Ex. apply in_map. assumption.
    + rewrite serial_at_upd_neq by assumption. apply I7.
  - intros Hs k'. rewrite (kind_hcount dl) by assumption. specialize (I8 Hs k').
    destruct (keqb_spec k' k) as [->|E].
    + rewrite serial_at_upd_eq by assumption. cbn. destruct (s_delivering _); lia.
    + rewrite serial_at_upd_neq by assumption. assumption.
  - intros Hs k' x Hx. rewrite (kind_holds dl) by assumption. intros Hh. destruct (keqb_spec k' k) as [->|E].
    + exfalso. specialize (I8 Hs k). rewrite How, keqb_refl in I8.
      assert (hcount dl k (cblockers q us) >= 1).
      { apply (hcount_in _ _ (co_block x)); [|assumption]. apply in_or_app. left. apply in_map. assumption. }
      destruct (s_delivering _); lia.
    + rewrite serial_at_upd_neq by assumption. apply I9; assumption.
  - intros Hs k'. rewrite (kind_hcount dl) by assumption. destruct (keqb_spec k' k) as [->|E].
    + intros _. rewrite How, keqb_refl. lia.
    + rewrite serial_at_upd_neq by assumption. apply I10; assumption.
  - intros s Hs. destruct dl as [s0|ls]; [|destruct k; discriminate]. cbn in Ek. subst k. cbn in Hs. injection Hs as <-.
    specialize (I11 s0 eq_refl). cbn [serial_at] in Hq. rewrite Hq in I11. cbn [sr s_queue].
    refine (subseq_trans _ _ _ _ I11). apply subseq_app; [apply subseq_refl|]. cbn. apply subseq_skip, subseq_refl.
  - intros y Hy Ey. specialize (I12 y Hy Ey). clear -I12. destruct dl, k; cbn in *; auto.
Qed.

Lemma cc_pop_start dl q b us nx st SF SW o r (x : corder V) : CC dl q (b :: us) nx st SF SW ->
  s_queue (serial_at dl (blane dl b)) = o :: r ->
  co_task x = d_task o -> co_block x = Some (option_map i_label (d_instr o)) ->
  CC (upd dl (blane dl b) (mk_serial (Some (active_of o)) r)) (q ++ [x]) us nx (st ++ [d_task o]) SF SW.
Proof.
  intros I Hq Ht Hb. destruct (cc_pop _ _ _ _ _ _ _ _ _ _ I Hq) as (Hk & Hv & Hkd & Hqq & He & Hl).
  destruct (cc_popped _ _ _ _ _ _ _ _ _ _ I Hq) as (H2 & H3 & H4 & H5 & H6).
  remember (blane dl b) as k eqn:Ek. set (sr := mk_serial (Some (active_of o)) r) in *.
  pose proof (fun k => cblockers_hcount dl k q b us) as How. rewrite <- Ek in How.
  rewrite <- He in Hb.
  assert (Hx : forall k', holds dl k' (co_block x) = keqb k k').
  { intros k'. rewrite Hb. apply eq_true_iff_eq. rewrite expected_holds, Hl.
    destruct (keqb_spec k k'); split; congruence. }
  assert (Hw : forall k', hcount dl k' (cblockers (q ++ [x]) us) = (if keqb k k' then 1 else 0) + hcount dl k' (cblockers q us)).
  { intros k'. rewrite (hcount_perm _ _ _ _ (cblockers_start q x us)), hcount_cons, Hx. reflexivity. }
  destruct I as [I1 I2 I3 I4 I5 I6 I7 I8 I9 I10 I11 I12].
  constructor; auto.
  - intros b' Hb'. apply (Permutation_in _ (cblockers_start q x us)) in Hb'. destruct Hb' as [Hb'|Hb'].
    + apply (known_new _ (d_instr o)); [assumption|]. congruence.
    + apply known_upd, I1, (Permutation_in _ (Permutation_sym (cblockers_cons q b us))). right. assumption.
  - rewrite map_app, <- app_assoc. cbn [map app]. rewrite Ht. assumption.
  - intros y. rewrite map_app, <- app_assoc. cbn [map app]. rewrite Ht. apply H5.
  - intros k' a y. rewrite (kind_holds dl) by assumption. intros Ha Hy Ey. apply in_app_or in Hy.
    destruct (keqb_spec k' k) as [->|E].
    + rewrite serial_at_upd_eq in Ha by assumption. cbn [sr s_delivering] in Ha. injection Ha as <-. cbn in Ey.
      destruct Hy as [Hy|[<-|[]]]; [|rewrite Hx; apply keqb_refl]. exfalso.
      apply NoDup_remove_2 in H4. apply H4, in_or_app. left. rewrite <- Ey. apply in_map. assumption.
    + rewrite serial_at_upd_neq in Ha by assumption. destruct Hy as [Hy|[<-|[]]]; [apply (I7 k' a); assumption|].
      exfalso. destruct (I6 k' a Ha) as [_ Hn]. apply Hn. rewrite <- Ey, Ht.
      apply (Permutation_in _ (Permutation_sym (Permutation_map d_task Hqq))). left. reflexivity.
  - intros Hs k'. rewrite (kind_hcount dl), Hw by assumption. specialize (I8 Hs k'). rewrite How in I8.
    destruct (keqb_spec k' k) as [->|E].
    + rewrite serial_at_upd_eq by assumption. cbn. destruct (s_delivering _); lia.
    + rewrite serial_at_upd_neq by assumption. assumption.
  - intros Hs k' y Hy. rewrite (kind_holds dl) by assumption. intros Hh. apply in_app_or in Hy.
    destruct (keqb_spec k' k) as [->|E].
    + rewrite serial_at_upd_eq by assumption. exists (active_of o). split; [reflexivity|]. cbn.
      destruct Hy as [Hy|[<-|[]]]; [|congruence].
      exfalso. specialize (I8 Hs k). rewrite How, keqb_refl in I8.
      assert (hcount dl k (cblockers q us) >= 1).
      { apply (hcount_in _ _ (co_block y)); [|assumption]. apply in_or_app. left. apply in_map. assumption. }
      destruct (s_delivering _); lia.
    + rewrite serial_at_upd_neq by assumption. destruct Hy as [Hy|[<-|[]]]; [apply I9; assumption|].
      rewrite Hx in Hh. destruct (keqb_spec k k'); congruence.
  - intros Hs k'. rewrite (kind_hcount dl), Hw by assumption. destruct (keqb_spec k' k) as [->|E].
    + intros _. rewrite keqb_refl. lia.
    + rewrite serial_at_upd_neq by assumption. intros Hd. specialize (I10 Hs k' Hd). rewrite How in I10. assumption.
  - intros s Hs. destruct dl as [s0|ls]; [|destruct k; discriminate]. cbn in Ek. subst k. cbn in Hs. injection Hs as <-.
    specialize (I11 s0 eq_refl). cbn [serial_at] in Hq. rewrite Hq in I11. cbn [sr s_queue]. rewrite <- app_assoc. exact I11.
  - intros y Hy Ey. apply in_app_or in Hy. destruct Hy as [Hy|[<-|[]]]; [|congruence].
    specialize (I12 y Hy Ey). clear -I12. destruct dl, k; cbn in *; auto.
Qed.

Lemma cc_take dl a o b l us nx st SF SW : CC dl (a ++ o :: b) us nx st SF SW -> co_block o = Some l ->
  CC dl (a ++ b) (l :: us) nx st SF SW.
Proof.
  intros [I1 I2 I3 I4 I5 I6 I7 I8 I9 I10 I11 I12] Ho.
  assert (Hp : Permutation (cblockers (a ++ o :: b) us) (cblockers (a ++ b) (l :: us))).
  { rewrite cblockers_take, cblockers_cons, Ho. apply Permutation_refl. }
  assert (Hin : forall x, In x (a ++ b) -> In x (a ++ o :: b)) by (intros x Hx; apply in_app_or in Hx; apply in_or_app; cbn; tauto).
  rewrite map_app, <- app_assoc in I4. cbn [map app] in I4. rewrite map_app in I5.
  constructor; auto.
  - intros b' Hb'. apply I1, (Permutation_in _ (Permutation_sym Hp)). assumption.
  - rewrite map_app, <- app_assoc. apply NoDup_remove_1 in I4. assumption.
  - intros x Hx. apply I5. rewrite map_app in Hx. rewrite !in_app_iff in *. cbn. tauto.
  - intros k c x Hc Hx. apply (I7 k c); auto.
  - intros Hs k. rewrite <- (hcount_perm _ _ _ _ Hp). auto.
  - intros Hs k Hd. rewrite <- (hcount_perm _ _ _ _ Hp). auto.
  - intros y Hy. apply I12. auto.
Qed.

Lemma cc_take_free dl a o b us nx st SF SW : CC dl (a ++ o :: b) us nx st SF SW -> co_block o = None ->
  CC dl (a ++ b) us nx st SF SW.
Proof.
  intros [I1 I2 I3 I4 I5 I6 I7 I8 I9 I10 I11 I12] Ho.
  assert (Hp : forall k, hcount dl k (cblockers (a ++ o :: b) us) = hcount dl k (cblockers (a ++ b) us)).
  { intros k. rewrite (hcount_perm _ _ _ _ (cblockers_take a o b us)), Ho. reflexivity. }
  assert (Hin : forall x, In x (a ++ b) -> In x (a ++ o :: b)) by (intros x Hx; apply in_app_or in Hx; apply in_or_app; cbn; tauto).
  rewrite map_app, <- app_assoc in I4. cbn [map app] in I4. rewrite map_app in I5.
  constructor; auto.
  - intros b' Hb'. apply I1, (Permutation_in _ (Permutation_sym (cblockers_take a o b us))). right. assumption.
  - rewrite map_app, <- app_assoc. apply NoDup_remove_1 in I4. assumption.
  - intros x Hx. apply I5. rewrite map_app in Hx. rewrite !in_app_iff in *. cbn. tauto.
  - intros k c x Hc Hx. apply (I7 k c); auto.
  - intros Hs k. rewrite <- Hp. auto.
  - intros Hs k Hd. rewrite <- Hp. auto.
  - intros y Hy. apply I12. auto.
Qed.

Lemma cc_immediate dl q us nx st SF SW i k (o : order V) (x : corder V) : CC dl q us nx st SF SW ->
  lane dl i = Some k -> s_delivering (serial_at dl k) = None ->
  d_task o = nx -> co_task x = nx -> co_block x = Some (option_map i_label i) ->
  CC (upd dl k (mk_serial (Some (active_of o)) [])) (q ++ [x]) us (S nx) (st ++ [nx]) SF SW.
Proof.
  intros I Hl Hd Ho Ht Hb. pose proof (k_idle _ _ _ _ _ _ _ I k Hd) as Hq. pose proof (lane_valid _ _ _ Hl) as Hv.
  set (sr := mk_serial (Some (active_of o)) []) in *. pose proof (upd_kind dl k sr) as Hkd.
  rewrite (expected_immediate _ _ _ Hl) in Hb.
  assert (Hx : forall k', holds dl k' (co_block x) = keqb k k').
  { intros k'. rewrite Hb. apply eq_true_iff_eq. rewrite expected_holds, Hl.
    destruct (keqb_spec k k'); split; congruence. }
  assert (Hw : forall k', hcount dl k' (cblockers (q ++ [x]) us) = (if keqb k k' then 1 else 0) + hcount dl k' (cblockers q us)).
  { intros k'. rewrite (hcount_perm _ _ _ _ (cblockers_start q x us)), hcount_cons, Hx. reflexivity. }
  destruct (queued_upd dl k sr Hv) as (rest & Hq1 & Hq2). rewrite Hq in Hq1. cbn [s_queue sr app] in *.
  assert (Hqq : Permutation (queued dl) (queued (upd dl k sr))) by (rewrite Hq1, Hq2; reflexivity).
  destruct I as [I1 I2 I3 I4 I5 I6 I7 I8 I9 I10 I11 I12].
  constructor.
  - intros b' Hb'. apply (Permutation_in _ (cblockers_start q x us)) in Hb'. destruct Hb' as [Hb'|Hb'].
    + apply (known_new _ i); [assumption|]. congruence.
    + apply known_upd, I1. assumption.
  - intros k' y. rewrite (kind_lane dl) by assumption. destruct (keqb_spec k' k) as [->|E].
    + rewrite serial_at_upd_eq by assumption. intros [].
    + rewrite serial_at_upd_neq by assumption. apply I2.
  - intros k'. destruct (keqb_spec k' k) as [->|E].
    + rewrite serial_at_upd_eq by assumption. reflexivity.
    + rewrite serial_at_upd_neq by assumption. apply I3.
  - rewrite <- (Permutation_map d_task Hqq). rewrite map_app, <- app_assoc. cbn [map app]. rewrite Ht.
    eapply Permutation_NoDup; [apply Permutation_middle|]. constructor; [|assumption]. intros Hi. apply I5 in Hi. lia.
  - intros y. rewrite <- (Permutation_map d_task Hqq). rewrite map_app, <- app_assoc. cbn [map app]. rewrite Ht. intros Hy.
    apply in_app_or in Hy. destruct Hy as [Hy|[<-|Hy]]; [|lia|];
      apply Nat.lt_lt_succ_r, I5, in_or_app; [left|right]; assumption.
  - intros k' a. rewrite <- (Permutation_map d_task Hqq). destruct (keqb_spec k' k) as [->|E].
    + rewrite serial_at_upd_eq by assumption. cbn [sr s_delivering]. intros [= <-]. cbn. rewrite Ho. split; [lia|].
      intros Hi. assert (nx < nx); [|lia]. apply I5, in_or_app. right. assumption.
    + rewrite serial_at_upd_neq by assumption. intros Ha. destruct (I6 k' a Ha). split; [lia|assumption].
  - intros k' a y. rewrite (kind_holds dl) by assumption. intros Ha Hy Ey. apply in_app_or in Hy.
    destruct (keqb_spec k' k) as [->|E].
    + rewrite serial_at_upd_eq in Ha by assumption. cbn [sr s_delivering] in Ha. injection Ha as <-. cbn in Ey.
      destruct Hy as [Hy|[<-|[]]]; [|rewrite Hx; apply keqb_refl]. exfalso.
      assert (co_task y < nx); [|lia]. apply I5, in_or_app. left. apply in_map. assumption.
    + rewrite serial_at_upd_neq in Ha by assumption. destruct Hy as [Hy|[<-|[]]]; [apply (I7 k' a); assumption|].
      exfalso. destruct (I6 k' a Ha) as [Hn _]. lia.
  - intros Hs k'. rewrite (kind_hcount dl), Hw by assumption. specialize (I8 Hs k').
    destruct (keqb_spec k' k) as [->|E].
    + rewrite serial_at_upd_eq by assumption. rewrite Hd in I8. rewrite keqb_refl. cbn. lia.
    + rewrite serial_at_upd_neq by assumption. destruct (keqb_spec k k'); [congruence|]. assumption.
  - intros Hs k' y Hy. rewrite (kind_holds dl) by assumption. intros Hh. apply in_app_or in Hy.
    destruct (keqb_spec k' k) as [->|E].
    + rewrite serial_at_upd_eq by assumption. exists (active_of o). split; [reflexivity|]. cbn.
      destruct Hy as [Hy|[<-|[]]]; [|congruence].
      destruct (I9 Hs k y Hy Hh) as (a & Ha & _). congruence.
    + rewrite serial_at_upd_neq by assumption. destruct Hy as [Hy|[<-|[]]]; [apply I9; assumption|].
      rewrite Hx in Hh. destruct (keqb_spec k k'); congruence.
  - intros Hs k'. rewrite (kind_hcount dl), Hw by assumption. destruct (keqb_spec k' k) as [->|E].
    + intros _. rewrite keqb_refl. lia.
    + rewrite serial_at_upd_neq by assumption. intros Hd'. specialize (I10 Hs k' Hd'). lia.
  - intros s Hs. destruct dl as [s0|ls]; cbn [lane] in Hl; [|destruct k; discriminate]. injection Hl as <-. cbn in Hs. injection Hs as <-.
    specialize (I11 s0 eq_refl). cbn [serial_at] in Hq. rewrite Hq in I11. cbn [sr s_queue map]. rewrite app_nil_r.
    cbn [map] in I11. rewrite app_nil_r in I11. rewrite <- seq_snoc. apply subseq_app; [assumption|apply subseq_refl].
  - intros y Hy Ey. apply in_app_or in Hy. destruct Hy as [Hy|[<-|[]]].
    + specialize (I12 y Hy Ey). clear -I12. destruct dl, k; cbn in *; auto.
    + rewrite Ey in Hb. rewrite <- (expected_immediate _ _ _ Hl) in Hb. discriminate.
Qed.

Lemma cc_unlabelled dl q us nx st SF SW i (x : corder V) : CC dl q us nx st SF SW ->
  lane dl i = None -> co_task x = nx -> co_block x = None ->
  CC dl (q ++ [x]) us (S nx) (st ++ [nx]) SF SW.
Proof.
  intros [I1 I2 I3 I4 I5 I6 I7 I8 I9 I10 I11 I12] Hl Ht Hb.
  assert (Hw : forall k', hcount dl k' (cblockers (q ++ [x]) us) = hcount dl k' (cblockers q us)).
  { intros k'. rewrite (hcount_perm _ _ _ _ (cblockers_start q x us)), hcount_cons, Hb. reflexivity. }
  constructor; auto.
  - intros b' Hb'. apply (Permutation_in _ (cblockers_start q x us)) in Hb'. destruct Hb' as [Hb'|Hb'].
    + congruence.
    + apply I1. assumption.
  - rewrite map_app, <- app_assoc. cbn [map app]. rewrite Ht.
    eapply Permutation_NoDup; [apply Permutation_middle|]. constructor; [|assumption]. intros Hi. apply I5 in Hi. lia.
  - intros y. rewrite map_app, <- app_assoc. cbn [map app]. rewrite Ht. intros Hy.
    apply in_app_or in Hy. destruct Hy as [Hy|[<-|Hy]]; [|lia|];
      apply Nat.lt_lt_succ_r, I5, in_or_app; [left|right]; assumption.
  - intros k' a Ha. destruct (I6 k' a Ha). split; [lia|assumption].
  - intros k' a y Ha Hy Ey. apply in_app_or in Hy. destruct Hy as [Hy|[<-|[]]]; [apply (I7 k' a); assumption|].
    exfalso. destruct (I6 k' a Ha) as [Hn _]. lia.
  - intros Hs k'. rewrite Hw. auto.
  - intros Hs k' y Hy Hh. apply in_app_or in Hy. destruct Hy as [Hy|[<-|[]]]; [apply I9; assumption|].
    rewrite Hb in Hh. discriminate.
  - intros Hs k'. rewrite Hw. auto.
  - intros s ->. discriminate.
  - intros y _ _. destruct dl; [discriminate|exact I].
Qed.

Lemma cc_queue dl q us nx st SF SW i k a keep drop (o : order V) : CC dl q us nx st SF SW ->
  lane dl i = Some k -> s_delivering (serial_at dl k) = Some a ->
  Permutation (s_queue (serial_at dl k)) (drop ++ keep) -> subsequence keep (s_queue (serial_at dl k)) ->
  d_task o = nx -> d_instr o = i ->
  CC (upd dl k (mk_serial (Some a) (keep ++ [o]))) q us (S nx) st SF SW.
Proof.
  intros I Hl Hd Hp Hsub Ho Hoi. pose proof (lane_valid _ _ _ Hl) as Hv.
  set (sr := mk_serial (Some a) _). pose proof (upd_kind dl k sr) as Hkd.
  destruct (queued_upd dl k sr Hv) as (rest & Hq1 & Hq2). rewrite Hp in Hq1. cbn [s_queue sr] in *.
  destruct I as [I1 I2 I3 I4 I5 I6 I7 I8 I9 I10 I11 I12].
  assert (Hdel : forall k', s_delivering (serial_at (upd dl k sr) k') = s_delivering (serial_at dl k')).
  { intros k'. destruct (keqb_spec k' k) as [->|E].
    + rewrite serial_at_upd_eq by assumption. rewrite Hd. reflexivity.
    + rewrite serial_at_upd_neq by assumption. reflexivity. }
  assert (Hin : forall x, In x (map d_task (queued (upd dl k sr))) -> x = nx \/ In x (map d_task (queued dl))).
  { intros x Hx. apply (Permutation_in _ (Permutation_map d_task Hq2)) in Hx. rewrite !map_app in Hx. cbn [map] in Hx.
    rewrite !in_app_iff in Hx. cbn in Hx. rewrite Ho in Hx.
    destruct Hx as [[Hx|[Hx|[]]]|Hx]; [right|left; congruence|right];
      apply (Permutation_in _ (Permutation_sym (Permutation_map d_task Hq1))); rewrite !map_app, !in_app_iff; tauto. }
  assert (Hnd : NoDup (map co_task q ++ map d_task (queued (upd dl k sr)))).
  { rewrite (Permutation_map d_task Hq1) in I4. rewrite (Permutation_map d_task Hq2).
    rewrite !map_app in *. cbn [map]. rewrite Ho.
    assert (Hp' : Permutation (map co_task q ++ (map d_task keep ++ [nx]) ++ map d_task rest)
                              (nx :: map co_task q ++ map d_task keep ++ map d_task rest)).
    { change (nx :: map co_task q ++ map d_task keep ++ map d_task rest)
        with ([nx] ++ map co_task q ++ map d_task keep ++ map d_task rest). perm. }
    rewrite Hp'. constructor.
    - intros Hi. assert (nx < nx); [|lia]. apply I5. rewrite (Permutation_map d_task Hq1), !map_app.
      rewrite !in_app_iff in *. tauto.
    - assert (Hp2 : Permutation (map co_task q ++ (map d_task drop ++ map d_task keep) ++ map d_task rest)
                (map d_task drop ++ map co_task q ++ map d_task keep ++ map d_task rest)) by perm.
      rewrite Hp2 in I4. apply nodup_app in I4. tauto. }
  constructor; auto.
  - intros b' Hb'. apply known_upd, I1. assumption.
  - intros k' y. rewrite (kind_lane dl) by assumption. destruct (keqb_spec k' k) as [->|E].
    + rewrite serial_at_upd_eq by assumption. cbn [s_queue sr]. intros Hi. apply in_app_or in Hi.
      destruct Hi as [Hi|[<-|[]]]; [|congruence]. apply I2.
      apply (Permutation_in _ (Permutation_sym Hp)). apply in_or_app. right. assumption.
    + rewrite serial_at_upd_neq by assumption. apply I2.
  - intros k'. rewrite Hdel. destruct (keqb_spec k' k) as [->|E].
    + rewrite Hd. discriminate.
    + rewrite serial_at_upd_neq by assumption. apply I3.
  - intros x Hx. apply in_app_or in Hx. destruct Hx as [Hx|Hx].
    + apply Nat.lt_lt_succ_r, I5, in_or_app. left. assumption.
    + apply Hin in Hx. destruct Hx as [->|Hx]; [lia|]. apply Nat.lt_lt_succ_r, I5, in_or_app. right. assumption.
  - intros k' c. rewrite Hdel. intros Hc. destruct (I6 k' c Hc) as [H1 H2]. split; [lia|].
    intros Hx. apply Hin in Hx. destruct Hx as [Hx|Hx]; [lia|contradiction].
  - intros k' c y. rewrite Hdel, (kind_holds dl) by assumption. apply I7.
  - intros Hs k'. rewrite Hdel, (kind_hcount dl) by assumption. auto.
  - intros Hs k' y. rewrite Hdel, (kind_holds dl) by assumption. apply I9. assumption.
  - intros Hs k'. rewrite Hdel, (kind_hcount dl) by assumption. auto.
  - intros s Hs. destruct dl as [s0|ls]; cbn [lane] in Hl; [|destruct k; discriminate].
    injection Hl as <-. cbn in Hs. injection Hs as <-. cbn [s_queue sr]. rewrite map_app, app_assoc. cbn [map].
    rewrite Ho, <- seq_snoc. apply subseq_app; [|apply subseq_refl].
    specialize (I11 s0 eq_refl). cbn [serial_at] in *. refine (subseq_trans _ _ _ _ I11).
    apply subseq_app; [apply subseq_refl|]. apply subseq_map. assumption.
  - intros y Hy Ey. specialize (I12 y Hy Ey). clear -I12. destruct dl, k; cbn in *; auto.
Qed.

Lemma cc_more dl q us us' nx st SF SW l : CC dl q us nx st SF SW -> known dl l ->
  (forall x, In x us' -> x = l \/ In x us) -> CC dl q us' nx st False False.
Proof.
  intros [I1 I2 I3 I4 I5 I6 I7 I8 I9 I10 I11 I12] Hl Hu. constructor; auto; try contradiction.
  intros b Hb. apply in_app_or in Hb. destruct Hb as [Hb|Hb].
  - apply I1, in_or_app. left. assumption.
  - apply in_map_iff in Hb. destruct Hb as (b' & [= ->] & Hb). apply Hu in Hb. destruct Hb as [->|Hb]; [assumption|].
    apply I1, in_or_app. right. apply in_map. assumption.
Qed.

Lemma cc_sweep dl q us nx st SF SW ss : CC dl q us nx st SF SW ->
  CC (delivery_cleanup dl ss) (filter (fun o => negb (Nat.eqb (co_session o) ss)) q) us nx st SF
     (SW /\ filter (fun o => Nat.eqb (co_session o) ss) q = []).
Proof.
  intros [I1 I2 I3 I4 I5 I6 I7 I8 I9 I10 I11 I12]. pose proof (cleanup_kind dl ss) as Hkd.
  set (f := fun o : corder V => negb (Nat.eqb (co_session o) ss)).
  assert (Hq : forall o, In o (filter f q) -> In o q) by (intros o Ho; apply filter_In in Ho; tauto).
  assert (Hd : forall x, In x (map d_task (queued (delivery_cleanup dl ss))) -> In x (map d_task (queued dl))).
  { intros x. rewrite cleanup_queued. intros Hx. apply in_map_iff in Hx. destruct Hx as (o & <- & Ho).
    apply in_map. apply filter_In in Ho. tauto. }
  assert (Hle : forall k, hcount dl k (cblockers (filter f q) us) <= hcount dl k (cblockers q us)).
  { intros k. unfold cblockers. rewrite !hcount_app. apply Nat.add_le_mono_r.
    clear -f. induction q as [|o q IH]; cbn [filter map]; [apply le_n|].
    rewrite hcount_cons. destruct (f o); cbn [map]; rewrite ?hcount_cons; lia. }
  constructor.
  - intros b Hb. apply cleanup_known, I1. apply in_app_or in Hb. apply in_or_app. destruct Hb as [Hb|Hb]; [left|right; assumption].
    apply in_map_iff in Hb. destruct Hb as (o & <- & Ho). apply in_map. auto.
  - intros k o. rewrite cleanup_serial_at, (kind_lane dl) by assumption. cbn [serial_cleanup s_queue]. intros Ho.
    apply filter_In in Ho. apply I2. tauto.
  - intros k. rewrite cleanup_serial_at. cbn [serial_cleanup s_queue s_delivering]. intros H. rewrite (I3 k H). reflexivity.
  - rewrite cleanup_queued. assert (Hs : subsequence (map co_task (filter f q) ++ map d_task (filter (fun o => negb (Nat.eqb (d_session o) ss)) (queued dl)))
       (map co_task q ++ map d_task (queued dl))).
    { apply subseq_app; apply subseq_map, subseq_filter. }
    clear -Hs I4. revert I4. induction Hs as [|x l m Hs IH|x l m Hs IH]; intros I4.
    + constructor.
    + inversion I4; subst. auto.
    + inversion I4; subst. constructor; [|auto]. intros Hi. apply H1. clear -Hs Hi. induction Hs; cbn in *; tauto.
  - intros x Hx. apply I5. apply in_app_or in Hx. apply in_or_app. destruct Hx as [Hx|Hx]; [left|right; auto].
    apply in_map_iff in Hx. destruct Hx as (o & <- & Ho). apply in_map. auto.
  - intros k a. rewrite cleanup_serial_at. cbn [serial_cleanup s_delivering]. intros Ha. destruct (I6 k a Ha). split; [assumption|]. auto.
  - intros k a o. rewrite cleanup_serial_at, (kind_holds dl) by assumption. cbn [serial_cleanup s_delivering]. intros. apply (I7 k a); auto.
  - intros Hs k. rewrite cleanup_serial_at, (kind_hcount dl) by assumption. cbn [serial_cleanup s_delivering].
    specialize (I8 Hs k). specialize (Hle k). lia.
  - intros Hs k o Ho. rewrite cleanup_serial_at, (kind_holds dl) by assumption. cbn [serial_cleanup s_delivering]. apply I9; auto.
  - intros [Hs He] k. rewrite cleanup_serial_at, (kind_hcount dl) by assumption. cbn [serial_cleanup s_delivering].
    intros Hk. replace (filter f q) with q; [auto|]. clear -He. unfold f. induction q as [|o q IH]; cbn in *; [reflexivity|].
    destruct (Nat.eqb (co_session o) ss); cbn; [discriminate|]. rewrite <- IH; auto.
  - intros s Hs. destruct dl as [s0|ls]; [|discriminate]. cbn in Hs. injection Hs as <-. cbn [serial_cleanup s_queue].
    refine (subseq_trans _ _ _ _ (I11 s0 eq_refl)). apply subseq_app; [apply subseq_refl|]. apply subseq_map, subseq_filter.
  - intros y Hy Ey. specialize (I12 y (Hq y Hy) Ey). clear -I12. destruct dl; cbn in *; auto.
Qed.

(** ** The invariant over events *)
Record CI w : Prop := {
  i_panic : cs_panic w = false;
  i_recv : cs_recv w = seq 0 (cs_next w);
  i_core : CC (cs_del w) (cs_queue w) (cs_unblock w) (cs_next w) (cs_start w) (cs_stopfail w = []) (cs_swept w = []);
  i_clean : cs_stopfail w = [] -> cs_unblock w = [];
  i_swept : cs_swept w = [] -> cs_stopfail w = [] }.

(** A world in which the label [l] has still to be served. *)
Definition owes w (l : option nat) : Prop :=
  cs_panic w = false /\ cs_recv w = seq 0 (cs_next w) /\
  CC (cs_del w) (cs_queue w) (l :: cs_unblock w) (cs_next w) (cs_start w) (cs_stopfail w = []) (cs_swept w = []) /\
  (cs_stopfail w = [] -> cs_unblock w = []) /\ (cs_swept w = [] -> cs_stopfail w = []).

Ltac owe := (split; [|split; [|split; [|split]]]); cbn; auto.

Lemma ci_serve_next fuel alive l : forall w, owes w l ->
  length (s_queue (serial_at (cs_del w) (blane (cs_del w) l))) <= fuel -> CI (c_serve_next fuel alive l w).
Proof.
  induction fuel as [|fuel IH]; intros w (P & Rv & I & Cl & Sw) Hf; cbn [c_serve_next];
    (assert (Hk : known (cs_del w) l) by
      (apply (k_known _ _ _ _ _ _ _ I); apply (Permutation_in _ (Permutation_sym (cblockers_cons _ l _))); left; reflexivity));
    rewrite (pop_lane _ _ Hk); unfold pop_impl;
    destruct (s_queue (serial_at (cs_del w) (blane (cs_del w) l))) as [|o q] eqn:Eq; cbn [fst snd].
  1,3: constructor; cbn; auto; apply cc_pop_none; assumption.
  - cbn in Hf. lia.
  - destruct (alive (d_source o)) eqn:Ea.
    + constructor; cbn; auto. eapply cc_pop_start; try eassumption; reflexivity.
    + pose proof (cc_pop_drop _ _ _ _ _ _ _ _ _ _ I Eq) as I'. pose proof (known_valid _ _ Hk) as Hv.
      apply IH; [owe|]. clear IH. cbn [cs_del c_log_dropped c_set_del].
      set (dl := upd _ _ _). assert (E : blane dl l = blane (cs_del w) l) by (apply kind_blane, upd_kind).
      rewrite E. unfold dl. rewrite serial_at_upd_eq by assumption. cbn [length s_queue] in *. lia.
Qed.

Lemma ci_next alive l w : owes w l -> CI (c_next alive l w).
Proof. intros H. apply ci_serve_next; [assumption|]. apply lane_queue_length. Qed.

Lemma ci_unblock w alive : CI w -> CI (c_unblock w alive).
Proof.
  intros [P Rv I Cl Sw]. unfold c_unblock. destruct (cs_unblock w) as [|l us] eqn:E; [constructor; auto|].
  { rewrite E. assumption. }
  apply ci_next. owe. intros Hs. discriminate (Cl Hs).
Qed.

Lemma ci_retire alive i w : CI w -> CI (retire alive w i).
Proof.
  intros [P Rv I Cl Sw]. unfold retire. destruct (remove_nth i (cs_queue w)) as [[o q]|] eqn:E.
  - apply remove_nth_split in E. destruct E as (a & b & Hq & ->).
    destruct (co_block o) as [l|] eqn:El.
    + apply ci_next. rewrite Hq in I. owe. eapply cc_take; eassumption.
    + rewrite Hq in I. constructor; cbn; auto. eapply cc_take_free; eassumption.
  - constructor; cbn; auto.
Qed.

Lemma ci_give alive w a : CI w -> CI (give alive w a).
Proof. intros [P Rv I Cl Sw]. unfold give. destruct (alive (an_source a)); constructor; cbn; auto. Qed.

Lemma ci_apply w alive : CI w -> CI (apply w alive).
Proof.
  intros I. unfold apply. destruct (cs_commands w) as [|d ds]; [assumption|].
  assert (I1 : CI (c_set_commands w ds)) by (destruct I; constructor; cbn; auto).
  assert (I2 : CI (fold_left (give alive) d (c_set_commands w ds))).
  { revert I1. generalize (c_set_commands w ds). induction d as [|a d IH]; intros u Iu; cbn; [assumption|].
    apply IH, ci_give. assumption. }
  revert I2. generalize (fold_left (give alive) d (c_set_commands w ds)) (sort_indices (map an_index d)).
  intros u l. revert u. induction l as [|i l IH]; intros u Iu; cbn; [assumption|]. apply IH, ci_retire. assumption.
Qed.

Lemma ci_cycle w xs : CI w -> CI (cycle w xs).
Proof. intros [P Rv I Cl Sw]. unfold cycle. destruct (fold_left _ xs []); constructor; cbn; auto. Qed.

Lemma ci_clean_session w ss : CI w -> CI (c_clean w ss).
Proof.
  intros [P Rv I Cl Sw]. unfold c_clean. constructor; cbn; auto.
  - apply (cc_weaken _ _ _ _ _ _ _ (cs_stopfail w = []) _ (cc_sweep _ _ _ _ _ _ _ ss I)); [auto|].
    intros H. apply app_eq_nil in H. destruct H as [H1 H2]. split; [assumption|].
    destruct (filter _ (cs_queue w)); [reflexivity|discriminate].
  - intros H. apply app_eq_nil in H. tauto.
Qed.

Lemma take_task_split id q o r : take_task id q = Some (o, r) ->
  exists a b, q = a ++ o :: b /\ r = a ++ b /\ co_task o = id.
Proof.
  revert o r. induction q as [|x q IH]; intros o r; cbn [take_task]; [discriminate|].
  destruct (Nat.eqb_spec (co_task x) id) as [E|E].
  - intros [= <- <-]. exists [], q. auto.
  - destruct (take_task id q) as [[y r']|]; [|discriminate]. intros [= <- <-].
    destruct (IH y r' eq_refl) as (a & b & -> & -> & H). exists (x :: a), b. auto.
Qed.

Lemma take_task_none id q : take_task id q = None -> ~ In id (map co_task q).
Proof.
  induction q as [|x q IH]; cbn [take_task map]; [intros _ []|].
  destruct (Nat.eqb_spec (co_task x) id) as [E|E]; [discriminate|].
  destruct (take_task id q) as [[y r']|]; [discriminate|]. intros _ [H|H]; [contradiction|]. apply IH; auto.
Qed.

Lemma ci_disp w l : CI w -> CI (c_log_disp w l).
Proof. intros []. constructor; cbn; auto. Qed.

(** The request in progress of a lane is found unless a cleanup swept it away. *)
Lemma found w k a : CI w -> cs_swept w = [] -> s_delivering (serial_at (cs_del w) k) = Some a ->
  In (a_task a) (map co_task (cs_queue w)).
Proof.
  intros [P Rv I Cl Sw] Hs Ha. specialize (Cl (Sw Hs)).
  pose proof (k_busy _ _ _ _ _ _ _ I Hs k) as Hb. rewrite Ha in Hb. specialize (Hb ltac:(discriminate)).
  rewrite Cl in Hb. unfold cblockers in Hb. cbn [map] in Hb. rewrite app_nil_r in Hb.
  apply hcount_pos in Hb. destruct Hb as (b & Hb & Hh). apply in_map_iff in Hb. destruct Hb as (o & <- & Ho).
  destruct (k_ident _ _ _ _ _ _ _ I (Sw Hs) k o Ho Hh) as (a' & Ha' & E). rewrite Ha in Ha'. injection Ha' as <-.
  rewrite E. apply in_map. assumption.
Qed.

Lemma ci_stop w alive k a n (s : entity) l : CI w -> s_delivering (serial_at (cs_del w) k) = Some a ->
  known (cs_del w) l -> CI (c_stop w alive (stop_active a) n s l).
Proof.
  intros I Ha Hl. unfold c_stop. apply ci_disp. cbn [st_task stop_active].
  destruct (take_task (a_task a) (cs_queue w)) as [[o q]|] eqn:E.
  - destruct I as [P Rv I Cl Sw]. apply take_task_split in E. destruct E as (x & y & Hq & -> & Ho).
    assert (Hh : holds (cs_del w) k (co_block o) = true).
    { apply (k_act _ _ _ _ _ _ _ I k a); [assumption| |assumption]. rewrite Hq. apply in_or_app. right. left. reflexivity. }
    destruct (co_block o) as [b|] eqn:Eb; [|discriminate]. apply ci_next. rewrite Hq in I.
    owe. eapply cc_take; eassumption.
  - apply take_task_none in E.
    assert (Hs : cs_swept w <> []) by (intros Hs; apply E, (found w k); assumption).
    destruct I as [P Rv I Cl Sw]. constructor; cbn; auto.
    + refine (cc_weaken _ _ _ _ _ _ _ _ _ (cc_more _ _ _ _ _ _ _ _ l I Hl _) _ _).
      * intros x Hx. apply in_app_or in Hx. cbn in Hx. intuition congruence.
      * intros H. destruct (cs_stopfail w); discriminate.
      * intros H. contradiction.
    + intros H. destruct (cs_stopfail w); discriminate.
    + intros H. contradiction.
Qed.

Lemma filter_split_perm' (f : order V -> bool) l :
  Permutation l (filter f l ++ filter (fun x => negb (f x)) l).
Proof.
  induction l as [|x l IH]; cbn [filter]; [constructor|]. destruct (f x); cbn [negb app].
  - constructor. assumption.
  - rewrite IH at 1. apply Permutation_middle.
Qed.

Lemma known_label dl inc k s : lane dl (Some inc) = Some k -> known (upd dl k s) (Some (i_label inc)).
Proof. intros Hl. apply (known_new _ (Some inc)); [assumption|]. symmetry. exact (expected_immediate _ _ k Hl). Qed.

Lemma ci_serve w alive n (s : entity) i v : CI w -> CI (c_serve w alive n s i v).
Proof.
  intros [P Rv I Cl Sw]. unfold c_serve. cbn [cs_del c_receive]. set (o := mk_order n s (cs_next w) v i).
  assert (Rv' : cs_recv w ++ [cs_next w] = seq 0 (S (cs_next w))) by (rewrite Rv; apply seq_snoc).
  destruct (lane (cs_del w) i) as [k|] eqn:El.
  - pose proof (lane_valid _ _ _ El) as Hv. rewrite (insert_lane _ o k) by assumption.
    destruct (s_delivering (serial_at (cs_del w) k)) as [a|] eqn:Ed.
    + unfold insert_serial_order. rewrite Ed. cbn [d_instr o]. destruct i as [inc|].
      * destruct (i_preempt inc); cbn [fst snd].
        -- set (f := fun e => should_discard inc (d_instr e)).
           assert (I' : CI (c_log_disp (c_set_del (c_receive w) (upd (cs_del w) k
              (mk_serial (Some a) (filter (fun e => negb (f e)) (s_queue (serial_at (cs_del w) k)) ++ [o]))))
              (map (fun c => (st_task c, Supplanted n s)) (map stop_order (filter f (s_queue (serial_at (cs_del w) k))))))).
           { constructor; cbn; auto.
             eapply cc_queue; try eassumption; try reflexivity; [apply filter_split_perm'|apply subseq_filter]. }
           destruct (should_discard inc (a_instr a)); [|assumption].
           apply (ci_stop _ _ k); [assumption| |].
           ++ cbn [cs_del c_log_disp c_set_del c_receive]. rewrite serial_at_upd_eq by assumption. reflexivity.
           ++ cbn [cs_del c_log_disp c_set_del c_receive]. apply known_label. assumption.
        -- constructor; cbn; rewrite ?app_nil_r; auto.
           apply (cc_queue _ _ _ _ _ _ _ (Some inc) k a (s_queue (serial_at (cs_del w) k)) []); auto using subseq_refl; apply Permutation_refl.
      * constructor; cbn; rewrite ?app_nil_r; auto.
        apply (cc_queue _ _ _ _ _ _ _ None k a (s_queue (serial_at (cs_del w) k)) []); auto using subseq_refl; apply Permutation_refl.
    + unfold insert_serial_order. rewrite Ed, (k_idle _ _ _ _ _ _ _ I k Ed). cbn [fst snd].
      constructor; cbn; auto. apply (cc_immediate _ _ _ _ _ _ _ i); auto.
  - rewrite (insert_nolane _ o) by assumption. constructor; cbn; auto. apply (cc_unlabelled _ _ _ _ _ _ _ i); auto.
Qed.

Lemma ci_step w e : CI w -> CI (cstep w e).
Proof.
  destruct e; cbn [cstep]; intros H;
    [apply ci_serve|apply ci_cycle|apply ci_apply|apply ci_unblock|apply ci_clean_session]; assumption.
Qed.

Lemma ci_run w es : CI w -> CI (crun w es).
Proof. unfold crun. revert w. induction es as [|e es IH]; intros w H; cbn; [assumption|]. apply IH, ci_step. assumption. Qed.

Lemma ci_new (d : delivery V) : (d = Serial serial_new \/ d = Parallel []) -> CI (csrv_new d : csrv V R).
Proof.
  intros H.
  assert (Hs : forall k, serial_at d k = serial_new).
  { destruct H as [-> | ->]; intros [l|]; reflexivity. }
  assert (Hq : queued d = []) by (destruct H as [-> | ->]; reflexivity).
  constructor; cbn; auto. constructor; cbn; try contradiction; intros *; rewrite ?Hs, ?Hq; cbn;
    try contradiction; try discriminate; try reflexivity; try congruence; try constructor.
  - intros _ k. rewrite Hs. apply le_n.
  - intros _ k H'. rewrite Hs in H'. cbn in H'. congruence.
  - destruct H as [-> | ->]; [|discriminate]. intros [= <-]. constructor.
Qed.

Lemma ci_reachable w : c_reachable w -> CI w.
Proof. intros (w0 & es & H & ->). apply ci_run. destruct H as [-> | ->]; apply ci_new; auto. Qed.

Lemma c_serve_next_kind fuel alive l : forall w, same_kind (cs_del w) (cs_del (c_serve_next fuel alive l w)).
Proof.
  assert (Hp : forall (d d' : delivery V) l o, pop_next d l = Some (d', o) -> same_kind d d').
  { intros [s|ls] d' l' o; cbn.
    - destruct (pop_impl s). intros [= <- <-]. exact I.
    - destruct l' as [l'|]; [|discriminate]. destruct (lget l' ls) as [s|]; [|discriminate].
      destruct (pop_impl s). intros [= <- <-]. exact I. }
  induction fuel as [|fuel IH]; intros w; cbn [c_serve_next];
    destruct (pop_next (cs_del w) l) as [[d [o|]]|] eqn:E; try apply kind_refl; apply Hp in E; cbn; auto;
    destruct (alive (d_source o)); cbn; auto.
  eapply kind_trans; [exact E|]. apply (IH (c_log_dropped (c_set_del w d) [d_task o])).
Qed.

Lemma c_next_kind alive l w : same_kind (cs_del w) (cs_del (c_next alive l w)).
Proof. apply c_serve_next_kind. Qed.

Lemma retire_kind alive w i : same_kind (cs_del w) (cs_del (retire alive w i)).
Proof.
  unfold retire. destruct (remove_nth i (cs_queue w)) as [[o q]|]; [|apply kind_refl].
  destruct (co_block o); [|apply kind_refl]. apply (c_next_kind alive o0 (c_set_queue w q)).
Qed.

Lemma insert_kind (d : delivery V) o : same_kind d (fst (insert_new_order d o)).
Proof.
  unfold insert_new_order. destruct d as [s|ls].
  - destruct (insert_serial_order s o). exact I.
  - destruct (d_instr o); [|exact I]. destruct (insert_serial_order _ o). exact I.
Qed.

Lemma cstep_kind w e : same_kind (cs_del w) (cs_del (cstep w e)).
Proof.
  destruct e as [alive n s i v|xs|alive|alive|n s]; cbn [cstep].
  - unfold c_serve. cbn [cs_del c_receive].
    pose proof (insert_kind (cs_del w) (mk_order n s (cs_next w) v i)) as Hk.
    destruct (insert_new_order (cs_del w) _) as [d u]. cbn [fst] in Hk.
    destruct u as [b r|cn st l|]; cbn; [assumption| |assumption].
    destruct st as [st|]; cbn; [|assumption].
    destruct (take_task _ _) as [[o q]|]; [|assumption]. destruct (co_block o); [|assumption].
    eapply kind_trans; [exact Hk|]. 
    match goal with |- same_kind d (cs_del (c_next _ _ ?u)) => apply (c_next_kind alive o0 u) end.
  - unfold cycle. destruct (fold_left _ xs []); apply kind_refl.
  - unfold apply. destruct (cs_commands w) as [|d ds]; [apply kind_refl|].
    destruct (give_all alive d (c_set_commands w ds)) as (_ & _ & _ & _ & _ & _ & E & _). cbn zeta in E.
    set (u := fold_left (give alive) d (c_set_commands w ds)) in *. 
    assert (H : forall l (u : csrv V R), same_kind (cs_del u) (cs_del (fold_left (retire alive) l u))).
    { induction l as [|i l IH]; intros u'; cbn; [apply kind_refl|]. eapply kind_trans; [apply (retire_kind alive u' i)|apply IH]. }
    change (cs_del w) with (cs_del (c_set_commands w ds)). rewrite <- E. apply H.
  - unfold c_unblock. destruct (cs_unblock w); [apply kind_refl|]. apply (c_next_kind alive o (c_set_unblock w l)).
  - apply cleanup_kind.
Qed.

Lemma crun_kind es : forall w, same_kind (cs_del w) (cs_del (crun w es)).
Proof.
  induction es as [|e es IH]; intros w; [apply kind_refl|]. cbn. eapply kind_trans; [apply cstep_kind|apply IH].
Qed.

Lemma c_serial_kind es : c_is_serial (crun (@new_cserial V R) es).
Proof.
  pose proof (crun_kind es (@new_cserial V R)) as H. unfold c_is_serial.
  destruct (cs_del (crun _ es)) as [s|ls]; [exists s; reflexivity|destruct H].
Qed.
Lemma c_parallel_kind es : c_is_parallel (crun (@new_cparallel V R) es).
Proof.
  pose proof (crun_kind es (@new_cparallel V R)) as H. unfold c_is_parallel.
  destruct (cs_del (crun _ es)) as [s|ls]; [destruct H|exists ls; reflexivity].
Qed.

(** ** Consequences *)
Lemma c_order w : c_reachable w -> c_is_serial w -> cs_recv w = seq 0 (cs_next w) /\
  subsequence (cs_start w ++ map d_task (c_waiting w)) (cs_recv w).
Proof.
  intros H (s & Hs). apply ci_reachable in H. split; [apply H|]. rewrite (i_recv _ H).
  unfold c_waiting. rewrite Hs. apply (k_order _ _ _ _ _ _ _ (i_core _ H)). assumption.
Qed.

Lemma c_one w : c_reachable w -> c_is_serial w -> cs_stopfail w = [] -> length (cs_queue w) <= 1.
Proof.
  intros H (s & Hs) Hf. apply ci_reachable in H. pose proof (i_core _ H) as I.
  pose proof (k_exact _ _ _ _ _ _ _ I Hf None) as He. unfold cblockers in He. rewrite hcount_app in He.
  assert (E : hcount (cs_del w) None (map co_block (cs_queue w)) = length (cs_queue w)).
  { pose proof (k_free _ _ _ _ _ _ _ I) as Hfr. rewrite Hs in *. clear -Hfr.
    induction (cs_queue w) as [|o q IH]; [reflexivity|]. cbn [map length]. rewrite hcount_cons, IH.
    - destruct (co_block o) eqn:E; [reflexivity|]. destruct (Hfr o (or_introl eq_refl) E).
    - intros x Hx. apply Hfr. right. assumption. }
  rewrite E in He. destruct (s_delivering _); lia.
Qed.

Lemma c_one_label w l : c_reachable w -> c_is_parallel w -> cs_stopfail w = [] -> length (c_working_on w l) <= 1.
Proof.
  intros H (ls & Hs) Hf. apply ci_reachable in H. pose proof (i_core _ H) as I.
  pose proof (k_exact _ _ _ _ _ _ _ I Hf (Some l)) as He. unfold cblockers in He. rewrite hcount_app in He.
  assert (E : hcount (cs_del w) (Some l) (map co_block (cs_queue w)) = length (c_working_on w l)).
  { unfold c_working_on. rewrite Hs. clear.
    induction (cs_queue w) as [|o q IH]; [reflexivity|]. cbn [map filter]. rewrite hcount_cons, IH.
    destruct (co_block o) as [[l'|]|]; cbn; try reflexivity. destruct (Nat.eqb l' l); reflexivity. }
  rewrite E in He. destruct (s_delivering _); lia.
Qed.

Lemma c_no_panic w : c_reachable w -> cs_panic w = false.
Proof. intros H. apply ci_reachable in H. apply H. Qed.

Lemma c_idle w : c_reachable w -> c_is_serial w -> cs_swept w = [] -> cs_queue w = [] -> c_waiting w = [].
Proof.
  intros H (s & Hs) Hsw Hq. apply ci_reachable in H. pose proof (i_core _ H) as I.
  pose proof (i_clean _ H (i_swept _ H Hsw)) as Hu.
  pose proof (k_busy _ _ _ _ _ _ _ I Hsw None) as Hb. rewrite Hq, Hu in Hb. cbn in Hb.
  pose proof (k_idle _ _ _ _ _ _ _ I None) as Hi. unfold c_waiting. rewrite Hs in *. cbn [serial_at queued] in *.
  destruct (s_delivering s); [|auto]. specialize (Hb ltac:(discriminate)). lia.
Qed.

Lemma waiting_lane (ls : list (nat * serial V)) l o : In o (queued (Parallel ls)) ->
  (forall k x, In x (s_queue (serial_at (Parallel ls) k)) -> lane (Parallel ls) (d_instr x) = Some k) ->
  NoDup (map fst ls) -> labelled l (d_instr o) = true -> In o (s_queue (serial_at (Parallel ls) (Some l))).
Proof.
  intros Ho Hl Hn Hlab. cbn [queued] in Ho. apply in_flat_map in Ho. destruct Ho as ([l' s'] & Hin & Ho). cbn [snd] in Ho.
  assert (E : lget l' ls = Some s').
  { clear -Hin Hn. induction ls as [|[m t] ls IH]; cbn in *; [contradiction|]. inversion Hn; subst.
    destruct Hin as [[= -> ->]|Hin]; [rewrite Nat.eqb_refl; reflexivity|].
    destruct (Nat.eqb_spec l' m) as [->|E]; [|auto]. exfalso. apply H1. apply in_map_iff. exists (m, s'). auto. }
  specialize (Hl (Some l') o). cbn [serial_at] in Hl. rewrite E in Hl. specialize (Hl Ho).
  cbn [lane] in Hl. unfold labelled in Hlab. destruct (d_instr o) as [i|]; [|discriminate]. injection Hl as <-.
  apply Nat.eqb_eq in Hlab. subst l. cbn [serial_at]. rewrite E. assumption.
Qed.

(** Once the request in progress has been swept away nothing starts any more. *)
Definition stuck (s : serial V) w : Prop :=
  cs_queue w = [] /\ cs_commands w = [] /\ cs_unblock w = [] /\ s_delivering s <> None /\ cs_del w = Serial s.

Lemma stuck_step s w e : stuck s w -> not_stopping e -> exists s', stuck s' (cstep w e) /\
  cs_start (cstep w e) = cs_start w /\ (exists more, s_queue s' = s_queue s ++ more).
Proof.
  intros (Hq & Hc & Hu & Hd & Hs). destruct e as [alive n ss i v|xs|alive|alive|n ss]; cbn [not_stopping cstep]; intros Hn.
  - unfold c_serve. cbn [cs_del c_receive]. rewrite Hs. cbn [insert_new_order]. unfold insert_serial_order.
    destruct (s_delivering s) as [a|]; [|congruence]. cbn [d_instr].
    exists (mk_serial (Some a) (s_queue s ++ [mk_order n ss (cs_next w) v i])).
    destruct i as [inc|]; [rewrite (Hn inc eq_refl)|]; (split; [|split; [reflexivity|eexists; reflexivity]]);
      repeat split; cbn; auto; discriminate.
  - unfold cycle. rewrite Hq. assert (E : fold_left (@respond V R []) xs [] = ([] : list (answer R))).
    { clear. induction xs as [|[i r] xs IH]; [reflexivity|]. cbn. destruct i; cbn; assumption. }
    rewrite E. exists s. repeat split; auto. exists []. rewrite app_nil_r. reflexivity.
  - unfold apply. rewrite Hc. exists s. repeat split; auto. exists []. rewrite app_nil_r. reflexivity.
  - unfold c_unblock. rewrite Hu. exists s. repeat split; auto. exists []. rewrite app_nil_r. reflexivity.
  - contradiction.
Qed.

Lemma stuck_run es : forall s w, stuck s w -> Forall not_stopping es ->
  cs_start (crun w es) = cs_start w /\ (exists more, c_waiting (crun w es) = s_queue s ++ more).
Proof.
  induction es as [|e es IH]; intros s w H He.
  - split; [reflexivity|]. exists []. rewrite app_nil_r. unfold c_waiting. cbn. destruct H as (_ & _ & _ & _ & ->). reflexivity.
  - inversion He as [|? ? H1 H2]; subst. destruct (stuck_step s w e H H1) as (s' & H' & E & more & Em).
    destruct (IH s' (cstep w e) H' H2) as (A & more' & B). change (crun w (e :: es)) with (crun (cstep w e) es).
    split; [congruence|]. exists (more ++ more'). rewrite B, Em, app_assoc. reflexivity.
Qed.

Lemma wedged w n ss es : c_reachable w -> c_is_serial w -> cs_commands w = [] -> cs_unblock w = [] ->
  (forall o, In o (cs_queue w) -> co_session o = ss) ->
  (exists o, In o (c_waiting w) /\ d_session o <> ss) ->
  Forall not_stopping es ->
  let w' := crun w (CClean n ss :: es) in
  cs_start w' = cs_start w /\
  exists more, c_waiting w' = filter (fun o => negb (Nat.eqb (d_session o) ss)) (c_waiting w) ++ more.
Proof.
  intros H (s & Hs) Hc Hu Hq (o & Ho & Hne) He w'. apply ci_reachable in H. pose proof (i_core _ H) as I.
  assert (Hst : stuck (serial_cleanup s ss) (c_clean w ss)).
  { unfold stuck, c_clean. cbn. repeat split; auto.
    - clear -Hq. induction (cs_queue w) as [|x q IH]; cbn; [reflexivity|].
      rewrite (Hq x (or_introl eq_refl)), Nat.eqb_refl. cbn. apply IH. intros y Hy. apply Hq. right. assumption.
    - intros Hd. pose proof (k_idle _ _ _ _ _ _ _ I None) as Hi. unfold c_waiting in Ho. rewrite Hs in *. cbn [serial_at queued] in *.
      rewrite (Hi Hd) in Ho. contradiction.
    - rewrite Hs. reflexivity. }
  destruct (stuck_run es _ _ Hst He) as (A & more & B). change w' with (crun (c_clean w ss) es).
  split; [rewrite A; reflexivity|]. exists more. rewrite B. unfold c_waiting. rewrite Hs. reflexivity.
Qed.

(** The next request is started when the one in progress is answered. *)
Lemma c_next_starts w x o r v : c_reachable w -> c_is_serial w -> cs_commands w = [] -> cs_queue w = [x] ->
  c_waiting w = o :: r ->
  let w' := crun w [CCycle [(0, v)]; CApply (fun _ => true)] in
  c_waiting w' = r /\ cs_start w' = cs_start w ++ [d_task o] /\ map co_task (cs_queue w') = [d_task o] /\
  cs_given w' = cs_given w ++ [mk_answer 0 (co_source x) (co_session x) (co_task x) v].
Proof.
  intros H (s & Hs) Hc Hq Hw. apply ci_reachable in H. pose proof (i_core _ H) as I.
  unfold c_waiting in *. rewrite Hs in Hw. cbn [queued] in Hw.
  assert (Hb : co_block x <> None).
  { intros E. pose proof (k_free _ _ _ _ _ _ _ I x) as Hf. rewrite Hq, Hs in Hf. destruct (Hf (or_introl eq_refl) E). }
  destruct (co_block x) as [l|] eqn:El; [|congruence].
  unfold crun. cbn [fold_left cstep]. unfold cycle. rewrite Hq. cbn [fold_left]. unfold respond. cbn [fst nth_error contains_key existsb app snd].
  unfold apply. cbn [cs_commands c_set_commands]. rewrite Hc. cbn [app map an_index]. cbn [sort_indices fold_left insert_index].
  unfold give. cbn [an_source]. unfold retire. cbn [cs_queue c_log_given c_set_commands]. rewrite Hq. cbn [remove_nth].
  rewrite El. unfold c_next. cbn [cs_del c_set_queue c_log_given c_set_commands]. rewrite Hs. cbn [queued]. rewrite Hw.
  cbn [length c_serve_next cs_del c_set_queue c_log_given c_set_commands]. rewrite Hs. cbn [pop_next]. unfold pop_impl. rewrite Hw.
  cbn. auto.
Qed.

(** A property of the queues kept by whatever is done to them. *)
Section Preserved.
Context (P : delivery V -> Prop)
  (P_insert : forall dl o, P dl -> P (fst (insert_new_order dl o)))
  (P_pop : forall dl dl' l o, P dl -> pop_next dl l = Some (dl', o) -> P dl')
  (P_clean : forall dl s, P dl -> P (delivery_cleanup dl s)).

Lemma pres_next fuel alive l : forall w, P (cs_del w) -> P (cs_del (c_serve_next fuel alive l w)).
Proof.
  induction fuel as [|fuel IH]; intros w H; cbn [c_serve_next];
    destruct (pop_next (cs_del w) l) as [[d [o|]]|] eqn:E; auto; apply P_pop in E; auto;
    destruct (alive (d_source o)); auto.
Qed.

Lemma pres_retire alive w i : P (cs_del w) -> P (cs_del (retire alive w i)).
Proof.
  intros H. unfold retire. destruct (remove_nth i (cs_queue w)) as [[o q]|]; [|assumption].
  destruct (co_block o) as [l|]; [|assumption]. apply pres_next. assumption.
Qed.

Lemma pres_step w e : P (cs_del w) -> P (cs_del (cstep w e)).
Proof.
  intros H. destruct e as [alive n s i v|xs|alive|alive|n s]; cbn [cstep].
  - unfold c_serve. cbn [cs_del c_receive].
    pose proof (P_insert (cs_del w) (mk_order n s (cs_next w) v i) H) as H'.
    destruct (insert_new_order (cs_del w) _) as [d u]. cbn [fst] in H'.
    destruct u as [b r|cn st l|]; cbn; [assumption| |assumption].
    destruct st as [st|]; cbn; [|assumption].
    destruct (take_task _ _) as [[o q]|]; [|assumption]. destruct (co_block o); [|assumption].
    apply pres_next. assumption.
  - unfold cycle. destruct (fold_left _ xs []); assumption.
  - unfold apply. destruct (cs_commands w) as [|d ds]; [assumption|].
    destruct (give_all alive d (c_set_commands w ds)) as (_ & _ & _ & _ & _ & _ & E & _). cbn zeta in E.
    change (cs_del w) with (cs_del (c_set_commands w ds)) in H. rewrite <- E in H. clear E.
    revert H. generalize (fold_left (give alive) d (c_set_commands w ds)) (sort_indices (map an_index d)).
    intros u l. revert u. induction l as [|i l IH]; intros u Hu; cbn; [assumption|]. apply IH, pres_retire. assumption.
  - unfold c_unblock. destruct (cs_unblock w); [assumption|]. apply pres_next. assumption.
  - cbn. apply P_clean. assumption.
Qed.

Lemma pres_run es : forall w, P (cs_del w) -> P (cs_del (crun w es)).
Proof. induction es as [|e es IH]; intros w H; [assumption|]. apply IH, pres_step. assumption. Qed.

End Preserved.

Lemma keys_insert dl (o : order V) : keys_ok dl -> keys_ok (fst (insert_new_order dl o)).
Proof.
  intros H. destruct (lane dl (d_instr o)) as [k|] eqn:E.
  - rewrite (insert_lane _ _ k E). apply keys_upd. assumption.
  - rewrite (insert_nolane _ _ E). assumption.
Qed.

Lemma keys_pop (d1 d2 : delivery V) l o : keys_ok d1 -> pop_next d1 l = Some (d2, o) -> keys_ok d2.
Proof.
  destruct d1 as [s|ls]; cbn.
  - intros _. destruct (pop_impl s). intros [= <- <-]. exact I.
  - destruct l as [l|]; [|discriminate]. destruct (lget l ls) as [s|]; [|discriminate].
    destruct (pop_impl s). intros Hk [= <- <-]. apply lset_nodup. assumption.
Qed.

Lemma c_keys w : c_reachable w -> keys_ok (cs_del w).
Proof.
  intros (w0 & es & H & ->). apply (pres_run keys_ok keys_insert keys_pop (fun dl s => cleanup_keys dl s)).
  destruct H as [-> | ->]; cbn; [exact I|constructor].
Qed.

Lemma c_idle_label w l : c_reachable w -> c_is_parallel w -> cs_swept w = [] -> c_working_on w l = [] ->
  filter (fun o => labelled l (d_instr o)) (c_waiting w) = [].
Proof.
  intros Hr (ls & Hs) Hsw Hq. pose proof (c_keys w Hr) as Hk. apply ci_reachable in Hr. pose proof (i_core _ Hr) as I.
  pose proof (i_clean _ Hr (i_swept _ Hr Hsw)) as Hu.
  assert (E : hcount (cs_del w) (Some l) (cblockers (cs_queue w) (cs_unblock w)) = 0).
  { rewrite Hu. unfold cblockers. cbn [map]. rewrite app_nil_r, Hs. unfold c_working_on in Hq. revert Hq. clear.
    induction (cs_queue w) as [|o q IH]; [reflexivity|]. cbn [map filter]. rewrite hcount_cons.
    destruct (co_block o) as [[l'|]|]; cbn; try apply IH. destruct (Nat.eqb l' l); [discriminate|apply IH]. }
  pose proof (k_busy _ _ _ _ _ _ _ I Hsw (Some l)) as Hb. rewrite E in Hb.
  pose proof (k_idle _ _ _ _ _ _ _ I (Some l)) as Hi. pose proof (k_lane _ _ _ _ _ _ _ I) as Hl.
  unfold c_waiting. rewrite Hs in *. cbn [keys_ok] in Hk.
  destruct (s_delivering (serial_at (Parallel ls) (Some l))) eqn:Ed; [specialize (Hb ltac:(discriminate)); lia|].
  specialize (Hi eq_refl).
  destruct (filter _ (queued (Parallel ls))) as [|o r] eqn:Ef; [reflexivity|].
  assert (Ho : In o (filter (fun o => labelled l (d_instr o)) (queued (Parallel ls)))) by (rewrite Ef; left; reflexivity).
  apply filter_In in Ho. destruct Ho as [Ho Hlab].
  pose proof (waiting_lane ls l o Ho Hl Hk Hlab) as H. rewrite Hi in H. destruct H.
Qed.

(** Preemption. *)
Lemma discard_gives_way inc p : should_discard inc p = true <-> gives_way inc p.
Proof.
  unfold should_discard, gives_way. destruct p as [p|].
  - rewrite andb_true_iff, Nat.eqb_eq, negb_true_iff. split.
    + intros [H1 H2]. eauto.
    + intros (p' & [= <-] & H1 & H2). auto.
  - split; [discriminate|]. intros (p' & H & _). discriminate.
Qed.

Lemma c_preempt w (n s : entity) inc v : c_reachable w -> c_is_serial w -> i_preempt inc = true ->
  let w' := cstep w (CRequest (fun _ => true) n s (Some inc) v) in
  let new := mk_order n s (cs_next w) v (Some inc) in
  exists kept dropped, separated (fun o => gives_way inc (d_instr o)) (c_waiting w) dropped kept /\
    ((c_waiting w = [] /\ c_waiting w' = [] /\ cs_start w' = cs_start w ++ [cs_next w] /\ cs_disp w' = cs_disp w) \/
     (exists stopped started, cs_disp w' = cs_disp w ++ map (fun o => (d_task o, Supplanted n s)) dropped
                                 ++ map (fun x => (x, Supplanted n s)) stopped /\
        started ++ c_waiting w' = kept ++ [new] /\ cs_start w' = cs_start w ++ map d_task started /\
        length stopped <= 1 /\ length started <= length stopped)).
Proof.
  intros Hr (sr & Hs) Hp w' new. apply ci_reachable in Hr. pose proof (i_core _ Hr) as I.
  set (f := fun e : order V => should_discard inc (d_instr e)).
  exists (filter (fun e => negb (f e)) (s_queue sr)), (filter f (s_queue sr)).
  unfold c_waiting at 1 2. rewrite Hs. cbn [queued]. split.
  { apply separated_filter. intros x. apply discard_gives_way. }
  unfold w', c_waiting. cbn [cstep]. unfold c_serve. cbn [cs_del c_receive]. rewrite Hs. fold new. cbn [insert_new_order].
  unfold insert_serial_order. destruct (s_delivering sr) as [a|] eqn:Ed.
  2:{ pose proof (k_idle _ _ _ _ _ _ _ I None) as Hi. rewrite Hs in Hi. cbn [serial_at] in Hi. rewrite (Hi Ed). left. cbn. auto. }
  right. cbn [d_instr new]. rewrite Hp. cbn [fst snd]. rewrite map_map.
  change (fun x : order V => (st_task (stop_order x), Supplanted n s)) with (fun o : order V => (d_task o, Supplanted n s)).
  change (fun e => negb (should_discard inc (d_instr e))) with (fun e => negb (f e)).
  change (fun e => should_discard inc (d_instr e)) with f.
  fold new. set (q' := filter (fun e => negb (f e)) (s_queue sr) ++ [new]).
  destruct (should_discard inc (a_instr a)).
  2:{ exists [], []. cbn. rewrite !app_nil_r. repeat split; auto. }
  exists [a_task a]. unfold c_stop. cbn [cs_queue c_log_disp c_set_del c_receive st_task stop_active].
  destruct (take_task (a_task a) (cs_queue w)) as [[x q]|].
  - destruct (co_block x) as [l|].
    + assert (Hq' : q' <> []) by (unfold q'; destruct (filter _ (s_queue sr)); discriminate).
      destruct q' as [|y q''] eqn:Eq'; [congruence|]. exists [y].
      unfold c_next. cbn [cs_del c_set_queue c_log_disp c_set_del queued s_queue length]. cbn [c_serve_next cs_del c_set_queue c_log_disp c_set_del pop_next].
      unfold pop_impl. cbn [s_queue]. cbn. rewrite <- !app_assoc. repeat split; auto.
    + exists []. cbn. rewrite <- !app_assoc, app_nil_r. repeat split; auto.
  - exists []. cbn. rewrite <- !app_assoc, app_nil_r. repeat split; auto.
Qed.

End Proofs.
