(** * C30, C31, C52: what a trim cleans and what happens to its message *)

From Coq Require Import List Arith Bool Lia.
From Verif Require Import Base TrimModel TrimSpec TrimProofs TrimProofs2 TrimProofs3.
Import ListNotations.

(** ** C30 *)

(** What a branch asks for. *)
Definition selected (g : graph) (entry : entity) (b : trim_branch) (n : entity) : Prop :=
  let p := tb_from b in
  match tb_policy b with
  | Downstream => admitted (tp_id p) (tp_inclusive p) n /\ after (edge g) entry (tp_id p) n
  | Span points =>
      exists q, In q points
      /\ admitted (tp_id p) (tp_inclusive p) n /\ admitted (tp_id q) (tp_inclusive q) n
      /\ on_way (edge g) (before (edge g) entry (tp_id p)) (tp_id p) (tp_id q) n
  end.

(** [q] is one of the ends of the branch [b]. *)
Definition end_of (b : trim_branch) (q : trim_point) : Prop :=
  exists points, tb_policy b = Span points /\ In q points.

(** The end is upstream of the initial point. *)
Definition backwards (g : graph) (entry : entity) (b : trim_branch) (q : trim_point) : Prop :=
  before (edge g) entry (tp_id (tb_from b)) (tp_id q).

(** The end can be reached from the initial point. *)
Definition reached (g : graph) (entry : entity) (b : trim_branch) (q : trim_point) : Prop :=
  exists l, way (edge g) (before (edge g) entry (tp_id (tb_from b))) (tp_id (tb_from b)) l (tp_id q).

Lemma calculate_branch_spec g entry b :
  (forall q, end_of b q -> backwards g entry b q \/ reached g entry b q) ->
  match calculate_branch g entry b with
  | Nodes l => (forall q, end_of b q -> ~ backwards g entry b q)
               /\ forall n, In n l <-> selected g entry b n
  | Invalid e => exists q, end_of b q /\ backwards g entry b q
               /\ e = InvalidSpan (tp_id (tb_from b)) (Some (tp_id q))
  end.
Proof.
  intros He. unfold calculate_branch, selected. destruct (tb_policy b) as [|points] eqn:Eb.
  - destruct (calculate_downstream_spec g entry (tb_from b)) as (l & -> & _ & H).
    split; [|exact H]. intros q (points & E & _). congruence.
  - unfold calculate_all_spans.
    pose proof (tidy_spec (gather (calculate_span_nodes g entry (tb_from b)) points)) as HT.
    pose proof (gather_spec (calculate_span_nodes g entry (tb_from b)) points) as HG.
    destruct (tidy _) as [l|e].
    + destruct HT as (_ & l' & El & Hl). rewrite El in HG. split.
      * intros q (ps & E & Hq) Hb. assert (ps = points) as -> by congruence.
        destruct (HG q Hq) as (ms & Hm & _).
        destruct (calculate_span_nodes_spec g entry (tb_from b) q) as [[_ K]|[K _]]; [congruence|].
        exact (K Hb).
      * intros n. rewrite Hl. split.
        -- intros Hn. destruct (gather_in _ _ _ _ El Hn) as (q & ms & Hq & Hm & Hn').
           exists q. split; [exact Hq|].
           destruct (calculate_span_nodes_spec g entry (tb_from b) q) as [[_ K]|[K0 (ks & K1 & K2)]];
             [congruence|].
           rewrite Hm in K1. injection K1 as <-. apply K2 in Hn'. destruct Hn' as (N1 & N2 & N3).
           split; [exact N1|]. split; [exact N2|]. destruct N3 as [->|N3]; [|exact N3].
           destruct (He q) as [H|(l0 & H)]; [exists points; auto|contradiction|].
           exists l0. split; [exact H|]. destruct H as (H & _ & _).
           destruct (route_last _ _ _ _ H) as (l1 & ->). apply in_app_iff. right. now left.
        -- intros (q & Hq & N1 & N2 & N3).
           destruct (HG q Hq) as (ms & Hm & Hi). apply Hi.
           destruct (calculate_span_nodes_spec g entry (tb_from b) q) as [[_ K]|[K0 (ks & K1 & K2)]];
             [congruence|].
           rewrite Hm in K1. injection K1 as <-. apply K2. auto.
    + rewrite HT in HG. destruct HG as (q & Hq & Hf). exists q.
      destruct (calculate_span_nodes_spec g entry (tb_from b) q) as [[K0 K]|[K0 (ks & K1 & _)]];
        [|congruence].
      rewrite Hf in K. injection K as ->. split; [exists points; auto|]. split; [exact K0|reflexivity].
Qed.

(** For every graph and every list of branches whose ends can be reached or are
    upstream of their initial points: the nodes are listed once each, and they
    are exactly the ones that one of the branches asks for; and the trim is
    reported as invalid exactly when an end is upstream.  Missing: ends that
    cannot be reached, see [C30_unreachable_refuted]. *)
Theorem C30_nodes_partial g entry (branches : list trim_branch) :
  (forall b q, In b branches -> end_of b q -> backwards g entry b q \/ reached g entry b q) ->
  match calculate_nodes g entry branches with
  | Nodes l =>
      NoDup l
      /\ (forall n, In n l <-> exists b, In b branches /\ selected g entry b n)
      /\ (forall b q, In b branches -> end_of b q -> ~ backwards g entry b q)
  | Invalid e =>
      exists b q, In b branches /\ end_of b q /\ backwards g entry b q
      /\ e = InvalidSpan (tp_id (tb_from b)) (Some (tp_id q))
  end.
Proof.
  intros He. unfold calculate_nodes.
  pose proof (tidy_spec (gather (calculate_branch g entry) branches)) as HT.
  pose proof (gather_spec (calculate_branch g entry) branches) as HG.
  destruct (tidy _) as [l|e].
  - destruct HT as (H0 & l' & El & Hl). rewrite El in HG. split; [exact H0|]. split.
    + intros n. rewrite Hl. split.
      * intros Hn. destruct (gather_in _ _ _ _ El Hn) as (b & ms & Hb & Hm & Hn').
        exists b. split; [exact Hb|].
        pose proof (calculate_branch_spec g entry b (fun q => He b q Hb)) as K. rewrite Hm in K.
        apply K. exact Hn'.
      * intros (b & Hb & Hs). destruct (HG b Hb) as (ms & Hm & Hi). apply Hi.
        pose proof (calculate_branch_spec g entry b (fun q => He b q Hb)) as K. rewrite Hm in K.
        apply K. exact Hs.
    + intros b q Hb Hq. destruct (HG b Hb) as (ms & Hm & _).
      pose proof (calculate_branch_spec g entry b (fun q => He b q Hb)) as K. rewrite Hm in K.
      apply K. exact Hq.
  - rewrite HT in HG. destruct HG as (b & Hb & Hf).
    pose proof (calculate_branch_spec g entry b (fun q => He b q Hb)) as K. rewrite Hf in K.
    destruct K as (q & K1 & K2 & K3). exists b, q. auto.
Qed.
Print Assumptions C30_nodes_partial.

(** A cycle 1 -> 2 -> 3 -> 1 entered from 0 at 1, with a way out 2 -> 4: what is
    downstream of 2 leaves out 1, which is between the entry and 2. *)
Definition ring : graph := [(0, [1]); (1, [2]); (2, [3; 4]); (3, [1])].

Example C30_nodes_case :
  calculate_nodes ring 0 [downstream (TrimPoint 2 false)] = Nodes [3; 4]
  /\ calculate_nodes ring 0 [between (TrimPoint 1 true) (TrimPoint 4 false)] = Nodes [1; 2; 3]
  /\ calculate_nodes ring 0 [between (TrimPoint 2 true) (TrimPoint 1 true)]
     = Invalid (InvalidSpan 2 (Some 1))
  /\ (forall b q, In b [between (TrimPoint 1 true) (TrimPoint 4 false)] -> end_of b q ->
        backwards ring 0 b q \/ reached ring 0 b q).
Proof.
  split; [reflexivity|]. split; [reflexivity|]. split; [reflexivity|].
  intros b q [<-|[]] (points & E & Hq). injection E as <-. destruct Hq as [<-|[]].
  right. exists [1; 2; 4]. cbn. split; [|split].
  - apply route_step with 2; [cbn; auto|]. apply route_step with 4; [cbn; auto|]. constructor.
  - intros x Hx (Hne & l & (HR & _ & HQ) & Hin).
    (* everything between 0 and 1 is 0 itself *)
    inversion HR as [?|? y l' ? HE HR']; subst.
    unfold edge in HE. cbn in HE. destruct HE as [<-|[]].
    inversion HR' as [?|? z l'' ? HE' HR'']; subst.
    + cbn in Hin. destruct Hx as [<-|[<-|[]]]; intuition lia.
    + apply HQ. destruct (route_head _ _ _ _ HR'') as (k & ->). cbn. auto.
  - cbn. lia.
Qed.

(** A single point selects that node alone. *)
Theorem C30_single g entry x : calculate_nodes g entry [single_point x] = Nodes [x].
Proof.
  assert (In x (entry_filter g entry (TrimPoint x true)) -> False) as Hf.
  { rewrite entry_filter_spec. apply before_not_point. }
  unfold calculate_nodes, single_point. cbn [gather calculate_branch tb_policy tb_from].
  unfold calculate_all_spans. cbn [gather].
  assert (calculate_span_nodes g entry (TrimPoint x true) (TrimPoint x true) = Nodes [x]) as ->.
  { unfold calculate_span_nodes. cbn [tp_id].
    assert (calculate_span g x x (entry_filter g entry (TrimPoint x true)) = [x]) as ->.
    { unfold calculate_span.
      assert (mem x (entry_filter g entry (TrimPoint x true)) = false) as ->
        by (apply mem_not; exact Hf).
      change (2 + length (targets g)) with (S (S (length (targets g)))).
      cbn [forward pop_last]. rewrite Nat.eqb_refl. unfold visit_fuel.
      cbn [visit pop_last mem existsb]. unfold parents. rewrite smap_set_eq. reflexivity. }
    reflexivity. }
  reflexivity.
Qed.
Print Assumptions C30_single.

Example C30_single_case : calculate_nodes ring 0 [single_point 3; single_point 1] = Nodes [1; 3].
Proof. reflexivity. Qed.

(** An end that cannot be reached is not reported, although it is for a span that
    is upside down: it is cleaned, even though nothing leads to it.  For every
    graph and every such pair of points. *)
Theorem C30_unreachable_refuted g entry p q :
  ~ backwards g entry (between p (TrimPoint q true)) (TrimPoint q true) ->
  ~ reached g entry (between p (TrimPoint q true)) (TrimPoint q true) ->
  calculate_nodes g entry [between p (TrimPoint q true)] = Nodes [q].
Proof.
  intros Hb Hr. unfold backwards, reached, between, span in *. cbn [tb_from tp_id] in *.
  unfold calculate_nodes. cbn [gather calculate_branch tb_policy tb_from].
  unfold calculate_branch. cbn [tb_policy tb_from].
  unfold calculate_all_spans. cbn [gather].
  assert (calculate_span_nodes g entry p (TrimPoint q true) = Nodes [q]) as ->; [|reflexivity].
  unfold calculate_span_nodes. cbn [tp_id].
  assert (~ In q (entry_filter g entry p)) as Hf by (rewrite entry_filter_spec; exact Hb).
  destruct (calculate_span_spec g (tp_id p) q (entry_filter g entry p) Hf) as [H0 H].
  assert (forall n, In n (calculate_span g (tp_id p) q (entry_filter g entry p)) <-> n = q) as H1.
  { intros n. rewrite H. split; [|auto]. intros [K|(l & K & _)]; [exact K|]. exfalso. apply Hr.
    exists l. destruct K as (K1 & K2 & K3). split; [exact K1|]. split; [|exact K3].
    intros x Hx Hbx. apply (K2 x Hx). apply entry_filter_spec. exact Hbx. }
  destruct (calculate_span _ _ _ _) as [|a [|b l]].
  - exfalso. apply (H1 q). reflexivity.
  - assert (a = q) as -> by (apply H1; now left). cbn [filter].
    assert (accept p q = true) as ->.
    { apply accept_spec. right. intros ->. apply Hr. exists [tp_id p]. apply way_here. }
    unfold accept. cbn. reflexivity.
  - exfalso. assert (a = q) by (apply H1; now left). assert (b = q) by (apply H1; right; now left).
    inversion H0 as [|? ? Hn _]; subst. apply Hn. now left.
Qed.
Print Assumptions C30_unreachable_refuted.

Example C30_unreachable_case :
  calculate_nodes [(0, [1]); (1, [2; 5]); (2, [3])] 0 [between (TrimPoint 2 true) (TrimPoint 5 true)]
  = Nodes [5].
Proof. reflexivity. Qed.

(** "any nodes which lead back to the initial point without also leading to one of
    the endpoints will not be included": they are.  Here 3 leads to the end 2
    only by way of the initial point 1. *)
Theorem C30_cycle_refuted :
  exists g entry p q c,
    calculate_nodes g entry [between (TrimPoint p true) (TrimPoint q true)] = Nodes [p; q; c]
    /\ c <> p /\ c <> q
    /\ (forall l, route (edge g) c l q -> In p l)
    /\ ~ before (edge g) entry p c.
Proof.
  exists [(0, [1]); (1, [2; 3]); (3, [1])], 0, 1, 2, 3.
  split; [reflexivity|]. split; [lia|]. split; [lia|]. split.
  - intros l HR. inversion HR as [?|? y l' ? HE HR']; subst.
    unfold edge in HE. cbn in HE. destruct HE as [<-|[]].
    destruct (route_head _ _ _ _ HR') as (k & ->). cbn. auto.
  - intros (_ & l & (HR & _ & HQ) & Hin).
    inversion HR as [?|? y l' ? HE HR']; subst.
    unfold edge in HE. cbn in HE. destruct HE as [<-|[]].
    inversion HR' as [?|? z l'' ? HE' HR'']; subst.
    + cbn in Hin. intuition lia.
    + apply HQ. destruct (route_head _ _ _ _ HR'') as (k & ->). cbn. auto.
Qed.
Print Assumptions C30_cycle_refuted.

(** "If the set of endpoints are empty, this behaves the same as single_point":
    it selects nothing. *)
Theorem C30_empty_refuted g entry p :
  calculate_nodes g entry [span p []] = Nodes []
  /\ calculate_nodes g entry [single_point (tp_id p)] = Nodes [tp_id p].
Proof. split; [reflexivity|]. apply C30_single. Qed.
Print Assumptions C30_empty_refuted.

(** ** C31 *)

Section C31.
Context {V : Type}.

(** In every run, whenever a trim passes a message on: it took that message
    before, its session was not cleaned there since, the message was not passed
    on before, every node that the branches select had reported that it is
    clean, and a disposal for the session went out just before. *)
Theorem C31_once (cf : tconfig) (es : list (tevent V)) l1 s v i l2 :
  tw_log (trun cf es) = l1 ++ LForward s v i :: l2 ->
  (exists a b, l1 = a ++ LTake s v i :: b /\ ~ In (LSweep s) b)
  /\ (forall s' v', ~ In (LForward s' v' i) l1)
  /\ (forall s' v' i', In (LTake s' v' i') l1 -> i' = i -> s' = s /\ v' = v)
  /\ (exists ns, calculate_nodes (tc_graph cf) (tc_entry cf) (tc_branches cf) = Nodes ns
        /\ forall n, In n ns -> In (LClean n i) l1)
  /\ (exists l, l1 = l ++ [LDispose s]).
Proof.
  intros H. pose proof (Inv_run cf es) as I.
  destruct (i_log _ _ _ I _ _ _ H) as (J1 & J2 & J3 & (n & J4) & J5).
  split; [exact J1|]. split; [exact J2|]. split; [|split; [|exact J5]].
  - intros s' v' i' Hi ->. apply live_in in J1.
    apply (i_uniq _ _ _ I s' v' s v i); rewrite H; apply in_app_iff; left; assumption.
  - unfold trimmed, calculated in J3, J4. destruct (calculate_nodes _ _ _) as [ns|e]; [|destruct J4].
    exists ns. auto.
Qed.

(** If the branches select at least one node, and every node reports sooner or
    later, then in every run, once no report and no finished cleanup is
    outstanding, every message that was taken has been passed on, unless its
    session has been cleaned at the trim.  Missing: [C31_stuck_refuted]. *)
Theorem C31_delivered_partial (cf : tconfig) (es : list (tevent V)) ns s v i :
  calculate_nodes (tc_graph cf) (tc_entry cf) (tc_branches cf) = Nodes ns ->
  ns <> [] ->
  (forall n, In n ns -> tc_reaction cf n <> Never) ->
  let w := trun cf es in
  tw_asked w = [] -> tw_finished w = [] ->
  In (LTake s v i) (tw_log w) ->
  In (LForward s v i) (tw_log w)
  \/ exists a b, tw_log w = a ++ LTake s v i :: b /\ In (LSweep s) b.
Proof.
  intros Hc Hne Hr w Ha Hf Ht. pose proof (Inv_run cf es) as I. fold w in I.
  assert (trimmed cf = ns) as Et by (unfold trimmed, calculated; rewrite Hc; reflexivity).
  destruct (i_take _ _ _ I s v i Ht) as [H|[H|H]]; [auto| |auto].
  exfalso. destruct (i_hold_wait _ _ _ I i s v H) as [(ms & K)|(c & K & _)].
  - destruct (i_await _ _ _ I i ms K) as (_ & _ & K3 & K4). rewrite Et in K3, K4.
    destruct ms as [|m ms]; [auto|].
    destruct (i_asked_all _ _ _ I i (m :: ms) m K (or_introl eq_refl)) as [[]|[L|(c & L & _)]].
    + apply (Hr m); [apply K3; now left|exact L].
    + rewrite Ha in L. destruct L.
  - rewrite Hf in K. destruct K.
Qed.

(** A disposal is only ever emitted together with the message, for its session. *)
Theorem C31_dispose (cf : tconfig) (es : list (tevent V)) l1 s l2 :
  tw_log (trun cf es) = l1 ++ LDispose s :: l2 ->
  exists v i l3, l2 = LForward s v i :: l3 /\ In (LTake s v i) l1.
Proof.
  intros H. pose proof (Inv_run cf es) as I.
  destruct (i_dispose _ _ _ I _ _ _ H) as (v & i & l3 & ->). exists v, i, l3.
  split; [reflexivity|].
  assert (tw_log (trun cf es) = (l1 ++ [LDispose s]) ++ LForward s v i :: l3) as H'
    by (rewrite <- app_assoc; exact H).
  destruct (i_log _ _ _ I _ _ _ H') as (J1 & _). apply live_in in J1.
  apply in_app_iff in J1. destruct J1 as [J1|[J1|[]]]; [exact J1|discriminate].
Qed.

(** When the branches are invalid, no message is ever held: each one cancels the
    scope for its own session, the first as well as all later ones. *)
Theorem C31_invalid (cf : tconfig) (es : list (tevent V)) e :
  calculate_nodes (tc_graph cf) (tc_entry cf) (tc_branches cf) = Invalid e ->
  let w := trun cf es in
  tw_holding w = []
  /\ (forall s v i, ~ In (LForward s v i) (tw_log w))
  /\ forall inputs s v, tw_inputs w = inputs ++ [(s, v)] ->
       tw_log (tstep cf w Execute) = tw_log w ++ [LCancel s]
       /\ tw_inputs (tstep cf w Execute) = inputs.
Proof.
  intros Hc w. pose proof (Inv_run cf es) as I. fold w in I.
  assert (trimmed cf = []) as Et by (unfold trimmed, calculated; rewrite Hc; reflexivity).
  assert (forall es : list (tevent V), tw_holding (trun cf es) = []) as Hh.
  { clear - Hc. intros es. unfold trun.
    pose proof (Inv_new cf (V := V)) as I. assert (tw_holding (@trim_new V) = []) as H by reflexivity.
    generalize dependent (@trim_new V).
    induction es as [|x es IH]; intros w I H; [exact H|]. cbn [fold_left]. apply IH.
    - apply Inv_step. exact I.
    - destruct x as [s v| |k again| |s]; cbn [tstep]; [exact H| | | |].
      + unfold execute. destruct (pop_last (tw_inputs w)) as [inputs [[s v]|]]; [|exact H].
        assert (match tw_nodes w with
                | Some r => r
                | None => calculate_nodes (tc_graph cf) (tc_entry cf) (tc_branches cf)
                end = Invalid e) as ->.
        { destruct (i_nodes _ _ _ I) as [E|E]; rewrite E; exact Hc. }
        exact H.
      + destruct (remove_nth k (tw_asked w)) as [[c cs]|]; [|exact H].
        unfold notify_cleaned. destruct again;
          cbn [add_log tw_awaiting tw_holding];
          destruct (alookup _ _) as [ns|]; try exact H; destruct (filter _ ns); exact H.
      + destruct (tw_finished w) as [|c cs]; [exact H|]. unfold finalize. cbn [tw_holding].
        rewrite H. cbn [alookup]. reflexivity.
      + unfold sweep, add_log. cbn [tw_holding]. rewrite H. reflexivity. }
  split; [apply Hh|]. split.
  - intros s v i H. apply in_split in H. destruct H as (l1 & l2 & H).
    destruct (i_log _ _ _ I _ _ _ H) as (_ & _ & _ & (n & J4) & _). rewrite Et in J4. destruct J4.
  - intros inputs s v Ei. cbn [tstep]. unfold execute. rewrite Ei, pop_last_app.
    assert (match tw_nodes w with
            | Some r => r
            | None => calculate_nodes (tc_graph cf) (tc_entry cf) (tc_branches cf)
            end = Invalid e) as ->.
    { destruct (i_nodes _ _ _ I) as [E|E]; rewrite E; exact Hc. }
    split; reflexivity.
Qed.

(** A trim passes no message on, in no run, when the branches select no node,
    when one of the selected nodes is an output that was never connected, or
    when the trim is among the nodes that it cleans. *)
Theorem C31_stuck_refuted (cf : tconfig) (es : list (tevent V)) ns :
  calculate_nodes (tc_graph cf) (tc_entry cf) (tc_branches cf) = Nodes ns ->
  ns = []
  \/ (exists n, In n ns /\ n <> tc_self cf /\ tc_reaction cf n = Never)
  \/ In (tc_self cf) ns ->
  forall s v i, ~ In (LForward s v i) (tw_log (trun cf es)).
Proof.
  intros Hc Hn s v i H. pose proof (Inv_run cf es) as I.
  assert (trimmed cf = ns) as Et by (unfold trimmed, calculated; rewrite Hc; reflexivity).
  apply in_split in H. destruct H as (l1 & l2 & H).
  destruct (i_log _ _ _ I _ _ _ H) as (J1 & J2 & J3 & (m & J4) & J5). rewrite Et in J3, J4.
  assert (forall x, In x ns -> exists a b, l1 = a ++ LClean x i :: b /\ justified cf a (LClean x i)) as K.
  { intros x Hx. specialize (J3 x Hx). apply in_split in J3. destruct J3 as (a & b & ->).
    exists a, b. split; [reflexivity|]. apply (i_log _ _ _ I a (LClean x i) (b ++ LForward s v i :: l2)).
    rewrite H, <- app_assoc. reflexivity. }
  destruct Hn as [->|[(n & N1 & N2 & N3)|N]].
  - destruct J4.
  - destruct (K n N1) as (a & b & _ & _ & K2 & _). exact (K2 N2 N3).
  - destruct (K _ N) as (a & b & El & _ & _ & K3). destruct (K3 eq_refl) as (s' & v' & a1 & b1 & Ea & Hs).
    destruct J1 as (a2 & b2 & E2 & Hns).
    assert (forall x y j z, l1 = x ++ LTake y j i :: z -> forall y' j', ~ In (LTake y' j' i) x) as U.
    { intros x y j z Ex. apply (i_log _ _ _ I x (LTake y j i) (z ++ LForward s v i :: l2)).
      rewrite H, Ex, <- app_assoc. reflexivity. }
    assert (l1 = a1 ++ LTake s' v' i :: (b1 ++ LClean (tc_self cf) i :: b)) as E1.
    { rewrite El, Ea, <- app_assoc. reflexivity. }
    clear - E1 E2 U Hs Hns.
    assert (a1 = a2 /\ LTake s' v' i = LTake s v i
            /\ b1 ++ LClean (tc_self cf) i :: b = b2) as (_ & Ht & Eb).
    { pose proof (U _ _ _ _ E1) as U1. pose proof (U _ _ _ _ E2) as U2. clear U Hs Hns.
      rewrite E1 in E2. clear E1. revert a2 E2 U2.
      induction a1 as [|x a1 IH]; intros [|y a2] E2 U2; cbn in E2.
      - injection E2 as -> -> ->. auto.
      - exfalso. injection E2 as <- _. apply (U2 s' v'). now left.
      - exfalso. injection E2 as -> _. apply (U1 s v). now left.
      - injection E2 as -> E2. destruct (IH (fun y' j' K => U1 y' j' (or_intror K)) a2 E2) as (-> & A & B).
        + intros y' j' K. apply (U2 y' j'). now right.
        + auto. }
    apply Hns. injection Ht as -> ->. rewrite <- Eb. apply in_app_iff. now left.
Qed.

(** ** C52: a trim that is busy counts as busy *)

(** While a trim holds a message, it tells that it is not reachable when nothing
    else is to come, so that a disposal elsewhere can end the scope: for every
    run, even when the message will be passed on. *)
Theorem C52_held_refuted (v : V) : exists (cf : tconfig) (es es' : list (tevent V)) s i,
  let w := trun cf es in
  In (i, (s, v)) (tw_holding w)
  /\ trim_is_reachable s false w = false
  /\ In (LForward s v i) (tw_log (trun cf (es ++ es'))).
Proof.
  exists (TConfig 9 [(0, [1])] 0 [single_point 1] (fun _ => Later)),
    [Arrive 7 v; Execute], [Report 0 false; Finish], 7, 0.
  split; [cbn; auto|]. split; [reflexivity|]. cbn. auto.
Qed.

End C31.

Print Assumptions C31_once.
Print Assumptions C31_delivered_partial.
Print Assumptions C31_dispose.
Print Assumptions C31_invalid.
Print Assumptions C31_stuck_refuted.
Print Assumptions C52_held_refuted.

(** Two sessions are trimmed at a time, and one of them is cleaned meanwhile. *)
Definition pair_cf : tconfig :=
  TConfig 9 [(0, [1]); (1, [2]); (2, [9])] 0 [between (TrimPoint 1 true) (TrimPoint 2 true)]
          (fun n => if n =? 2 then Later else Now).

Example C31_case :
  let w := trun pair_cf [Arrive 7 10; Arrive 8 20; Execute; Execute; Report 1 true; Report 0 false;
                         Finish; Sweep 7; Finish; Report 0 false] in
  tw_asked w = [] /\ tw_finished w = []
  /\ tw_log w = [LTake 7 10 0; LClean 1 0; LTake 8 20 1; LClean 1 1; LClean 2 1; LClean 2 0;
                 LDispose 8; LForward 8 20 1; LSweep 7; LClean 2 1]
  /\ calculate_nodes (tc_graph pair_cf) (tc_entry pair_cf) (tc_branches pair_cf) = Nodes [1; 2].
Proof. repeat split; reflexivity. Qed.

(** The three ways of getting stuck. *)
Example C31_stuck_case :
  let run cf := trun cf [Arrive 7 10; Execute; Finish; Execute; Finish] in
  let none := TConfig 9 [(0, [1])] 0 [span (TrimPoint 1 true) []] (fun _ => Now) in
  let loose := TConfig 9 [(0, [1]); (1, [2; 9])] 0 [downstream (TrimPoint 1 true)]
                       (fun n => if n =? 2 then Never else Now) in
  let self := TConfig 9 [(0, [1]); (1, [2]); (2, [9])] 0 [downstream (TrimPoint 2 true)] (fun _ => Now) in
  tw_holding (run none) = [(0, (7, 10))] /\ tw_finished (run none) = [] /\ tw_asked (run none) = []
  /\ calculate_nodes (tc_graph loose) 0 (tc_branches loose) = Nodes [1; 2; 9]
  /\ calculate_nodes (tc_graph self) 0 (tc_branches self) = Nodes [2; 9]
  /\ tw_log (run self) = [LTake 7 10 0; LClean 2 0; LSweep 7; LClean 9 0].
Proof. repeat split; reflexivity. Qed.

(** A trim with invalid branches. *)
Example C31_invalid_case :
  tw_log (trun (TConfig 9 ring 0 [between (TrimPoint 2 true) (TrimPoint 1 true)] (fun _ => Now))
               [Arrive 7 10; Arrive 8 20; Execute; Execute]) = [LCancel 7; LCancel 8].
Proof. reflexivity. Qed.
