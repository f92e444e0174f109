(** * The selected nodes are the ones on the routes of the specification *)

From Coq Require Import List Arith Bool Lia Sorting.Permutation.
From Verif Require Import Base TrimModel TrimSpec TrimProofs.
Import ListNotations.

Definition edge (g : graph) (x y : entity) : Prop := In y (down g x).

(** ** Routes *)

Lemma route_head E x l y : route E x l y -> exists l', l = x :: l'.
Proof. intros H. destruct H; eexists; reflexivity. Qed.

Lemma route_last E x l y : route E x l y -> exists l', l = l' ++ [y].
Proof.
  induction 1 as [x|x y l z HE HR IH]; [exists []; reflexivity|].
  destruct IH as (l' & ->). exists (x :: l'). reflexivity.
Qed.

Lemma route_snoc (E : entity -> entity -> Prop) x l y z : route E x l y -> E y z -> route E x (l ++ [z]) z.
Proof.
  induction 1 as [x|x y l w HE HR IH]; intros H.
  - apply route_step with z; [exact H|constructor].
  - cbn. apply route_step with y; auto.
Qed.

Lemma route_app E x l1 y l2 z : route E x l1 y -> route E y (y :: l2) z -> route E x (l1 ++ l2) z.
Proof.
  induction 1 as [x|x y l w HE HR IH]; intros H; [exact H|].
  cbn. apply route_step with y; auto.
Qed.

Lemma removelast_snoc {A} (l : list A) (x : A) : removelast (l ++ [x]) = l.
Proof. rewrite removelast_app by discriminate. cbn. apply app_nil_r. Qed.

Lemma in_removelast {A} (x : A) l : In x (removelast l) -> In x l.
Proof.
  destruct (rev_case l) as [->|(l' & y & ->)]; [intros []|].
  rewrite removelast_snoc. intros H. apply in_app_iff. now left.
Qed.

Lemma way_here E F x : way E F x [x] x.
Proof. split; [constructor|]. cbn. auto. Qed.

(** A way from [p] can be prolonged at its end, as long as it did not arrive. *)
Definition leads (E : entity -> entity -> Prop) (F : entity -> Prop) (p q n : entity) : Prop :=
  exists l, route E p l n /\ (forall x, In x (tl l) -> ~ F x) /\ ~ In q (removelast l).

Lemma leads_here E F p q : leads E F p q p.
Proof. exists [p]. split; [constructor|]. cbn. auto. Qed.

Lemma leads_step (E : entity -> entity -> Prop) (F : entity -> Prop) p q x y : leads E F p q x -> x <> q -> E x y -> ~ F y -> leads E F p q y.
Proof.
  intros (l & HR & HF & HQ) Hx HE Hy. exists (l ++ [y]). split; [apply (route_snoc _ _ _ _ _ HR HE)|].
  destruct (route_head _ _ _ _ HR) as (l' & E1). destruct (route_last _ _ _ _ HR) as (l'' & E2).
  split.
  - intros z Hz. rewrite E1 in Hz. cbn in Hz. apply in_app_iff in Hz. destruct Hz as [Hz|[<-|[]]]; [|exact Hy].
    apply HF. rewrite E1. exact Hz.
  - rewrite removelast_snoc. rewrite E2 in HQ |- *. rewrite removelast_snoc in HQ.
    rewrite in_app_iff. cbn. intros [H|[H|[]]]; congruence.
Qed.

Lemma way_leads E F p q l : way E F p l q -> leads E F p q q.
Proof. intros (H1 & H2 & H3). exists l. auto. Qed.

Lemma way_cons (E : entity -> entity -> Prop) (F : entity -> Prop) x y l q : E x y -> ~ F y -> x <> q -> way E F y l q -> way E F x (x :: l) q.
Proof.
  intros HE Hy Hx (HR & HF & HQ). destruct (route_head _ _ _ _ HR) as (l' & ->).
  split; [apply route_step with y; auto|]. split.
  - cbn. intros z [<-|Hz]; [exact Hy|]. apply HF. exact Hz.
  - change (removelast (x :: y :: l')) with (x :: removelast (y :: l')).
    intros [H|H]; [congruence|contradiction].
Qed.

Lemma leads_way E F p q n l : leads E F p q n -> way E F n l q -> on_way E F p q n.
Proof.
  intros (l1 & HR1 & HF1 & HQ1) (HR2 & HF2 & HQ2).
  destruct (route_head _ _ _ _ HR2) as (l2 & ->). cbn in HF2.
  exists (l1 ++ l2). split.
  - split; [apply route_app with n; assumption|].
    destruct (route_head _ _ _ _ HR1) as (l1' & E1). destruct (route_last _ _ _ _ HR1) as (l1'' & E2).
    split.
    + intros x Hx. rewrite E1 in Hx. cbn in Hx. apply in_app_iff in Hx. destruct Hx as [Hx|Hx]; [|auto].
      apply HF1. rewrite E1. exact Hx.
    + destruct (rev_case l2) as [->|(l2' & z & ->)].
      { rewrite app_nil_r. exact HQ1. }
      rewrite app_assoc, removelast_snoc, in_app_iff.
      rewrite app_comm_cons, removelast_snoc in HQ2.
      rewrite E2 in HQ1 |- *. rewrite removelast_snoc in HQ1. rewrite in_app_iff. cbn.
      intros [[H|[H|[]]]|H]; [contradiction| |].
      * apply HQ2. left. exact H.
      * apply HQ2. right. exact H.
  - destruct (route_last _ _ _ _ HR1) as (l1'' & ->). rewrite !in_app_iff. left. right. now left.
Qed.

(** ** The span *)

Section Span.
Context (g : graph) (p q : entity) (flt : list entity).

Let m := forward (2 + length (targets g)) g q flt (smap_set (fun _ => None) p []) [p].
Let E := edge g.
Let F := fun x => In x flt.

Lemma span_map_spec :
  m p <> None
  /\ (forall x y, m x <> None -> x <> q -> E x y -> ~ F y -> m y <> None /\ In x (parents m y))
  /\ (forall x, m x <> None -> leads E F p q x)
  /\ (forall x y, In x (parents m y) -> leads E F p q x /\ x <> q /\ E x y /\ ~ F y).
Proof.
  destruct (forward_spec g q flt (2 + length (targets g)) (smap_set (fun _ => None) p []) [p])
    as (A1 & A2 & A3).
  - cbn [length]. unfold vacant.
    pose proof (filter_length_le (fun x => match smap_set (fun _ => None) p [] x with
      None => true | Some _ => false end) (targets g)). lia.
  - intros x [<-|[]]. rewrite smap_set_eq. discriminate.
  - intros x y H1 H2. unfold smap_set in H1. destruct (Nat.eqb_spec x p) as [->|]; [|congruence].
    exfalso. apply H2. now left.
  - fold m in A1, A2, A3. split.
    { apply A1. rewrite smap_set_eq. discriminate. }
    split; [exact A2|].
    destruct (A3 (leads E F p q)) as [B1 B2].
    + intros x H. destruct (Nat.eq_dec x p) as [Hx|Hx]; [rewrite Hx; apply leads_here|].
      rewrite smap_set_neq in H by exact Hx. congruence.
    + intros x y H1 H2 H3 H4. apply leads_step with x; assumption.
    + split; [exact B1|]. apply B2. intros x y H. unfold parents, smap_set in H.
      destruct (y =? p); destruct H.
Qed.

Lemma parents_dom x : parents m x <> [] -> In x (targets g).
Proof.
  intros H. destruct (parents m x) as [|y ys] eqn:Ep; [congruence|].
  destruct span_map_spec as (_ & _ & _ & H4).
  destruct (H4 y x) as (_ & _ & H5 & _); [rewrite Ep; now left|].
  apply (down_targets g y x). exact H5.
Qed.

Lemma calculate_span_unfold : ~ In q flt ->
  calculate_span g p q flt = visit (visit_fuel (parents m) (targets g)) (parents m) [] [q] [].
Proof.
  intros H. unfold calculate_span. assert (mem q flt = false) as -> by (apply mem_not; exact H).
  reflexivity.
Qed.

Lemma calculate_span_blocked : In q flt -> calculate_span g p q flt = [].
Proof.
  intros H. unfold calculate_span. assert (mem q flt = true) as -> by (apply mem_in; exact H).
  reflexivity.
Qed.

(** The span contains its end in any case, and otherwise what is on the way. *)
Lemma calculate_span_spec : ~ In q flt ->
  NoDup (calculate_span g p q flt)
  /\ forall n, In n (calculate_span g p q flt) <-> n = q \/ on_way E F p q n.
Proof.
  intros Hq. rewrite calculate_span_unfold by exact Hq.
  destruct (visit_from (parents m) [] (targets g) parents_dom q) as (R0 & R1 & R2 & R3).
  destruct span_map_spec as (M1 & M2 & M3 & M4).
  set (r := visit _ _ _ _ _) in *. clearbody r.
  split; [exact R0|]. intros n. split.
  - intros Hn.
    assert (n = q \/ (leads E F p q n /\ exists l, way E F n l q)) as [->|(H1 & l & H2)].
    { revert n Hn. apply R3; [now left|].
      intros y z Hy Hz _. right. destruct (M4 z y Hz) as (L1 & L2 & L3 & L4).
      split; [exact L1|]. destruct Hy as [->|(_ & l & Hl)].
      - exists [z; q]. apply (way_cons E F z q [q] q L3 L4 L2). apply way_here.
      - exists (z :: l). apply (way_cons E F z y l q L3 L4 L2 Hl). }
    + now left.
    + right. apply leads_way with l; assumption.
  - destruct R1 as [[]|R1]. intros [->|(l & HW & Hn)]; [exact R1|].
    assert (forall x l, route E x l q -> m x <> None -> (forall y, In y (tl l) -> ~ F y) ->
      ~ In q (removelast l) -> forall y, In y l -> In y r) as K.
    { clear l HW Hn. intros x l HR. remember q as q' eqn:Eq in HR.
      induction HR as [x|x y l z HE HR IH]; intros Hx HF HQ w Hw.
      - subst. destruct Hw as [<-|[]]. exact R1.
      - destruct (route_head _ _ _ _ HR) as (l' & El).
        assert (x <> q) as Hxq.
        { intros ->. apply HQ. subst l. now left. }
        assert (~ F y) as Hy by (apply HF; subst l; now left).
        destruct (M2 x y Hx Hxq HE Hy) as [N1 N2].
        assert (forall v, In v l -> In v r) as IH'.
        { apply IH; [exact Eq|exact N1| |].
          - intros v Hv. apply HF. subst l. now right.
          - intros Hv. apply HQ. subst l. now right. }
        destruct Hw as [<-|Hw]; [|auto].
        assert (In y r) as Hyr by (apply IH'; subst l; now left).
        destruct (R2 y x Hyr N2) as [[]|H]. exact H. }
    destruct HW as (W1 & W2 & W3). apply (K p l); assumption.
Qed.

End Span.

(** ** The nodes before the initial point *)

Lemma entry_filter_spec g entry p x :
  In x (entry_filter g entry p) <-> before (edge g) entry (tp_id p) x.
Proof.
  unfold entry_filter, before. rewrite set_remove_in.
  destruct (calculate_span_spec g entry (tp_id p) []) as [_ H]; [intros []|].
  rewrite H. split.
  - intros [[->|H1] H2]; [congruence|]. split; [exact H2|]. exact H1.
  - intros [H1 H2]. split; [right; exact H2|exact H1].
Qed.

Lemma before_not_point g entry p : ~ before (edge g) entry p p.
Proof. intros [H _]. congruence. Qed.

Lemma on_way_ext E F G p q n : (forall x, F x <-> G x) -> on_way E F p q n <-> on_way E G p q n.
Proof.
  intros H. split; intros (l & (H1 & H2 & H3) & H4); exists l;
    (split; [split; [exact H1|split; [|exact H3]]|exact H4]); intros x Hx K; apply (H2 x Hx); apply H;
    exact K.
Qed.

Lemma accept_spec p x : accept p x = true <-> admitted (tp_id p) (tp_inclusive p) x.
Proof.
  unfold accept, admitted. rewrite orb_true_iff, negb_true_iff, Nat.eqb_neq. tauto.
Qed.

(** ** Downstream *)

Lemma calculate_downstream_spec g entry p :
  exists l, calculate_downstream g entry p = Nodes l
  /\ NoDup l
  /\ forall n, In n l <->
       admitted (tp_id p) (tp_inclusive p) n /\ after (edge g) entry (tp_id p) n.
Proof.
  unfold calculate_downstream.
  destruct (visit_from (down g) (entry_filter g entry p) (map fst g) (down_dom g) (tp_id p))
    as (R0 & R1 & R2 & R3).
  set (r := visit _ _ _ _ _) in *. clearbody r. cbv zeta in *.
  assert (~ In (tp_id p) (entry_filter g entry p)) as Hp.
  { rewrite entry_filter_spec. apply before_not_point. }
  destruct R1 as [R1|R1]; [contradiction|].
  destruct r as [|a r']; [destruct R1|].
  eexists. split; [reflexivity|]. split; [apply NoDup_filter; exact R0|].
  intros n. rewrite filter_In, accept_spec.
  cut (In n (a :: r') <-> after (edge g) entry (tp_id p) n); [tauto|]. split.
  - apply (R3 (after (edge g) entry (tp_id p))).
    + intros H. exists [tp_id p]. split; [constructor|]. intros x [<-|[]]. apply before_not_point.
    + intros y z (l & H1 & H2) Hz Hf. exists (l ++ [z]). split; [apply (route_snoc _ _ _ _ _ H1 Hz)|].
      intros x Hx. apply in_app_iff in Hx. destruct Hx as [Hx|[<-|[]]]; [auto|].
      rewrite <- entry_filter_spec. exact Hf.
  - intros (l & H1 & H2).
    assert (forall x l, route (edge g) x l n -> In x (a :: r') ->
      (forall y, In y l -> ~ before (edge g) entry (tp_id p) y) -> In n (a :: r')) as K.
    { clear - R2. intros x l HR. induction HR as [x|x y l z HE HR IH]; intros Hx Hb; [exact Hx|].
      apply IH.
      - destruct (R2 x y Hx HE) as [H|H]; [|exact H]. exfalso.
        destruct (route_head _ _ _ _ HR) as (l' & ->). apply (Hb y); [right; now left|].
        apply entry_filter_spec. exact H.
      - intros v Hv. apply Hb. now right. }
    apply (K (tp_id p) l); assumption.
Qed.

(** ** Spans to several points *)

Lemma calculate_span_nodes_spec g entry p q :
  (before (edge g) entry (tp_id p) (tp_id q) /\
     calculate_span_nodes g entry p q = Invalid (InvalidSpan (tp_id p) (Some (tp_id q))))
  \/ (~ before (edge g) entry (tp_id p) (tp_id q) /\
      exists l, calculate_span_nodes g entry p q = Nodes l
      /\ forall n, In n l <->
           admitted (tp_id p) (tp_inclusive p) n /\ admitted (tp_id q) (tp_inclusive q) n
           /\ (n = tp_id q \/ on_way (edge g) (before (edge g) entry (tp_id p)) (tp_id p) (tp_id q) n)).
Proof.
  unfold calculate_span_nodes.
  destruct (mem (tp_id q) (entry_filter g entry p)) eqn:Em.
  - left. apply mem_in in Em. split; [apply entry_filter_spec; exact Em|].
    rewrite calculate_span_blocked by exact Em. reflexivity.
  - right. apply mem_not in Em. split; [rewrite <- entry_filter_spec; exact Em|].
    destruct (calculate_span_spec g (tp_id p) (tp_id q) (entry_filter g entry p) Em) as [H0 H].
    set (r := calculate_span _ _ _ _) in *. clearbody r.
    assert (In (tp_id q) r) as Hq by (apply H; now left).
    destruct r as [|a r']; [destruct Hq|].
    eexists. split; [reflexivity|].
    intros n. rewrite filter_In, andb_true_iff, !accept_spec, H.
    rewrite (on_way_ext (edge g) _ (before (edge g) entry (tp_id p)) (tp_id p) (tp_id q) n).
    + tauto.
    + intros x. apply entry_filter_spec.
Qed.

Lemma gather_spec {A} (f : A -> trim_nodes) l :
  match gather f l with
  | Nodes ns => forall a, In a l -> exists ms, f a = Nodes ms /\ incl ms ns
  | Invalid e => exists a, In a l /\ f a = Invalid e
  end.
Proof.
  induction l as [|a l IH]; cbn; [intros a []|].
  destruct (f a) as [ms|e] eqn:E.
  - destruct (gather f l) as [ns|e].
    + intros b [<-|Hb].
      * exists ms. split; [exact E|]. apply incl_appl, incl_refl.
      * destruct (IH b Hb) as (ks & H1 & H2). exists ks. split; [exact H1|]. apply incl_appr. exact H2.
    + destruct IH as (b & H1 & H2). exists b. auto.
  - exists a. auto.
Qed.

Lemma gather_in {A} (f : A -> trim_nodes) l ns n : gather f l = Nodes ns -> In n ns ->
  exists a ms, In a l /\ f a = Nodes ms /\ In n ms.
Proof.
  revert ns. induction l as [|a l IH]; cbn; intros ns H Hn.
  - injection H as <-. destruct Hn.
  - destruct (f a) as [ms|e] eqn:E; [|discriminate].
    destruct (gather f l) as [ks|e]; [|discriminate]. injection H as <-.
    apply in_app_iff in Hn. destruct Hn as [Hn|Hn]; [exists a, ms; auto|].
    destruct (IH ks eq_refl Hn) as (b & js & H1 & H2 & H3). exists b, js. auto.
Qed.

(** ** Sorting *)

Lemma insert_sorted_in x y l : In y (insert_sorted x l) <-> y = x \/ In y l.
Proof.
  induction l as [|z l IH]; cbn; [intuition|].
  destruct (x <=? z); cbn; [intuition|]. rewrite IH. intuition.
Qed.

Lemma sort_in y l : In y (sort l) <-> In y l.
Proof. induction l as [|x l IH]; cbn; [tauto|]. rewrite insert_sorted_in, IH. intuition. Qed.

Lemma dedup_cons x y l : dedup (x :: y :: l) = if x =? y then dedup (y :: l) else x :: dedup (y :: l).
Proof. reflexivity. Qed.

Lemma dedup_in y l : In y (dedup l) <-> In y l.
Proof.
  induction l as [|x l IH]; [tauto|]. destruct l as [|z l]; [tauto|].
  rewrite dedup_cons. destruct (Nat.eqb_spec x z) as [->|Hxz].
  - rewrite IH. cbn. intuition.
  - cbn [In] in *. rewrite IH. tauto.
Qed.

Inductive ascending : list entity -> Prop :=
| asc_nil : ascending []
| asc_cons x l : (forall y, In y l -> x <= y) -> ascending l -> ascending (x :: l).

Lemma insert_ascending x l : ascending l -> ascending (insert_sorted x l).
Proof.
  induction 1 as [|y l Hy Hl IH]; cbn.
  - constructor; [intros y []|constructor].
  - destruct (Nat.leb_spec x y).
    + constructor; [|constructor; assumption]. intros z [<-|Hz]; [lia|]. specialize (Hy z Hz). lia.
    + constructor; [|exact IH]. intros z Hz. apply insert_sorted_in in Hz.
      destruct Hz as [->|Hz]; [lia|auto].
Qed.

Lemma sort_ascending l : ascending (sort l).
Proof. induction l as [|x l IH]; cbn; [constructor|]. apply insert_ascending. exact IH. Qed.

Lemma dedup_NoDup l : ascending l -> NoDup (dedup l).
Proof.
  induction 1 as [|x l Hx Hl IH]; [constructor|].
  destruct l as [|z l]; [constructor; [intros []|constructor]|].
  rewrite dedup_cons. destruct (Nat.eqb_spec x z) as [->|Hxz]; [exact IH|].
  constructor; [|exact IH]. rewrite dedup_in. intros [H|H]; [congruence|].
  inversion Hl as [|z' l' Hz Hl']; subst.
  specialize (Hx z (or_introl eq_refl)). specialize (Hz x H). lia.
Qed.

Lemma tidy_spec r :
  match tidy r with
  | Nodes l => NoDup l /\ exists l', r = Nodes l' /\ forall n, In n l <-> In n l'
  | Invalid e => r = Invalid e
  end.
Proof.
  destruct r as [l|e]; cbn; [|reflexivity]. split.
  - apply dedup_NoDup, sort_ascending.
  - exists l. split; [reflexivity|]. intros n. rewrite dedup_in. apply sort_in.
Qed.
