(** * Lemmas about the node selection of a trim *)

From Coq Require Import List Arith Bool Lia Sorting.Permutation.
From Verif Require Import Base TrimModel TrimSpec.
Import ListNotations.

Lemma mem_in x l : mem x l = true <-> In x l.
Proof.
  unfold mem. rewrite existsb_exists. split.
  - intros (y & Hy & E). apply Nat.eqb_eq in E. subst. exact Hy.
  - intros H. exists x. split; [exact H|apply Nat.eqb_refl].
Qed.

Lemma mem_not x l : mem x l = false <-> ~ In x l.
Proof.
  destruct (mem x l) eqn:E.
  - split; [discriminate|]. intros H. apply mem_in in E. contradiction.
  - split; [|reflexivity]. intros _ H. apply mem_in in H. congruence.
Qed.

Lemma set_add_in x y l : In y (set_add x l) <-> y = x \/ In y l.
Proof.
  unfold set_add. destruct (mem x l) eqn:E.
  - split; [now right|]. intros [->|H]; [apply mem_in; exact E|exact H].
  - rewrite in_app_iff. cbn. split.
    + intros [H|[H|[]]]; [now right|now left].
    + intros [H|H]; [right; now left|now left].
Qed.

Lemma set_remove_in x y l : In y (set_remove x l) <-> In y l /\ y <> x.
Proof.
  unfold set_remove. rewrite filter_In. split; intros [H1 H2]; (split; [exact H1|]).
  - destruct (Nat.eqb_spec x y); [discriminate|congruence].
  - destruct (Nat.eqb_spec x y); [congruence|reflexivity].
Qed.

Lemma down_targets g x y : In y (down g x) -> In y (targets g).
Proof.
  unfold targets. induction g as [|[z ts] g IH]; cbn; [tauto|].
  destruct (x =? z); intros H; apply in_app_iff; auto.
Qed.

Lemma down_dom g x : down g x <> [] -> In x (map fst g).
Proof.
  induction g as [|[z ts] g IH]; cbn; [congruence|].
  destruct (Nat.eqb_spec x z); intros H; [left; congruence|right; auto].
Qed.

(** ** Visiting *)

(** What remains to be pushed: the successors of the nodes of the domain that
    were not visited. *)
Fixpoint todo (succ : entity -> list entity) (nodes dom : list entity) : nat :=
  match dom with
  | [] => 0
  | x :: dom' => (if mem x nodes then 0 else length (succ x)) + todo succ nodes dom'
  end.

Lemma todo_mono succ nodes top dom : todo succ (nodes ++ [top]) dom <= todo succ nodes dom.
Proof.
  induction dom as [|x dom IH]; cbn [todo]; [lia|].
  destruct (mem x nodes) eqn:E.
  - assert (mem x (nodes ++ [top]) = true) as -> by
      (apply mem_in; apply in_app_iff; left; apply mem_in; exact E). lia.
  - destruct (mem x (nodes ++ [top])); lia.
Qed.

Lemma todo_visit succ nodes top dom : ~ In top nodes -> (succ top <> [] -> In top dom) ->
  length (succ top) + todo succ (nodes ++ [top]) dom <= todo succ nodes dom.
Proof.
  intros Hn Hd. destruct (succ top) as [|y ys] eqn:E.
  - cbn. apply todo_mono.
  - assert (In top dom) as H by (apply Hd; discriminate). rewrite <- E. clear Hd.
    induction dom as [|x dom IH]; [contradiction|]. cbn [todo].
    destruct (Nat.eq_dec x top) as [->|Hx].
    + assert (mem top nodes = false) as -> by (apply mem_not; exact Hn).
      assert (mem top (nodes ++ [top]) = true) as -> by
        (apply mem_in; apply in_app_iff; right; now left).
      pose proof (todo_mono succ nodes top dom) as H2. lia.
    + destruct H as [H|H]; [congruence|]. specialize (IH H).
      assert (mem x (nodes ++ [top]) = mem x nodes) as ->.
      { destruct (mem x nodes) eqn:E2.
        - apply mem_in. apply in_app_iff. left. apply mem_in. exact E2.
        - apply mem_not. rewrite in_app_iff. cbn. intros [H2|[H2|[]]]; [|congruence].
          apply mem_in in H2. congruence. }
      lia.
Qed.

Section Visit.
Context (succ : entity -> list entity) (skip dom : list entity).
Context (Hdom : forall x, succ x <> [] -> In x dom).

Lemma visit_spec fuel queue nodes :
  length queue + todo succ nodes dom < fuel ->
  NoDup nodes ->
  (forall x y, In x nodes -> In y (succ x) -> In y skip \/ In y nodes \/ In y queue) ->
  let r := visit fuel succ skip queue nodes in
  NoDup r
  /\ incl nodes r
  /\ (forall x, In x queue -> In x skip \/ In x r)
  /\ (forall x y, In x r -> In y (succ x) -> In y skip \/ In y r)
  /\ (forall P : entity -> Prop,
        (forall x, In x nodes -> P x) ->
        (forall x, In x queue -> ~ In x skip -> P x) ->
        (forall x y, P x -> In y (succ x) -> ~ In y skip -> P y) ->
        forall x, In x r -> P x).
Proof.
  revert queue nodes. induction fuel as [|fuel IH]; intros queue nodes Hf Hnd Hc; [lia|].
  cbn [visit]. destruct (rev_case queue) as [->|(q & top & ->)].
  - cbn. split; [exact Hnd|]. split; [apply incl_refl|]. split; [intros x []|]. split.
    + intros x y Hx Hy. destruct (Hc x y Hx Hy) as [H|[H|[]]]; auto.
    + intros P HP _ _. exact HP.
  - rewrite pop_last_app. rewrite app_length in Hf. cbn in Hf.
    destruct (mem top skip) eqn:E1.
    { apply mem_in in E1.
      destruct (IH q nodes ltac:(lia) Hnd) as (R0 & R1 & R2 & R3 & R4).
      - intros x y Hx Hy. destruct (Hc x y Hx Hy) as [H|[H|H]]; auto.
        apply in_app_iff in H. destruct H as [H|[H|[]]]; [auto|subst; auto].
      - split; [exact R0|]. split; [exact R1|]. split.
        { intros x Hx. apply in_app_iff in Hx. destruct Hx as [Hx|[Hx|[]]]; [auto|subst; auto]. }
        split; [exact R3|]. intros P H1 H2 H3. apply R4; auto.
        intros x Hx. apply H2. apply in_app_iff. now left. }
    apply mem_not in E1. destruct (mem top nodes) eqn:E2.
    { apply mem_in in E2.
      destruct (IH q nodes ltac:(lia) Hnd) as (R0 & R1 & R2 & R3 & R4).
      - intros x y Hx Hy. destruct (Hc x y Hx Hy) as [H|[H|H]]; auto.
        apply in_app_iff in H. destruct H as [H|[H|[]]]; [auto|subst; auto].
      - split; [exact R0|]. split; [exact R1|]. split.
        { intros x Hx. apply in_app_iff in Hx. destruct Hx as [Hx|[Hx|[]]]; [auto|].
          subst. right. apply R1. exact E2. }
        split; [exact R3|]. intros P H1 H2 H3. apply R4; auto.
        intros x Hx. apply H2. apply in_app_iff. now left. }
    apply mem_not in E2.
    pose proof (todo_visit succ nodes top dom E2 (Hdom top)) as Ht.
    destruct (IH (q ++ succ top) (nodes ++ [top])) as (R0 & R1 & R2 & R3 & R4).
    + rewrite app_length. lia.
    + apply NoDup_app_comm_snoc; assumption.
    + intros x y Hx Hy. rewrite !in_app_iff. apply in_app_iff in Hx. destruct Hx as [Hx|[Hx|[]]].
      * destruct (Hc x y Hx Hy) as [H|[H|H]]; auto.
        apply in_app_iff in H. destruct H as [H|[H|[]]]; [auto|subst; cbn; auto].
      * subst. auto.
    + split; [exact R0|]. split.
      { intros x Hx. apply R1. apply in_app_iff. now left. }
      split.
      { intros x Hx. apply in_app_iff in Hx. destruct Hx as [Hx|[Hx|[]]].
        - apply R2. apply in_app_iff. now left.
        - subst. right. apply R1. apply in_app_iff. right. now left. }
      split; [exact R3|]. intros P H1 H2 H3.
      assert (P top) as HT.
      { apply H2; [|exact E1]. apply in_app_iff. right. now left. }
      apply R4; auto.
      * intros x Hx. apply in_app_iff in Hx. destruct Hx as [Hx|[Hx|[]]]; [auto|subst; exact HT].
      * intros x Hx Hs. apply in_app_iff in Hx. destruct Hx as [Hx|Hx].
        -- apply H2; [|exact Hs]. apply in_app_iff. now left.
        -- apply H3 with top; auto.
Qed.

Lemma todo_nil : todo succ [] dom = list_sum (map (fun x => length (succ x)) dom).
Proof.
  clear Hdom. induction dom as [|x l IH]; [reflexivity|]. cbn [todo map]. rewrite IH. reflexivity.
Qed.

Lemma visit_from x :
  let r := visit (visit_fuel succ dom) succ skip [x] [] in
  NoDup r
  /\ (In x skip \/ In x r)
  /\ (forall y z, In y r -> In z (succ y) -> In z skip \/ In z r)
  /\ (forall P : entity -> Prop,
        (~ In x skip -> P x) ->
        (forall y z, P y -> In z (succ y) -> ~ In z skip -> P z) ->
        forall y, In y r -> P y).
Proof.
  destruct (visit_spec (visit_fuel succ dom) [x] []) as (R0 & R1 & R2 & R3 & R4).
  - unfold visit_fuel. rewrite todo_nil. cbn. lia.
  - constructor.
  - intros y z [].
  - split; [exact R0|]. split; [apply R2; now left|]. split; [exact R3|].
    intros P H1 H2. apply R4; auto.
    + intros y [].
    + intros y [->|[]]. exact H1.
Qed.

End Visit.

(** ** Exploring forward *)

Definition vacant (m : span_map) (l : list entity) : nat :=
  length (filter (fun x => match m x with None => true | Some _ => false end) l).

Lemma vacant_set_some m x ps l : m x <> None -> vacant (smap_set m x ps) l = vacant m l.
Proof.
  intros H. unfold vacant. f_equal. apply filter_ext. intros y. unfold smap_set.
  destruct (Nat.eqb_spec y x) as [->|]; [|reflexivity]. destruct (m x); congruence.
Qed.

Lemma vacant_set_le m x ps l : vacant (smap_set m x ps) l <= vacant m l.
Proof.
  unfold vacant. induction l as [|y l IH]; cbn; [lia|].
  unfold smap_set at 1. destruct (y =? x).
  - destruct (m y); cbn; lia.
  - destruct (m y); cbn; lia.
Qed.

Lemma vacant_set_none m x ps l : m x = None -> In x l ->
  S (vacant (smap_set m x ps) l) <= vacant m l.
Proof.
  intros H. induction l as [|y l IH]; [intros []|]. intros Hx.
  unfold vacant in *. cbn. unfold smap_set at 1. destruct (Nat.eqb_spec y x) as [->|Hy].
  - rewrite H. cbn. apply le_n_S. apply (vacant_set_le m x ps l).
  - destruct Hx as [Hx|Hx]; [congruence|]. specialize (IH Hx).
    destruct (m y); cbn; lia.
Qed.

Lemma smap_set_eq m x ps : smap_set m x ps x = Some ps.
Proof. unfold smap_set. now rewrite Nat.eqb_refl. Qed.

Lemma smap_set_neq m x ps y : y <> x -> smap_set m x ps y = m y.
Proof. intros H. unfold smap_set. destruct (Nat.eqb_spec y x); congruence. Qed.

Section Forward.
Context (g : graph) (to_point : entity) (flt : list entity).

(** One expansion. *)
Lemma expand_spec top nexts : forall m queue,
  incl nexts (targets g) ->
  let (m', q') := expand top flt nexts m queue in
  length q' + vacant m' (targets g) <= length queue + vacant m (targets g)
  /\ (forall x, m x <> None -> m' x <> None)
  /\ (forall x y, In x (parents m y) -> In x (parents m' y))
  /\ (forall y, In y nexts -> ~ In y flt -> m' y <> None /\ In top (parents m' y))
  /\ (forall x y, In x (parents m' y) -> In x (parents m y) \/ (x = top /\ In y nexts /\ ~ In y flt))
  /\ (forall y, m' y <> None -> m y <> None \/ (In y nexts /\ ~ In y flt /\ In y q'))
  /\ (forall y, In y queue -> In y q')
  /\ (forall y, In y q' -> In y queue \/ (In y nexts /\ ~ In y flt)).
Proof.
  induction nexts as [|next nexts IH]; intros m queue Hi; cbn [expand].
  - split; [lia|]. split; [auto|]. split; [auto|]. split; [intros y []|].
    split; [auto|]. split; [auto|]. split; auto.
  - assert (incl nexts (targets g)) as Hi' by (intros y Hy; apply Hi; now right).
    destruct (mem next flt) eqn:E.
    + apply mem_in in E. specialize (IH m queue Hi').
      destruct (expand top flt nexts m queue) as [m' q'].
      destruct IH as (A1 & A2 & A3 & A4 & A5 & A6 & A7 & A8).
      split; [exact A1|]. split; [exact A2|]. split; [exact A3|]. split.
      { intros y [->|Hy]; [contradiction|auto]. }
      split. { intros x y H. destruct (A5 x y H) as [H1|(H1 & H2 & H3)]; [auto|right; cbn; auto]. }
      split. { intros y H. destruct (A6 y H) as [H1|(H1 & H2 & H3)]; [auto|right; cbn; auto]. }
      split; [exact A7|].
      intros y H. destruct (A8 y H) as [H1|(H1 & H2)]; [auto|right; cbn; auto].
    + apply mem_not in E. destruct (m next) as [ps|] eqn:Em.
      * specialize (IH (smap_set m next (set_add top ps)) queue Hi').
        destruct (expand top flt nexts _ queue) as [m' q'].
        destruct IH as (A1 & A2 & A3 & A4 & A5 & A6 & A7 & A8).
        assert (forall x y, In x (parents m y) ->
          In x (parents (smap_set m next (set_add top ps)) y)) as K.
        { intros x y. unfold parents. destruct (Nat.eq_dec y next) as [->|Hy].
          - rewrite smap_set_eq, Em. intros H. apply set_add_in. now right.
          - rewrite smap_set_neq by exact Hy. auto. }
        assert (In top (parents (smap_set m next (set_add top ps)) next)) as KT.
        { unfold parents. rewrite smap_set_eq. apply set_add_in. now left. }
        split. { rewrite vacant_set_some in A1 by congruence. exact A1. }
        split. { intros x H. apply A2. unfold smap_set. destruct (x =? next); congruence. }
        split. { intros x y H. apply A3. apply K. exact H. }
        split.
        { intros y [<-|Hy] Hf; [|auto]. split; [|apply A3; exact KT].
          apply A2. rewrite smap_set_eq. discriminate. }
        split.
        { intros x y H. destruct (A5 x y H) as [H1|(H1 & H2 & H3)]; [|right; cbn; auto].
          unfold parents in H1 |- *. destruct (Nat.eq_dec y next) as [->|Hy].
          - rewrite smap_set_eq in H1. rewrite Em. apply set_add_in in H1.
            destruct H1 as [->|H1]; [right; cbn; auto|auto].
          - rewrite smap_set_neq in H1 by exact Hy. auto. }
        split.
        { intros y H. destruct (A6 y H) as [H1|(H1 & H2 & H3)]; [|right; cbn; auto].
          left. unfold smap_set in H1. destruct (Nat.eqb_spec y next) as [->|]; congruence. }
        split; [exact A7|].
        intros y H. destruct (A8 y H) as [H1|(H1 & H2)]; [auto|right; cbn; auto].
      * specialize (IH (smap_set m next [top]) (queue ++ [next]) Hi').
        destruct (expand top flt nexts _ (queue ++ [next])) as [m' q'].
        destruct IH as (A1 & A2 & A3 & A4 & A5 & A6 & A7 & A8).
        assert (In top (parents (smap_set m next [top]) next)) as KT.
        { unfold parents. rewrite smap_set_eq. now left. }
        split.
        { rewrite app_length in A1. cbn in A1.
          assert (In next (targets g)) as Hn by (apply Hi; now left).
          pose proof (vacant_set_none m next [top] (targets g) Em Hn). lia. }
        split. { intros x H. apply A2. unfold smap_set. destruct (x =? next); congruence. }
        split.
        { intros x y H. apply A3. unfold parents in H |- *. destruct (Nat.eq_dec y next) as [->|Hy].
          - rewrite Em in H. destruct H.
          - rewrite smap_set_neq by exact Hy. exact H. }
        split.
        { intros y [<-|Hy] Hf; [|auto]. split; [|apply A3; exact KT].
          apply A2. rewrite smap_set_eq. discriminate. }
        split.
        { intros x y H. destruct (A5 x y H) as [H1|(H1 & H2 & H3)]; [|right; cbn; auto].
          unfold parents in H1 |- *. destruct (Nat.eq_dec y next) as [->|Hy].
          - rewrite smap_set_eq in H1. rewrite Em. destruct H1 as [->|[]]. right; cbn; auto.
          - rewrite smap_set_neq in H1 by exact Hy. auto. }
        split.
        { intros y H. destruct (A6 y H) as [H1|(H1 & H2 & H3)]; [|right; cbn; auto].
          destruct (Nat.eq_dec y next) as [->|Hy].
          - right. split; [now left|]. split; [exact E|]. apply A7. apply in_app_iff. right. now left.
          - rewrite smap_set_neq in H1 by exact Hy. auto. }
        split. { intros y H. apply A7. apply in_app_iff. now left. }
        intros y H. destruct (A8 y H) as [H1|(H1 & H2)]; [|right; cbn; auto].
        apply in_app_iff in H1. destruct H1 as [H1|[H1|[]]]; [auto|].
        subst. right. cbn. auto.
Qed.

Lemma forward_spec fuel : forall m queue,
  length queue + vacant m (targets g) < fuel ->
  (forall x, In x queue -> m x <> None) ->
  (forall x y, m x <> None -> ~ In x queue -> x <> to_point -> In y (down g x) -> ~ In y flt ->
     m y <> None /\ In x (parents m y)) ->
  let r := forward fuel g to_point flt m queue in
  (forall x, m x <> None -> r x <> None)
  /\ (forall x y, r x <> None -> x <> to_point -> In y (down g x) -> ~ In y flt ->
        r y <> None /\ In x (parents r y))
  /\ (forall P : entity -> Prop,
        (forall x, m x <> None -> P x) ->
        (forall x y, P x -> x <> to_point -> In y (down g x) -> ~ In y flt -> P y) ->
        (forall x, r x <> None -> P x)
        /\ ((forall x y, In x (parents m y) -> P x /\ x <> to_point /\ In y (down g x) /\ ~ In y flt) ->
            forall x y, In x (parents r y) -> P x /\ x <> to_point /\ In y (down g x) /\ ~ In y flt)).
Proof.
  induction fuel as [|fuel IH]; intros m queue Hf Hq Hc; [lia|].
  cbn [forward]. destruct (rev_case queue) as [->|(q & top & ->)].
  - cbn. split; [auto|]. split.
    + intros x y H1 H2 H3 H4. apply Hc; auto.
    + intros P H1 H2. split; auto.
  - rewrite pop_last_app. rewrite app_length in Hf. cbn in Hf.
    destruct (Nat.eqb_spec top to_point) as [->|Ht].
    + destruct (IH m q) as (A1 & A2 & A3).
      * lia.
      * intros x Hx. apply Hq. apply in_app_iff. now left.
      * intros x y H1 H2 H3 H4 H5. apply Hc; auto.
        rewrite in_app_iff. cbn. intros [H|[H|[]]]; [auto|congruence].
      * split; [exact A1|]. split; [exact A2|]. exact A3.
    + assert (incl (down g top) (targets g)) as Hi by (intros y; apply down_targets).
      pose proof (expand_spec top (down g top) m q Hi) as HE.
      destruct (expand top flt (down g top) m q) as [m' q'].
      destruct HE as (B1 & B2 & B3 & B4 & B5 & B6 & B7 & B8).
      assert (m top <> None) as Htop by (apply Hq; apply in_app_iff; right; now left).
      destruct (IH m' q') as (A1 & A2 & A3).
      * lia.
      * intros x Hx. destruct (B8 x Hx) as [H|[H H2]].
        -- apply B2. apply Hq. apply in_app_iff. now left.
        -- apply (B4 x H H2).
      * intros x y H1 H2 H3 H4 H5.
        destruct (Nat.eq_dec x top) as [->|Hx]; [apply B4; assumption|].
        destruct (B6 x H1) as [H|(H & H' & H'')]; [|contradiction].
        assert (~ In x (q ++ [top])) as Hnq.
        { rewrite in_app_iff. cbn. intros [K|[K|[]]]; [|congruence]. apply H2. apply B7. exact K. }
        destruct (Hc x y H Hnq H3 H4 H5) as [K1 K2]. split; [apply B2; exact K1|].
        apply B3. exact K2.
      * split; [intros x H; apply A1; apply B2; exact H|]. split; [exact A2|].
        intros P H1 H2. destruct (A3 P) as [C1 C2].
        -- intros x Hx. destruct (B6 x Hx) as [H|(H & H' & H'')]; [auto|].
           apply H2 with top; auto.
        -- exact H2.
        -- split; [exact C1|]. intros H3. apply C2. intros x y Hx.
           destruct (B5 x y Hx) as [H|(-> & H & H')]; [auto|]. auto.
Qed.

End Forward.
