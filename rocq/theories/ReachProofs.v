(** Lemmas about the reachability check. *)
From Verif Require Import Base ReachModel ReachSpec.

(** One application of the rules. *)
Definition fires (g : emap rkind) (P : entity -> Prop) (n : entity) : Prop :=
  match g n with
  | Some (KWork tests inputs) => works tests \/ exists m, listed m inputs /\ P m
  | Some (KService tests wf inputs) =>
      works tests \/ (exists sc, wf = Some sc /\ P sc) \/ exists m, listed m inputs /\ P m
  | Some (KScope has inner inputs) =>
      has = Some true \/ inner = Some RYes \/ exists m, listed m inputs /\ P m
  | Some (KJoin inputs) =>
      forall m c, In (m, c) inputs -> P m \/ exists k, c = Some (S k)
  | Some (KBuffer closed gates accessors has inputs) =>
      (exists m u, In (m, u) accessors /\ (u = Some true \/ P m)) \/
      ((closed = false \/ exists gate, In (gate, true) gates /\ P gate) /\
       (has = Some true \/ exists m, listed m inputs /\ P m))
  | Some (KCollect has min held told inputs) =>
      has = Some true \/ (exists h, held = Some h /\ told = true /\ min <= h) \/
      exists m, listed m inputs /\ P m
  | None => False
  end.

Lemma fires_trig g n : fires g (triggerable g) n -> triggerable g n.
Proof.
  unfold fires. destruct (g n) as [[tests inputs|tests wf inputs|has inner inputs|inputs
    |closed gates accessors has inputs|has min held told inputs]|] eqn:E; intros H.
  - destruct H as [H|[m [H1 H2]]]; [eapply T_work; eassumption|eapply T_work_in; eassumption].
  - destruct H as [H|[[sc [-> H]]|[m [H1 H2]]]];
      [eapply T_service; eassumption|eapply T_service_wf; eassumption|eapply T_service_in; eassumption].
  - destruct H as [->|[->|[m [H1 H2]]]];
      [eapply T_scope; eassumption|eapply T_scope_inner; eassumption|eapply T_scope_in; eassumption].
  - eapply T_join; eassumption.
  - destruct H as [[m [u [H1 H2]]]|[[->|[gate [H1 H2]]] H3]].
    + eapply T_buffer_access; eassumption.
    + eapply T_buffer_open; eassumption.
    + destruct closed; [eapply T_buffer_gate; eassumption|eapply T_buffer_open; eassumption].
  - destruct H as [->|[[h [-> [-> H]]]|[m [H1 H2]]]];
      [eapply T_collect; eassumption|eapply T_collect_held; eassumption|eapply T_collect_in; eassumption].
  - destruct H.
Qed.

(** Anything closed under the rules contains what can be triggered. *)
Lemma trig_least g (P : entity -> Prop) :
  (forall n, fires g P n -> P n) -> forall n, triggerable g n -> P n.
Proof.
  intros HP. fix IH 2. intros n H. apply HP. unfold fires.
  destruct H as [n tests inputs E H|n tests inputs m E H1 H2|n tests wf inputs E H|n tests sc inputs E H
    |n tests wf inputs m E H1 H2|n inner inputs E|n has inputs E|n has inner inputs m E H1 H2
    |n inputs E H|n closed gates accessors has inputs m u E H1 H2|n gates accessors has inputs E H
    |n gates accessors has inputs gate E H1 H2 H3|n min held told inputs E|n has min h inputs E H
    |n has min held told inputs m E H1 H2]; rewrite E.
  - left. exact H.
  - right. exists m. split; [exact H1|apply IH, H2].
  - left. exact H.
  - right. left. exists sc. split; [reflexivity|apply IH, H].
  - right. right. exists m. split; [exact H1|apply IH, H2].
  - left. reflexivity.
  - right. left. reflexivity.
  - right. right. exists m. split; [exact H1|apply IH, H2].
  - intros m c Hin. destruct (H m c Hin) as [Ht|Hk]; [left; apply IH, Ht|right; exact Hk].
  - left. exists m, u. split; [exact H1|]. destruct H2 as [H2|H2]; [left; exact H2|right; apply IH, H2].
  - right. split; [left; reflexivity|]. destruct H as [H|[m [Ha Hb]]]; [left; exact H|].
    right. exists m. split; [exact Ha|apply IH, Hb].
  - right. split; [right; exists gate; split; [exact H1|apply IH, H2]|].
    destruct H3 as [H3|[m [Ha Hb]]]; [left; exact H3|]. right. exists m. split; [exact Ha|apply IH, Hb].
  - left. reflexivity.
  - right. left. exists h. auto.
  - right. right. exists m. split; [exact H1|apply IH, H2].
Qed.

Lemma fires_mono g (P Q : entity -> Prop) n :
  (forall m, consults g n m -> P m -> Q m) -> fires g P n -> fires g Q n.
Proof.
  unfold fires, consults. intros HPQ H. destruct (g n) as [[tests inputs|tests wf inputs|has inner inputs|inputs
    |closed gates accessors has inputs|has min held told inputs]|]; [..|exact H].
  - destruct H as [H|[m [H1 H2]]]; [left; exact H|right; exists m; auto].
  - destruct H as [H|[[sc [-> H]]|[m [H1 H2]]]]; [left; exact H|right; left; exists sc; auto|right; right; exists m; auto].
  - destruct H as [H|[H|[m [H1 H2]]]]; [left; exact H|right; left; exact H|right; right; exists m; auto].
  - intros m c Hin. destruct (H m c Hin) as [Ht|Hk]; [left|right; exact Hk].
    apply HPQ; [|exact Ht]. apply (in_map fst) in Hin. exact Hin.
  - destruct H as [[m [u [H1 H2]]]|[H1 H2]].
    + left. exists m, u. split; [exact H1|]. destruct H2 as [H2|H2]; [left; exact H2|right].
      apply HPQ; [|exact H2]. right. left. apply (in_map fst) in H1. exact H1.
    + right. split.
      * destruct H1 as [H1|[gate [H1 H3]]]; [left; exact H1|right]. exists gate. split; [exact H1|].
        apply HPQ; [|exact H3]. left. apply (in_map fst) in H1. exact H1.
      * destruct H2 as [H2|[m [Ha Hb]]]; [left; exact H2|right]. exists m. auto.
  - destruct H as [H|[H|[m [H1 H2]]]]; [left; exact H|right; left; exact H|right; right; exists m; auto].
Qed.

Lemma trig_fires g n : triggerable g n -> fires g (triggerable g) n.
Proof.
  revert n. apply (trig_least g (fun n => fires g (triggerable g) n)).
  intros n H. eapply fires_mono; [|exact H]. intros m _ Hm. apply fires_trig, Hm.
Qed.

Lemma run_tests_yes tests : run_tests tests = RYes -> works tests.
Proof.
  induction tests as [|[[|]|] tests IH]; cbn; intros H; try discriminate.
  - left. reflexivity.
  - right. apply IH, H.
Qed.
Lemma run_tests_no tests : run_tests tests = RNo -> ~ works tests.
Proof.
  induction tests as [|[[|]|] tests IH]; cbn; intros H; try discriminate.
  - intros [].
  - intros [H1|H1]; [discriminate|exact (IH H H1)].
Qed.
Lemma run_tests_nofuel tests : run_tests tests <> RFuel.
Proof. induction tests as [|[[|]|] tests IH]; cbn; try discriminate. exact IH. Qed.
Lemma run_tests_sound tests : ~ In None tests -> run_tests tests = RYes \/ run_tests tests = RNo.
Proof.
  induction tests as [|[[|]|] tests IH]; cbn; intros H; auto.
  exfalso. apply H. left. reflexivity.
Qed.

(** * A yes is right *)

Definition trues (g : emap rkind) (v : emap bool) : Prop := forall m, v m = Some true -> triggerable g m.
Definition chk_sound (g : emap rkind) (chk : emap bool -> entity -> emap bool * rres) : Prop :=
  forall v n, trues g v -> trues g (fst (chk v n)) /\ (snd (chk v n) = RYes -> triggerable g n).

Lemma any_sound g chk : chk_sound g chk -> forall l v, trues g v ->
  trues g (fst (any_upstream chk v l)) /\
  (snd (any_upstream chk v l) = RYes -> exists m, In m l /\ triggerable g m).
Proof.
  intros Hc. induction l as [|m l IH]; intros v Hv; cbn [any_upstream].
  - cbn. split; [exact Hv|discriminate].
  - destruct (Hc v m Hv) as [H1 H2]. destruct (chk v m) as [v1 [| | |]]; cbn [fst snd] in *.
    + split; [exact H1|]. intros _. exists m. split; [left; reflexivity|auto].
    + destruct (IH v1 H1) as [H3 H4]. split; [exact H3|]. intros H.
      destruct (H4 H) as [m' [H5 H6]]. exists m'. split; [right; exact H5|exact H6].
    + split; [exact H1|discriminate].
    + split; [exact H1|discriminate].
Qed.

Lemma single_sound g chk inputs v : chk_sound g chk -> trues g v ->
  trues g (fst (single_input chk v inputs)) /\
  (snd (single_input chk v inputs) = RYes -> exists m, listed m inputs /\ triggerable g m).
Proof.
  intros Hc Hv. destruct inputs as [l|]; cbn [single_input].
  - destruct (any_sound g chk Hc l v Hv) as [H1 H2]. split; [exact H1|]. intros H.
    destruct (H2 H) as [m [H3 H4]]. exists m. split; [exists l; auto|exact H4].
  - cbn. split; [exact Hv|discriminate].
Qed.

Lemma all_sound g chk : chk_sound g chk -> forall l v, trues g v ->
  trues g (fst (all_upstream chk v l)) /\
  (snd (all_upstream chk v l) = RYes ->
   forall m c, In (m, c) l -> triggerable g m \/ exists k, c = Some (S k)).
Proof.
  intros Hc. induction l as [|[m c] l IH]; intros v Hv; cbn [all_upstream].
  - cbn. split; [exact Hv|]. intros _ m c [].
  - destruct (Hc v m Hv) as [H1 H2]. destruct (chk v m) as [v1 [| | |]]; cbn [fst snd] in *.
    + destruct (IH v1 H1) as [H3 H4]. split; [exact H3|]. intros H m' c' [E|Hin].
      * injection E as <- <-. left. auto.
      * apply H4; assumption.
    + destruct c as [[|k]|]; cbn [fst snd].
      * split; [exact H1|discriminate].
      * destruct (IH v1 H1) as [H3 H4]. split; [exact H3|]. intros H m' c' [E|Hin].
        -- injection E as <- <-. right. exists k. reflexivity.
        -- apply H4; assumption.
      * split; [exact H1|discriminate].
    + split; [exact H1|discriminate].
    + split; [exact H1|discriminate].
Qed.

Lemma accessors_sound g chk accessors v : chk_sound g chk -> trues g v ->
  trues g (fst (accessors_reachable chk v accessors)) /\
  (snd (accessors_reachable chk v accessors) = RYes ->
   exists m u, In (m, u) accessors /\ (u = Some true \/ triggerable g m)).
Proof.
  intros Hc Hv. unfold accessors_reachable. destruct (run_tests (map snd accessors)) eqn:E; cbn [fst snd].
  - split; [exact Hv|]. intros _. apply run_tests_yes in E. unfold works in E. apply in_map_iff in E.
    destruct E as [[m u] [E Hin]]. exists m, u. cbn in E. auto.
  - destruct (any_sound g chk Hc (map fst accessors) v Hv) as [H1 H2]. split; [exact H1|]. intros H.
    destruct (H2 H) as [m [Hin Ht]]. apply in_map_iff in Hin. destruct Hin as [[m' u] [<- Hin]].
    exists m', u. auto.
  - split; [exact Hv|discriminate].
  - split; [exact Hv|discriminate].
Qed.

Lemma opening_sound g chk closed gates v : chk_sound g chk -> trues g v ->
  trues g (fst (opening_reachable chk v closed gates)) /\
  (snd (opening_reachable chk v closed gates) = RYes ->
   closed = false \/ exists gate, In (gate, true) gates /\ triggerable g gate).
Proof.
  intros Hc Hv. unfold opening_reachable. destruct closed; cbn [negb].
  - destruct (any_sound g chk Hc (map fst (filter snd gates)) v Hv) as [H1 H2]. split; [exact H1|]. intros H.
    destruct (H2 H) as [m [Hin Ht]]. apply in_map_iff in Hin. destruct Hin as [[m' b] [<- Hin]].
    apply filter_In in Hin. destruct Hin as [Hin Hb]. cbn in Hb. subst b. right. exists m'. auto.
  - cbn. split; [exact Hv|]. auto.
Qed.

Lemma reach_sound g chk v n k : chk_sound g chk -> trues g v -> g n = Some k ->
  trues g (fst (is_reachable chk v k)) /\
  (snd (is_reachable chk v k) = RYes -> triggerable g n).
Proof.
  intros Hc Hv Hk.
  enough (H : trues g (fst (is_reachable chk v k)) /\
    (snd (is_reachable chk v k) = RYes -> fires g (triggerable g) n)).
  { destruct H as [H1 H2]. split; [exact H1|]. intros H. apply fires_trig, H2, H. }
  unfold fires. rewrite Hk. destruct k as [tests inputs|tests wf inputs|has inner inputs|inputs
    |closed gates accessors has inputs|has min held told inputs]; cbn [is_reachable].
  - destruct (run_tests tests) eqn:E; cbn [fst snd].
    + split; [exact Hv|]. intros _. left. apply run_tests_yes, E.
    + destruct (single_sound g chk inputs v Hc Hv) as [H1 H2]. split; [exact H1|]. intros H. right. auto.
    + split; [exact Hv|discriminate].
    + split; [exact Hv|discriminate].
  - destruct (run_tests tests) eqn:E; cbn [fst snd].
    + split; [exact Hv|]. intros _. left. apply run_tests_yes, E.
    + destruct wf as [sc|].
      * destruct (Hc v sc Hv) as [H1 H2]. destruct (chk v sc) as [v1 [| | |]]; cbn [fst snd] in *.
        -- split; [exact H1|]. intros _. right. left. exists sc. auto.
        -- destruct (single_sound g chk inputs v1 Hc H1) as [H3 H4]. split; [exact H3|]. intros H. right. right. auto.
        -- split; [exact H1|discriminate].
        -- split; [exact H1|discriminate].
      * destruct (single_sound g chk inputs v Hc Hv) as [H3 H4]. split; [exact H3|]. intros H. right. right. auto.
    + split; [exact Hv|discriminate].
    + split; [exact Hv|discriminate].
  - destruct has as [[|]|]; cbn.
    + split; [exact Hv|]. auto.
    + destruct inner as [[| | |]|]; cbn.
      * split; [exact Hv|]. auto.
      * destruct (single_sound g chk inputs v Hc Hv) as [H3 H4]. split; [exact H3|]. intros H. right. right. auto.
      * split; [exact Hv|discriminate].
      * split; [exact Hv|discriminate].
      * destruct (single_sound g chk inputs v Hc Hv) as [H3 H4]. split; [exact H3|]. intros H. right. right. auto.
    + split; [exact Hv|discriminate].
  - apply all_sound; assumption.
  - destruct (opening_sound g chk closed gates v Hc Hv) as [H1 H2].
    destruct (opening_reachable chk v closed gates) as [v1 [| | |]]; cbn [fst snd] in *.
    + destruct has as [[|]|]; cbn.
      * split; [exact H1|]. intros _. right. split; [apply H2; reflexivity|left; reflexivity].
      * destruct (accessors_sound g chk accessors v1 Hc H1) as [H3 H4].
        destruct (accessors_reachable chk v1 accessors) as [v2 [| | |]]; cbn [fst snd] in *.
        -- split; [exact H3|]. intros _. left. auto.
        -- destruct (single_sound g chk inputs v2 Hc H3) as [H5 H6]. split; [exact H5|]. intros H.
           right. split; [apply H2; reflexivity|right; auto].
        -- split; [exact H3|discriminate].
        -- split; [exact H3|discriminate].
      * split; [exact H1|discriminate].
    + destruct (accessors_sound g chk accessors v1 Hc H1) as [H3 H4]. split; [exact H3|]. intros H. left. auto.
    + split; [exact H1|discriminate].
    + split; [exact H1|discriminate].
  - destruct has as [[|]|]; cbn.
    + split; [exact Hv|]. auto.
    + destruct held as [h|].
      * destruct ((min <=? h) && told) eqn:E; cbn.
        -- split; [exact Hv|]. intros _. right. left. exists h. apply andb_prop in E. destruct E as [E1 E2].
           apply Nat.leb_le in E1. auto.
        -- destruct (single_sound g chk inputs v Hc Hv) as [H3 H4]. split; [exact H3|]. intros H. right. right. auto.
      * destruct (single_sound g chk inputs v Hc Hv) as [H3 H4]. split; [exact H3|]. intros H. right. right. auto.
    + split; [exact Hv|discriminate].
Qed.

Lemma check_sound g fuel : chk_sound g (check_upstream fuel g).
Proof.
  induction fuel as [|fuel IH]; intros v n Hv; cbn [check_upstream].
  - cbn. split; [exact Hv|discriminate].
  - destruct (v n) as [[|]|] eqn:En; cbn [fst snd].
    + split; [exact Hv|]. intros _. apply Hv, En.
    + split; [exact Hv|discriminate].
    + assert (Hv1 : trues g (emap_set v n (Some false))).
      { intros m Hm. destruct (Nat.eq_dec m n) as [->|Hne].
        - rewrite emap_set_eq in Hm. discriminate.
        - rewrite emap_set_neq in Hm by assumption. apply Hv, Hm. }
      destruct (g n) as [k|] eqn:Ek; cbn [fst snd]; [|split; [exact Hv1|discriminate]].
      destruct (reach_sound g _ _ n k IH Hv1 Ek) as [H1 H2].
      destruct (is_reachable (check_upstream fuel g) (emap_set v n (Some false)) k) as [v2 [| | |]]; cbn [fst snd] in *.
      * split; [|auto]. intros m Hm. destruct (Nat.eq_dec m n) as [->|Hne]; [auto|].
        rewrite emap_set_neq in Hm by assumption. apply H1, Hm.
      * split; [exact H1|discriminate].
      * split; [exact H1|discriminate].
      * split; [exact H1|discriminate].
Qed.

Lemma trues_empty g : trues g emap_empty.
Proof. intros m H. discriminate. Qed.

Lemma reachability_yes g fuel n : check_reachability fuel g n = RYes -> triggerable g n.
Proof. intros H. exact (proj2 (check_sound g fuel emap_empty n (trues_empty g)) H). Qed.

Lemma upstream_active_yes g fuel n has min held told inputs :
  g n = Some (KCollect has min held told inputs) -> is_upstream_active fuel g n = RYes ->
  has = Some true \/ exists m, listed m inputs /\ triggerable g m.
Proof.
  intros Hk. unfold is_upstream_active. rewrite Hk. destruct has as [[|]|]; cbn; auto; [|discriminate].
  intros H. right.
  assert (Hv : trues g (emap_set emap_empty n (Some false))).
  { intros m Hm. destruct (Nat.eq_dec m n) as [->|Hne].
    - rewrite emap_set_eq in Hm. discriminate.
    - rewrite emap_set_neq in Hm by assumption. discriminate. }
  exact (proj2 (single_sound g _ inputs _ (check_sound g fuel) Hv) H).
Qed.

(** * The check ends *)

Definition extends (v v' : emap bool) : Prop := forall m, v m <> None -> v' m <> None.

Definition unseen (nodes : list entity) (v : emap bool) : nat :=
  length (filter (fun m => match v m with None => true | Some _ => false end) nodes).

Lemma unseen_le nodes v v' : extends v v' -> unseen nodes v' <= unseen nodes v.
Proof.
  intros H. unfold unseen. induction nodes as [|m nodes IH]; [reflexivity|]. cbn.
  specialize (H m). destruct (v' m), (v m); cbn; try lia. exfalso. apply H; congruence.
Qed.

Lemma unseen_lt nodes v n b : In n nodes -> v n = None -> unseen nodes (emap_set v n (Some b)) < unseen nodes v.
Proof.
  intros Hin Hv. assert (Hle : forall l, unseen l (emap_set v n (Some b)) <= unseen l v).
  { intros l. apply unseen_le. intros m Hm. destruct (Nat.eq_dec m n) as [->|Hne];
      [rewrite emap_set_eq; discriminate|rewrite emap_set_neq; assumption]. }
  induction nodes as [|m nodes IH]; [destruct Hin|]. unfold unseen in *. cbn. destruct Hin as [->|Hin].
  - rewrite emap_set_eq, Hv. specialize (Hle nodes). cbn. lia.
  - specialize (IH Hin). destruct (Nat.eq_dec m n) as [->|Hne].
    + rewrite emap_set_eq, Hv. cbn. lia.
    + rewrite emap_set_neq by assumption. destruct (v m); cbn; lia.
Qed.

(** A checker that answers on the nodes, given [bound] unseen nodes. *)
Definition ends (nodes : list entity) (bound : nat) (chk : emap bool -> entity -> emap bool * rres) : Prop :=
  forall v n, In n nodes -> unseen nodes v < bound ->
    extends v (fst (chk v n)) /\ (snd (chk v n) = RYes \/ snd (chk v n) = RNo).

Lemma extends_trans a b c : extends a b -> extends b c -> extends a c.
Proof. intros H1 H2 m Hm. apply H2, H1, Hm. Qed.
Lemma extends_refl v : extends v v.
Proof. intros m H. exact H. Qed.

Lemma any_ends nodes bound chk : ends nodes bound chk -> forall l v,
  (forall m, In m l -> In m nodes) -> unseen nodes v < bound ->
  extends v (fst (any_upstream chk v l)) /\
  (snd (any_upstream chk v l) = RYes \/ snd (any_upstream chk v l) = RNo).
Proof.
  intros Hc. induction l as [|m l IH]; intros v Hl Hb; cbn [any_upstream].
  - cbn. split; [apply extends_refl|auto].
  - destruct (Hc v m (Hl m (or_introl eq_refl)) Hb) as [H1 H2].
    destruct (chk v m) as [v1 [| | |]]; cbn [fst snd] in *; auto.
    destruct (IH v1) as [H3 H4].
    { intros; apply Hl; right; assumption. } { pose proof (unseen_le nodes v v1 H1). lia. }
    split; [eapply extends_trans; eassumption|exact H4].
Qed.

Lemma single_ends nodes bound chk inputs v : ends nodes bound chk ->
  (forall m, listed m inputs -> In m nodes) -> unseen nodes v < bound ->
  extends v (fst (single_input chk v inputs)) /\
  (snd (single_input chk v inputs) = RYes \/ snd (single_input chk v inputs) = RNo).
Proof.
  intros Hc Hl Hb. destruct inputs as [l|]; cbn [single_input].
  - apply (any_ends nodes bound); auto. intros m Hm. apply Hl. exists l. auto.
  - cbn. split; [apply extends_refl|auto].
Qed.

Lemma all_ends nodes bound chk : ends nodes bound chk -> forall l v,
  (forall m, In m (map fst l) -> In m nodes) -> ~ In None (map snd l) -> unseen nodes v < bound ->
  extends v (fst (all_upstream chk v l)) /\
  (snd (all_upstream chk v l) = RYes \/ snd (all_upstream chk v l) = RNo).
Proof.
  intros Hc. induction l as [|[m c] l IH]; intros v Hl Hn Hb; cbn [all_upstream].
  - cbn. split; [apply extends_refl|auto].
  - destruct (Hc v m (Hl m (or_introl eq_refl)) Hb) as [H1 H2].
    assert (Hrec : forall v1, extends v v1 -> extends v (fst (all_upstream chk v1 l)) /\
      (snd (all_upstream chk v1 l) = RYes \/ snd (all_upstream chk v1 l) = RNo)).
    { intros v1 He. destruct (IH v1) as [H3 H4].
      { intros; apply Hl; right; assumption. } { intros Hi; apply Hn; right; exact Hi. }
      { pose proof (unseen_le nodes v v1 He). lia. }
      split; [eapply extends_trans; eassumption|exact H4]. }
    destruct (chk v m) as [v1 [| | |]]; cbn [fst snd] in *; auto.
    destruct c as [[|k]|]; cbn [fst snd]; auto. exfalso. apply Hn. left. reflexivity.
Qed.

Lemma accessors_ends nodes bound chk accessors v : ends nodes bound chk ->
  (forall m, In m (map fst accessors) -> In m nodes) -> ~ In None (map snd accessors) -> unseen nodes v < bound ->
  extends v (fst (accessors_reachable chk v accessors)) /\
  (snd (accessors_reachable chk v accessors) = RYes \/ snd (accessors_reachable chk v accessors) = RNo).
Proof.
  intros Hc Hl Hn Hb. unfold accessors_reachable.
  destruct (run_tests_sound _ Hn) as [E|E]; rewrite E; cbn [fst snd].
  - split; [apply extends_refl|auto].
  - apply (any_ends nodes bound); assumption.
Qed.

Lemma opening_ends nodes bound chk closed gates v : ends nodes bound chk ->
  (forall m, In m (map fst gates) -> In m nodes) -> unseen nodes v < bound ->
  extends v (fst (opening_reachable chk v closed gates)) /\
  (snd (opening_reachable chk v closed gates) = RYes \/ snd (opening_reachable chk v closed gates) = RNo).
Proof.
  intros Hc Hl Hb. unfold opening_reachable. destruct closed; cbn [negb fst snd].
  - apply (any_ends nodes bound); auto. intros m Hm. apply Hl. apply in_map_iff in Hm.
    destruct Hm as [x [<- Hx]]. apply filter_In in Hx. destruct Hx as [Hx _]. apply in_map. exact Hx.
  - split; [apply extends_refl|auto].
Qed.

Lemma reach_ends g nodes bound chk v n k :
  ends nodes bound chk -> g n = Some k -> sound_tests k ->
  (forall m, consults g n m -> In m nodes) -> unseen nodes v < bound ->
  extends v (fst (is_reachable chk v k)) /\
  (snd (is_reachable chk v k) = RYes \/ snd (is_reachable chk v k) = RNo).
Proof.
  intros Hc Hk Hs Hcon Hb. unfold consults in Hcon. rewrite Hk in Hcon.
  assert (Hr := extends_refl v).
  destruct k as [tests inputs|tests wf inputs|has inner inputs|inputs
    |closed gates accessors has inputs|has min held told inputs]; cbn [is_reachable sound_tests] in *.
  - destruct (run_tests_sound _ Hs) as [E|E]; rewrite E; cbn [fst snd]; auto.
    apply (single_ends nodes bound); auto.
  - destruct (run_tests_sound _ Hs) as [E|E]; rewrite E; cbn [fst snd]; auto.
    destruct wf as [sc|].
    + destruct (Hc v sc (Hcon sc (or_introl eq_refl)) Hb) as [H1 H2].
      destruct (chk v sc) as [v1 [| | |]]; cbn [fst snd] in *; auto.
      destruct (single_ends nodes bound chk inputs v1 Hc) as [H3 H4]; auto.
      { pose proof (unseen_le nodes v v1 H1). lia. }
      split; [eapply extends_trans; eassumption|exact H4].
    + apply (single_ends nodes bound); auto.
  - destruct Hs as (Hh & Hi1 & Hi2). destruct has as [[|]|]; cbn; auto; [|congruence].
    destruct inner as [[| | |]|]; cbn; auto; try congruence; apply (single_ends nodes bound); auto.
  - apply (all_ends nodes bound); auto.
  - destruct Hs as [Hh Ha].
    destruct (opening_ends nodes bound chk closed gates v Hc) as [H1 H2]; auto.
    destruct (opening_reachable chk v closed gates) as [v1 r]; cbn [fst snd] in *.
    assert (Hb1 : unseen nodes v1 < bound) by (pose proof (unseen_le nodes v v1 H1); lia).
    assert (HA : extends v1 (fst (accessors_reachable chk v1 accessors)) /\
       (snd (accessors_reachable chk v1 accessors) = RYes \/ snd (accessors_reachable chk v1 accessors) = RNo))
      by (apply (accessors_ends nodes bound); auto).
    destruct H2 as [->| ->].
    + destruct has as [[|]|]; cbn; auto; [|congruence].
      destruct HA as [H3 H4]. destruct (accessors_reachable chk v1 accessors) as [v2 [| | |]]; cbn [fst snd] in *;
        try (split; [eapply extends_trans; eassumption|exact H4]).
      destruct (single_ends nodes bound chk inputs v2 Hc) as [H5 H6]; auto.
      { pose proof (unseen_le nodes v1 v2 H3). lia. }
      split; [|exact H6]. eapply extends_trans; [exact H1|]. eapply extends_trans; eassumption.
    + destruct HA as [H3 H4]. split; [eapply extends_trans; eassumption|exact H4].
  - destruct has as [[|]|]; cbn; auto; [|congruence].
    destruct (match held with Some h => (min <=? h) && told | None => false end); cbn; auto.
    apply (single_ends nodes bound); auto.
Qed.

Lemma check_ends g nodes : well_formed g nodes -> forall fuel, ends nodes fuel (check_upstream fuel g).
Proof.
  intros (Hdom & Hs & Hcon). induction fuel as [|fuel IH]; intros v n Hin Hb; [lia|].
  cbn [check_upstream]. destruct (v n) as [b|] eqn:En; cbn [fst snd].
  - split; [apply extends_refl|]. destruct b; auto.
  - assert (He : extends v (emap_set v n (Some false))).
    { intros m Hm. destruct (Nat.eq_dec m n) as [->|Hne]; [rewrite emap_set_eq; discriminate|].
      rewrite emap_set_neq; assumption. }
    destruct (g n) as [k|] eqn:Ek; [|exfalso; apply Hdom in Hin; congruence].
    destruct (reach_ends g nodes fuel (check_upstream fuel g) (emap_set v n (Some false)) n k) as [H1 H2]; eauto.
    { pose proof (unseen_lt nodes v n false Hin En). lia. }
    destruct (is_reachable (check_upstream fuel g) (emap_set v n (Some false)) k) as [v2 [| | |]]; cbn [fst snd] in *.
    + split; [|auto]. intros m Hm. destruct (Nat.eq_dec m n) as [->|Hne]; [rewrite emap_set_eq; discriminate|].
      rewrite emap_set_neq by assumption. apply H1, He, Hm.
    + split; [|auto]. eapply extends_trans; eassumption.
    + destruct H2; discriminate.
    + destruct H2; discriminate.
Qed.

(** More turns do not change an answer. *)
Definition refines (chk chk' : emap bool -> entity -> emap bool * rres) : Prop :=
  forall v n, snd (chk v n) <> RFuel -> chk' v n = chk v n.

Lemma any_refines chk chk' : refines chk chk' -> forall l v,
  snd (any_upstream chk v l) <> RFuel -> any_upstream chk' v l = any_upstream chk v l.
Proof.
  intros Hr. induction l as [|m l IH]; intros v H; [reflexivity|]. cbn [any_upstream] in *.
  pose proof (Hr v m) as Hm. destruct (chk v m) as [v1 r] eqn:E. cbn [snd] in Hm.
  destruct r; try (rewrite Hm by discriminate); auto. cbn in H. congruence.
Qed.
Lemma single_refines chk chk' inputs v : refines chk chk' ->
  snd (single_input chk v inputs) <> RFuel -> single_input chk' v inputs = single_input chk v inputs.
Proof. intros Hr. destruct inputs as [l|]; cbn [single_input]; [apply any_refines, Hr|reflexivity]. Qed.
Lemma all_refines chk chk' : refines chk chk' -> forall l v,
  snd (all_upstream chk v l) <> RFuel -> all_upstream chk' v l = all_upstream chk v l.
Proof.
  intros Hr. induction l as [|[m c] l IH]; intros v H; [reflexivity|]. cbn [all_upstream] in *.
  pose proof (Hr v m) as Hm. destruct (chk v m) as [v1 r] eqn:E. cbn [snd] in Hm.
  destruct r; try (rewrite Hm by discriminate); auto.
  - destruct c as [[|k]|]; auto.
  - cbn in H. congruence.
Qed.
Lemma accessors_refines chk chk' l v : refines chk chk' ->
  snd (accessors_reachable chk v l) <> RFuel -> accessors_reachable chk' v l = accessors_reachable chk v l.
Proof.
  intros Hr. unfold accessors_reachable. destruct (run_tests (map snd l)); try reflexivity. apply any_refines, Hr.
Qed.
Lemma opening_refines chk chk' c l v : refines chk chk' ->
  snd (opening_reachable chk v c l) <> RFuel -> opening_reachable chk' v c l = opening_reachable chk v c l.
Proof. intros Hr. unfold opening_reachable. destruct c; cbn [negb]; [apply any_refines, Hr|reflexivity]. Qed.

Lemma reach_refines chk chk' v k : refines chk chk' ->
  snd (is_reachable chk v k) <> RFuel -> is_reachable chk' v k = is_reachable chk v k.
Proof.
  intros Hr H. destruct k as [tests inputs|tests wf inputs|has inner inputs|inputs
    |closed gates accessors has inputs|has min held told inputs]; cbn [is_reachable] in *.
  - destruct (run_tests tests); try reflexivity. apply single_refines; assumption.
  - destruct (run_tests tests); try reflexivity. destruct wf as [sc|]; [|apply single_refines; assumption].
    pose proof (Hr v sc) as Hm. destruct (chk v sc) as [v1 r] eqn:E. cbn [snd] in Hm.
    destruct r; try (rewrite Hm by discriminate); auto.
    + apply single_refines; assumption.
    + cbn in H. congruence.
  - destruct (run_tests [has]); try reflexivity.
    destruct (match inner with Some r => r | None => RNo end); try reflexivity. apply single_refines; assumption.
  - apply all_refines; assumption.
  - pose proof (opening_refines chk chk' closed gates v Hr) as Ho.
    destruct (opening_reachable chk v closed gates) as [v1 r] eqn:E. cbn [snd] in Ho.
    destruct r; try (rewrite Ho by discriminate).
    + destruct (run_tests [has]); try reflexivity.
      pose proof (accessors_refines chk chk' accessors v1 Hr) as Ha.
      destruct (accessors_reachable chk v1 accessors) as [v2 r2] eqn:E2. cbn [snd] in Ha.
      destruct r2; try (rewrite Ha by discriminate); auto.
      * apply single_refines; assumption.
      * cbn in H. congruence.
    + apply accessors_refines; assumption.
    + reflexivity.
    + cbn in H. congruence.
  - destruct (run_tests [has]); try reflexivity.
    destruct (match held with Some h => (min <=? h) && told | None => false end); [reflexivity|].
    apply single_refines; assumption.
Qed.

Lemma check_refines g fuel : refines (check_upstream fuel g) (check_upstream (S fuel) g).
Proof.
  induction fuel as [|fuel IH]; intros v n H; [cbn in H; congruence|].
  change (check_upstream (S (S fuel)) g v n) with
    (match v n with
      | Some b => (v, if b then RYes else RNo)
      | None =>
          let v1 := emap_set v n (Some false) in
          match g n with
          | None => (v1, RBroken)
          | Some k =>
              match is_reachable (check_upstream (S fuel) g) v1 k with
              | (v2, RYes) => (emap_set v2 n (Some true), RYes)
              | other => other
              end
          end
      end).
  cbn [check_upstream] in H |- *.
  destruct (v n) as [b|]; [reflexivity|]. destruct (g n) as [k|]; [|reflexivity]. cbn zeta.
  rewrite (reach_refines (check_upstream fuel g) (check_upstream (S fuel) g)); [reflexivity|exact IH|].
  destruct (is_reachable (check_upstream fuel g) (emap_set v n (Some false)) k) as [v2 [| | |]]; cbn in *; congruence.
Qed.

Lemma check_more g fuel more v n : snd (check_upstream fuel g v n) <> RFuel ->
  check_upstream (fuel + more) g v n = check_upstream fuel g v n.
Proof.
  intros H. induction more as [|more IH]; [rewrite Nat.add_0_r; reflexivity|].
  rewrite Nat.add_succ_r, check_refines; [exact IH|]. rewrite IH. exact H.
Qed.

Lemma unseen_empty nodes : unseen nodes emap_empty = length nodes.
Proof. unfold unseen. induction nodes as [|m nodes IH]; [reflexivity|]. cbn. f_equal. exact IH. Qed.

Lemma reachability_answers g nodes n : well_formed g nodes -> In n nodes ->
  forall more, let r := check_reachability (S (length nodes) + more) g n in
  r = check_reachability (S (length nodes)) g n /\ (r = RYes \/ r = RNo).
Proof.
  intros Hwf Hin more. cbn zeta. unfold check_reachability.
  destruct (check_ends g nodes Hwf (S (length nodes)) emap_empty n Hin) as [_ H].
  { rewrite unseen_empty. lia. }
  rewrite check_more; [auto|]. destruct H as [->| ->]; discriminate.
Qed.

(** * A no is right *)

(** ** when one input suffices *)
(** [shut v gray]: what was visited and not left open answers no for good. *)
Definition shut (g : emap rkind) (v : emap bool) (gray : list entity) : Prop :=
  forall m, v m = Some false -> In m gray \/ ~ fires g (fun c => v c <> Some false) m.
Definition no_true (v : emap bool) : Prop := forall m, v m <> Some true.
Definition grows (v v' : emap bool) : Prop := forall m, v m = Some false -> v' m = Some false.

Definition chk_or (g : emap rkind) (chk : emap bool -> entity -> emap bool * rres) : Prop :=
  forall v n gray, no_true v -> shut g v gray -> snd (chk v n) = RNo ->
    no_true (fst (chk v n)) /\ shut g (fst (chk v n)) gray /\ grows v (fst (chk v n)) /\
    fst (chk v n) n = Some false.

Lemma any_or g chk : chk_or g chk -> forall l v gray, no_true v -> shut g v gray ->
  snd (any_upstream chk v l) = RNo ->
  let v' := fst (any_upstream chk v l) in
  no_true v' /\ shut g v' gray /\ grows v v' /\ forall m, In m l -> v' m = Some false.
Proof.
  intros Hc. induction l as [|m l IH]; intros v gray Hn Hs H; cbn [any_upstream] in *; cbn zeta.
  - cbn. split; [exact Hn|]. split; [exact Hs|]. split; [intros m Hm; exact Hm|intros m []].
  - pose proof (Hc v m gray Hn Hs) as Hm. destruct (chk v m) as [v1 [| | |]]; cbn [fst snd] in *; try discriminate.
    destruct (Hm eq_refl) as (H1 & H2 & H3 & H4).
    destruct (IH v1 gray H1 H2 H) as (H5 & H6 & H7 & H8). cbn zeta in *.
    split; [exact H5|]. split; [exact H6|]. split; [intros x Hx; apply H7, H3, Hx|].
    intros x [<-|Hx]; [apply H7, H4|apply H8, Hx].
Qed.

Lemma single_or g chk inputs v gray : chk_or g chk -> no_true v -> shut g v gray ->
  snd (single_input chk v inputs) = RNo ->
  let v' := fst (single_input chk v inputs) in
  no_true v' /\ shut g v' gray /\ grows v v' /\ forall m, listed m inputs -> v' m = Some false.
Proof.
  intros Hc Hn Hs. destruct inputs as [l|]; cbn [single_input]; intros H.
  - destruct (any_or g chk Hc l v gray Hn Hs H) as (H1 & H2 & H3 & H4). cbn zeta in *.
    split; [exact H1|]. split; [exact H2|]. split; [exact H3|]. intros m [l' [E Hm]]. injection E as <-. auto.
  - cbn. split; [exact Hn|]. split; [exact Hs|]. split; [intros m Hm; exact Hm|].
    intros m [l' [E _]]. discriminate.
Qed.

Lemma accessors_or g chk accessors v gray : chk_or g chk -> no_true v -> shut g v gray ->
  snd (accessors_reachable chk v accessors) = RNo ->
  let v' := fst (accessors_reachable chk v accessors) in
  no_true v' /\ shut g v' gray /\ grows v v' /\
  forall m u, In (m, u) accessors -> v' m = Some false /\ u <> Some true.
Proof.
  intros Hc Hn Hs. unfold accessors_reachable. destruct (run_tests (map snd accessors)) eqn:E; cbn [snd]; try discriminate.
  intros H. destruct (any_or g chk Hc _ v gray Hn Hs H) as (H1 & H2 & H3 & H4). cbn zeta in *.
  split; [exact H1|]. split; [exact H2|]. split; [exact H3|]. intros m u Hin. split.
  - apply H4. apply (in_map fst) in Hin. exact Hin.
  - intros ->. apply run_tests_no in E. apply E. unfold works. apply (in_map snd) in Hin. exact Hin.
Qed.

Lemma reach_or g chk v n k gray : chk_or g chk -> g n = Some k -> one_suffices k ->
  no_true v -> shut g v gray -> snd (is_reachable chk v k) = RNo ->
  let v' := fst (is_reachable chk v k) in
  no_true v' /\ shut g v' gray /\ grows v v' /\ ~ fires g (fun c => v' c <> Some false) n.
Proof.
  intros Hc Hk Ho Hn Hs H. unfold fires. rewrite Hk.
  destruct k as [tests inputs|tests wf inputs|has inner inputs|inputs
    |closed gates accessors has inputs|has min held told inputs]; cbn [is_reachable one_suffices] in *; cbn zeta.
  - destruct (run_tests tests) eqn:E; cbn [snd] in H; try discriminate.
    destruct (single_or g chk inputs v gray Hc Hn Hs H) as (H1 & H2 & H3 & H4). cbn zeta in *.
    repeat (split; [assumption|]). intros [Hw|[m [Hl Hm]]]; [exact (run_tests_no _ E Hw)|auto].
  - destruct (run_tests tests) eqn:E; cbn [snd] in H; try discriminate.
    destruct wf as [sc|].
    + pose proof (Hc v sc gray Hn Hs) as Hm. destruct (chk v sc) as [v1 [| | |]]; cbn [fst snd] in *; try discriminate.
      destruct (Hm eq_refl) as (G1 & G2 & G3 & G4).
      destruct (single_or g chk inputs v1 gray Hc G1 G2 H) as (H1 & H2 & H3 & H4). cbn zeta in *.
      split; [exact H1|]. split; [exact H2|]. split; [intros x Hx; apply H3, G3, Hx|].
      intros [Hw|[[sc' [E' Hsc]]|[m [Hl Hm']]]]; [exact (run_tests_no _ E Hw)| |auto].
      injection E' as <-. apply Hsc, H3, G4.
    + destruct (single_or g chk inputs v gray Hc Hn Hs H) as (H1 & H2 & H3 & H4). cbn zeta in *.
      repeat (split; [assumption|]).
      intros [Hw|[[sc' [E' Hsc]]|[m [Hl Hm']]]]; [exact (run_tests_no _ E Hw)|discriminate|auto].
  - destruct has as [[|]|]; cbn in *; try discriminate.
    destruct inner as [[| | |]|]; cbn in *; try discriminate;
      destruct (single_or g chk inputs v gray Hc Hn Hs H) as (H1 & H2 & H3 & H4); cbn zeta in *;
      repeat (split; [assumption|]); intros [Hw|[Hw|[m [Hl Hm']]]]; try discriminate; auto.
  - destruct Ho as [m [c ->]]. cbn [all_upstream] in *.
    pose proof (Hc v m gray Hn Hs) as Hm. destruct (chk v m) as [v1 [| | |]]; cbn [fst snd] in *; try discriminate.
    destruct (Hm eq_refl) as (G1 & G2 & G3 & G4).
    destruct c as [[|c]|]; cbn [fst snd] in *; try discriminate.
    repeat (split; [assumption|]). intros Hf. destruct (Hf m (Some 0) (or_introl eq_refl)) as [Hx|[k Hx]];
      [exact (Hx G4)|discriminate].
  - subst closed. unfold opening_reachable in *. cbn [negb] in *.
    destruct has as [[|]|]; cbn in *; try discriminate.
    pose proof (accessors_or g chk accessors v gray Hc Hn Hs) as Ha.
    destruct (accessors_reachable chk v accessors) as [v1 [| | |]]; cbn [fst snd] in *; try discriminate.
    destruct (Ha eq_refl) as (G1 & G2 & G3 & G4). cbn zeta in *.
    destruct (single_or g chk inputs v1 gray Hc G1 G2 H) as (H1 & H2 & H3 & H4). cbn zeta in *.
    split; [exact H1|]. split; [exact H2|]. split; [intros x Hx; apply H3, G3, Hx|].
    intros [[m [u [Hin [Hu|Hu]]]]|[_ [Hw|[m [Hl Hm']]]]]; [| |discriminate|auto].
    + exact (proj2 (G4 m u Hin) Hu).
    + apply Hu, H3. exact (proj1 (G4 m u Hin)).
  - destruct has as [[|]|]; cbn in *; try discriminate.
    destruct (match held with Some h => (min <=? h) && told | None => false end) eqn:E; cbn in *; try discriminate.
    destruct (single_or g chk inputs v gray Hc Hn Hs H) as (H1 & H2 & H3 & H4); cbn zeta in *.
    repeat (split; [assumption|]). intros [Hw|[[h [-> [-> Hle]]]|[m [Hl Hm']]]]; [discriminate| |auto].
    apply Nat.leb_le in Hle. rewrite Hle in E. discriminate.
Qed.

Lemma no_true_set v n : no_true v -> no_true (emap_set v n (Some false)).
Proof.
  intros H m. destruct (Nat.eq_dec m n) as [->|Hne]; [rewrite emap_set_eq; discriminate|].
  rewrite emap_set_neq by assumption. apply H.
Qed.

Lemma check_or g : (forall n k, g n = Some k -> one_suffices k) ->
  forall fuel, chk_or g (check_upstream fuel g).
Proof.
  intros Ho. induction fuel as [|fuel IH]; intros v n gray Hn Hs H; cbn [check_upstream] in *; [discriminate|].
  destruct (v n) as [[|]|] eqn:En; cbn [fst snd] in *; try discriminate.
  - split; [exact Hn|]. split; [exact Hs|]. split; [intros m Hm; exact Hm|exact En].
  - destruct (g n) as [k|] eqn:Ek; cbn [snd] in H; [|discriminate].
    set (v1 := emap_set v n (Some false)) in *.
    assert (Hg1 : grows v v1).
    { intros m Hm. unfold v1. destruct (Nat.eq_dec m n) as [->|Hne]; [apply emap_set_eq|].
      rewrite emap_set_neq; assumption. }
    assert (Hs1 : shut g v1 (n :: gray)).
    { intros m Hm. destruct (Nat.eq_dec m n) as [->|Hne]; [left; left; reflexivity|].
      unfold v1 in Hm. rewrite emap_set_neq in Hm by assumption.
      destruct (Hs m Hm) as [Hi|Hi]; [left; right; exact Hi|right].
      intros Hf. apply Hi. eapply fires_mono; [|exact Hf]. intros c _ Hc1 Hc2. apply Hc1, Hg1, Hc2. }
    pose proof (reach_or g _ v1 n k (n :: gray) IH Ek (Ho n k Ek) (no_true_set v n Hn) Hs1) as Hr.
    destruct (is_reachable (check_upstream fuel g) v1 k) as [v2 [| | |]]; cbn [fst snd] in *; try discriminate.
    destruct (Hr eq_refl) as (H1 & H2 & H3 & H4). cbn zeta in *.
    split; [exact H1|]. split; [|split].
    + intros m Hm. destruct (H2 m Hm) as [[<-|Hi]|Hi]; [right; exact H4|left; exact Hi|right; exact Hi].
    + intros m Hm. apply H3, Hg1, Hm.
    + apply H3. apply emap_set_eq.
Qed.

Lemma shut_empty g : shut g emap_empty [].
Proof. intros m H. discriminate. Qed.
Lemma no_true_empty : no_true emap_empty.
Proof. intros m H. discriminate. Qed.

Lemma reachability_no_or g fuel n : (forall m k, g m = Some k -> one_suffices k) ->
  check_reachability fuel g n = RNo -> ~ triggerable g n.
Proof.
  intros Ho H Ht. unfold check_reachability in H.
  destruct (check_or g Ho fuel emap_empty n [] no_true_empty (shut_empty g) H) as (_ & H2 & _ & H4).
  set (v := fst (check_upstream fuel g emap_empty n)) in *.
  assert (HP : forall m, fires g (fun c => v c <> Some false) m -> v m <> Some false).
  { intros m Hf Hm. destruct (H2 m Hm) as [[]|Hi]. exact (Hi Hf). }
  exact (trig_least g (fun c => v c <> Some false) HP n Ht H4).
Qed.

(** The check of a collect, which does not go through the collect itself. *)
Definition stopped (g : emap rkind) (n : entity) : emap rkind := emap_set g n (Some (KWork [] None)).

Lemma upstream_active_no g fuel n has min held told inputs m :
  (forall m k, g m = Some k -> one_suffices k) ->
  g n = Some (KCollect has min held told inputs) -> is_upstream_active fuel g n = RNo ->
  has = Some false /\ (listed m inputs -> ~ triggerable (stopped g n) m).
Proof.
  intros Ho Hk H. unfold is_upstream_active in H. rewrite Hk in H.
  destruct has as [[|]|]; cbn in H; try discriminate. split; [reflexivity|]. intros Hl Ht.
  set (v0 := emap_set emap_empty n (Some false)) in *.
  assert (Hn0 : no_true v0) by (apply no_true_set, no_true_empty).
  assert (Hs0 : shut g v0 [n]).
  { intros x Hx. left. unfold v0 in Hx. destruct (Nat.eq_dec x n) as [->|Hne]; [left; reflexivity|].
    rewrite emap_set_neq in Hx by assumption. discriminate. }
  destruct (single_or g _ inputs v0 [n] (check_or g Ho fuel) Hn0 Hs0 H) as (_ & H2 & _ & H4). cbn zeta in *.
  set (v := fst (single_input (check_upstream fuel g) v0 inputs)) in *.
  assert (HP : forall x, fires (stopped g n) (fun c => v c <> Some false) x -> v x <> Some false).
  { intros x Hf Hx. destruct (Nat.eq_dec x n) as [->|Hne].
    - unfold fires, stopped in Hf. rewrite emap_set_eq in Hf. destruct Hf as [[]|[y [[l [E _]] _]]]. discriminate.
    - destruct (H2 x Hx) as [[E|[]]|Hi]; [congruence|]. apply Hi. unfold fires, stopped in *.
      rewrite emap_set_neq in Hf by assumption. exact Hf. }
  exact (trig_least (stopped g n) (fun c => v c <> Some false) HP m Ht (H4 m Hl)).
Qed.

(** ** without cycles *)
Definition right_below (g : emap rkind) (rank : entity -> nat) (v : emap bool) (k : nat) : Prop :=
  forall m b, v m = Some b -> rank m < k -> (b = true <-> triggerable g m).
Definition same_above (rank : entity -> nat) (v v' : emap bool) (k : nat) : Prop :=
  forall m, k <= rank m -> v' m = v m.
Definition answers (g : emap rkind) (r : rres) (P : Prop) : Prop :=
  (r = RYes -> P) /\ (r = RNo -> ~ P).

Definition settled (r : rres) : Prop := match r with RYes | RNo => True | _ => False end.

Definition chk_acyc (g : emap rkind) (rank : entity -> nat) (k : nat)
    (chk : emap bool -> entity -> emap bool * rres) : Prop :=
  forall v n, rank n < k -> right_below g rank v k ->
    (settled (snd (chk v n)) -> right_below g rank (fst (chk v n)) k) /\ same_above rank v (fst (chk v n)) k /\
    answers g (snd (chk v n)) (triggerable g n).

Lemma any_acyc g rank k chk : chk_acyc g rank k chk -> forall l v,
  (forall m, In m l -> rank m < k) -> right_below g rank v k ->
  (settled (snd (any_upstream chk v l)) -> right_below g rank (fst (any_upstream chk v l)) k) /\ same_above rank v (fst (any_upstream chk v l)) k /\
  answers g (snd (any_upstream chk v l)) (exists m, In m l /\ triggerable g m).
Proof.
  intros Hc. induction l as [|m l IH]; intros v Hl Hv; cbn [any_upstream].
  - cbn. split; [intros _; exact Hv|]. split; [intros m _; reflexivity|]. split; [discriminate|]. intros _ [m [[] _]].
  - destruct (Hc v m (Hl m (or_introl eq_refl)) Hv) as (H1 & H2 & H3).
    destruct (chk v m) as [v1 [| | |]]; cbn [fst snd] in *.
    + split; [exact H1|]. split; [exact H2|]. split; [|discriminate]. intros _. exists m.
      split; [left; reflexivity|apply H3; reflexivity].
    + destruct (IH v1 (fun x Hx => Hl x (or_intror Hx)) (H1 I)) as (G1 & G2 & G3).
      split; [exact G1|]. split; [intros x Hx; rewrite (G2 x Hx); apply H2, Hx|]. split.
      * intros E. destruct (proj1 G3 E) as [x [Hx Ht]]. exists x. split; [right; exact Hx|exact Ht].
      * intros E [x [[<-|Hx] Ht]]; [exact (proj2 H3 eq_refl Ht)|]. apply (proj2 G3 E). exists x. auto.
    + split; [exact H1|]. split; [exact H2|]. split; discriminate.
    + split; [exact H1|]. split; [exact H2|]. split; discriminate.
Qed.

Lemma single_acyc g rank k chk inputs v : chk_acyc g rank k chk ->
  (forall m, listed m inputs -> rank m < k) -> right_below g rank v k ->
  (settled (snd (single_input chk v inputs)) -> right_below g rank (fst (single_input chk v inputs)) k) /\ same_above rank v (fst (single_input chk v inputs)) k /\
  answers g (snd (single_input chk v inputs)) (exists m, listed m inputs /\ triggerable g m).
Proof.
  intros Hc Hl Hv. destruct inputs as [l|]; cbn [single_input].
  - destruct (any_acyc g rank k chk Hc l v) as (H1 & H2 & H3 & H4); auto.
    { intros m Hm. apply Hl. exists l. auto. }
    split; [exact H1|]. split; [exact H2|]. split.
    + intros E. destruct (H3 E) as [m [Hm Ht]]. exists m. split; [exists l; auto|exact Ht].
    + intros E [m [[l' [El Hm]] Ht]]. injection El as <-. apply (H4 E). exists m. auto.
  - cbn. split; [intros _; exact Hv|]. split; [intros m _; reflexivity|]. split; [discriminate|].
    intros _ [m [[l [E _]] _]]. discriminate.
Qed.

Lemma all_acyc g rank k chk : chk_acyc g rank k chk -> forall l v,
  (forall m, In m (map fst l) -> rank m < k) -> right_below g rank v k ->
  (settled (snd (all_upstream chk v l)) -> right_below g rank (fst (all_upstream chk v l)) k) /\ same_above rank v (fst (all_upstream chk v l)) k /\
  answers g (snd (all_upstream chk v l))
    (forall m c, In (m, c) l -> triggerable g m \/ exists k, c = Some (S k)).
Proof.
  intros Hc. induction l as [|[m c] l IH]; intros v Hl Hv; cbn [all_upstream].
  - cbn. split; [intros _; exact Hv|]. split; [intros m _; reflexivity|]. split; [intros _ m c []|discriminate].
  - destruct (Hc v m (Hl m (or_introl eq_refl)) Hv) as (H1 & H2 & H3).
    assert (Hrec : forall v1, right_below g rank v1 k -> same_above rank v v1 k ->
       (triggerable g m \/ exists j, c = Some (S j)) ->
       (settled (snd (all_upstream chk v1 l)) -> right_below g rank (fst (all_upstream chk v1 l)) k) /\ same_above rank v (fst (all_upstream chk v1 l)) k /\
       answers g (snd (all_upstream chk v1 l))
         (forall m' c', In (m', c') ((m, c) :: l) -> triggerable g m' \/ exists j, c' = Some (S j))).
    { intros v1 Hv1 Hs1 Hmc. destruct (IH v1 (fun x Hx => Hl x (or_intror Hx)) Hv1) as (G1 & G2 & G3).
      split; [exact G1|]. split; [intros x Hx; rewrite (G2 x Hx); apply Hs1, Hx|]. split.
      - intros E m' c' [Ei|Hin]; [injection Ei as <- <-; exact Hmc|]. exact (proj1 G3 E m' c' Hin).
      - intros E Hall. apply (proj2 G3 E). intros m' c' Hin. apply Hall. right. exact Hin. }
    destruct (chk v m) as [v1 [| | |]]; cbn [fst snd] in *.
    + apply Hrec; [exact (H1 I)|exact H2|]. left. apply H3. reflexivity.
    + destruct c as [[|j]|]; cbn [fst snd].
      * split; [exact H1|]. split; [exact H2|]. split; [discriminate|]. intros _ Hall.
        destruct (Hall m (Some 0) (or_introl eq_refl)) as [Ht|[j Hj]]; [exact (proj2 H3 eq_refl Ht)|discriminate].
      * apply Hrec; [exact (H1 I)|exact H2|]. right. exists j. reflexivity.
      * split; [intros []|]. split; [exact H2|]. split; discriminate.
    + split; [exact H1|]. split; [exact H2|]. split; discriminate.
    + split; [exact H1|]. split; [exact H2|]. split; discriminate.
Qed.

Lemma accessors_acyc g rank k chk accessors v : chk_acyc g rank k chk ->
  (forall m, In m (map fst accessors) -> rank m < k) -> right_below g rank v k ->
  (settled (snd (accessors_reachable chk v accessors)) -> right_below g rank (fst (accessors_reachable chk v accessors)) k) /\
  same_above rank v (fst (accessors_reachable chk v accessors)) k /\
  answers g (snd (accessors_reachable chk v accessors))
    (exists m u, In (m, u) accessors /\ (u = Some true \/ triggerable g m)).
Proof.
  intros Hc Hl Hv. unfold accessors_reachable. destruct (run_tests (map snd accessors)) eqn:E; cbn [fst snd].
  - split; [intros _; exact Hv|]. split; [intros m _; reflexivity|]. split; [|discriminate]. intros _.
    apply run_tests_yes in E. unfold works in E. apply in_map_iff in E.
    destruct E as [[m u] [E Hin]]. exists m, u. cbn in E. auto.
  - destruct (any_acyc g rank k chk Hc (map fst accessors) v Hl Hv) as (H1 & H2 & H3 & H4).
    split; [exact H1|]. split; [exact H2|]. split.
    + intros Hy. destruct (H3 Hy) as [m [Hin Ht]]. apply in_map_iff in Hin. destruct Hin as [[m' u] [<- Hin]].
      exists m', u. auto.
    + intros Hno [m [u [Hin [Hu|Ht]]]].
      * apply run_tests_no in E. apply E. unfold works. apply (in_map snd) in Hin. cbn in Hin. rewrite Hu in Hin. exact Hin.
      * apply (H4 Hno). exists m. split; [apply (in_map fst) in Hin; exact Hin|exact Ht].
  - split; [intros _; exact Hv|]. split; [intros m _; reflexivity|]. split; discriminate.
  - split; [intros _; exact Hv|]. split; [intros m _; reflexivity|]. split; discriminate.
Qed.

Lemma opening_acyc g rank k chk closed gates v : chk_acyc g rank k chk ->
  (forall m, In m (map fst gates) -> rank m < k) -> right_below g rank v k ->
  (settled (snd (opening_reachable chk v closed gates)) -> right_below g rank (fst (opening_reachable chk v closed gates)) k) /\
  same_above rank v (fst (opening_reachable chk v closed gates)) k /\
  answers g (snd (opening_reachable chk v closed gates))
    (closed = false \/ exists gate, In (gate, true) gates /\ triggerable g gate).
Proof.
  intros Hc Hl Hv. unfold opening_reachable. destruct closed; cbn [negb].
  - destruct (any_acyc g rank k chk Hc (map fst (filter snd gates)) v) as (H1 & H2 & H3 & H4); auto.
    { intros m Hm. apply Hl. apply in_map_iff in Hm. destruct Hm as [x [<- Hx]]. apply filter_In in Hx.
      apply in_map. apply Hx. }
    split; [exact H1|]. split; [exact H2|]. split.
    + intros Hy. destruct (H3 Hy) as [m [Hin Ht]]. apply in_map_iff in Hin. destruct Hin as [[m' b] [<- Hin]].
      apply filter_In in Hin. destruct Hin as [Hin Hb]. cbn in Hb. subst b. right. exists m'. auto.
    + intros Hno [Hx|[gate [Hin Ht]]]; [discriminate|]. apply (H4 Hno). exists gate. split; [|exact Ht].
      apply in_map_iff. exists (gate, true). split; [reflexivity|]. apply filter_In. auto.
  - cbn. split; [intros _; exact Hv|]. split; [intros m _; reflexivity|]. split; [auto|discriminate].
Qed.

Lemma answers_iff g r (P Q : Prop) : (P <-> Q) -> answers g r P -> answers g r Q.
Proof. unfold answers. tauto. Qed.

Lemma trig_iff g n : triggerable g n <-> fires g (triggerable g) n.
Proof. split; [apply trig_fires|apply fires_trig]. Qed.

Lemma reach_acyc g rank chk v n k : chk_acyc g rank (rank n) chk -> g n = Some k ->
  (forall m, consults g n m -> rank m < rank n) -> right_below g rank v (rank n) ->
  (settled (snd (is_reachable chk v k)) -> right_below g rank (fst (is_reachable chk v k)) (rank n)) /\
  same_above rank v (fst (is_reachable chk v k)) (rank n) /\
  answers g (snd (is_reachable chk v k)) (triggerable g n).
Proof.
  intros Hc Hk Hcon Hv. unfold consults in Hcon. rewrite Hk in Hcon.
  assert (Hfires : triggerable g n <-> fires g (triggerable g) n) by apply trig_iff.
  unfold fires in Hfires. rewrite Hk in Hfires.
  assert (Hself : right_below g rank v (rank n) /\ same_above rank v v (rank n))
    by (split; [exact Hv|intros m _; reflexivity]).
  destruct Hself as [Hself1 Hself2].
  destruct k as [tests inputs|tests wf inputs|has inner inputs|inputs
    |closed gates accessors has inputs|has min held told inputs]; cbn [is_reachable].
  - destruct (run_tests tests) eqn:E; cbn [fst snd].
    + split; [intros _; exact Hself1|]. split; [exact Hself2|]. split; [|discriminate].
      intros _. apply Hfires. left. apply run_tests_yes, E.
    + destruct (single_acyc g rank (rank n) chk inputs v Hc Hcon Hv) as (H1 & H2 & H3).
      split; [exact H1|]. split; [exact H2|]. eapply answers_iff; [|exact H3].
      rewrite Hfires. pose proof (run_tests_no _ E). tauto.
    + split; [intros _; exact Hself1|]. split; [exact Hself2|]. split; discriminate.
    + split; [intros _; exact Hself1|]. split; [exact Hself2|]. split; discriminate.
  - destruct (run_tests tests) eqn:E; cbn [fst snd].
    + split; [intros _; exact Hself1|]. split; [exact Hself2|]. split; [|discriminate].
      intros _. apply Hfires. left. apply run_tests_yes, E.
    + pose proof (run_tests_no _ E) as Hw. destruct wf as [sc|].
      * destruct (Hc v sc (Hcon sc (or_introl eq_refl)) Hv) as (H1 & H2 & H3).
        destruct (chk v sc) as [v1 [| | |]]; cbn [fst snd] in *.
        -- split; [exact H1|]. split; [exact H2|]. split; [|discriminate]. intros _. apply Hfires. right. left.
           exists sc. split; [reflexivity|]. apply H3. reflexivity.
        -- destruct (single_acyc g rank (rank n) chk inputs v1 Hc (fun m Hm => Hcon m (or_intror Hm)) (H1 I)) as (G1 & G2 & G3).
           split; [exact G1|]. split; [intros x Hx; rewrite (G2 x Hx); apply H2, Hx|].
           eapply answers_iff; [|exact G3]. rewrite Hfires. split; [tauto|].
           intros [Hx|[[sc' [E' Ht]]|Hx]]; [contradiction| |exact Hx]. injection E' as <-.
           exfalso. exact (proj2 H3 eq_refl Ht).
        -- split; [exact H1|]. split; [exact H2|]. split; discriminate.
        -- split; [exact H1|]. split; [exact H2|]. split; discriminate.
      * destruct (single_acyc g rank (rank n) chk inputs v Hc (fun m Hm => Hcon m (or_intror Hm)) Hv) as (H1 & H2 & H3).
        split; [exact H1|]. split; [exact H2|]. eapply answers_iff; [|exact H3]. rewrite Hfires. split; [tauto|].
        intros [Hx|[[sc' [E' Ht]]|Hx]]; [contradiction|discriminate|exact Hx].
    + split; [intros _; exact Hself1|]. split; [exact Hself2|]. split; discriminate.
    + split; [intros _; exact Hself1|]. split; [exact Hself2|]. split; discriminate.
  - destruct has as [[|]|]; cbn.
    + split; [intros _; exact Hself1|]. split; [exact Hself2|]. split; [|discriminate]. intros _. apply Hfires. auto.
    + destruct (single_acyc g rank (rank n) chk inputs v Hc Hcon Hv) as (H1 & H2 & H3).
      destruct inner as [[| | |]|]; cbn.
      * split; [intros _; exact Hself1|]. split; [exact Hself2|]. split; [|discriminate]. intros _. apply Hfires. auto.
      * split; [exact H1|]. split; [exact H2|]. eapply answers_iff; [|exact H3]. rewrite Hfires.
        split; [tauto|]. intros [Hx|[Hx|Hx]]; try discriminate. exact Hx.
      * split; [intros _; exact Hself1|]. split; [exact Hself2|]. split; discriminate.
      * split; [intros _; exact Hself1|]. split; [exact Hself2|]. split; discriminate.
      * split; [exact H1|]. split; [exact H2|]. eapply answers_iff; [|exact H3]. rewrite Hfires.
        split; [tauto|]. intros [Hx|[Hx|Hx]]; try discriminate. exact Hx.
    + split; [intros _; exact Hself1|]. split; [exact Hself2|]. split; discriminate.
  - destruct (all_acyc g rank (rank n) chk Hc inputs v Hcon Hv) as (H1 & H2 & H3).
    split; [exact H1|]. split; [exact H2|]. eapply answers_iff; [|exact H3]. symmetry. exact Hfires.
  - destruct (opening_acyc g rank (rank n) chk closed gates v Hc) as (H1 & H2 & H3); auto.
    destruct (opening_reachable chk v closed gates) as [v1 r]. cbn [fst snd] in *.
    pose proof (accessors_acyc g rank (rank n) chk accessors v1 Hc (fun m Hm => Hcon m (or_intror (or_introl Hm)))) as HA.
    destruct r.
    + destruct (HA (H1 I)) as (A1 & A2 & A3). pose proof (proj1 H3 eq_refl) as Hop. destruct has as [[|]|]; cbn.
      * split; [exact H1|]. split; [exact H2|]. split; [|discriminate]. intros _. apply Hfires. right. auto.
      * destruct (accessors_reachable chk v1 accessors) as [v2 r2]. cbn [fst snd] in *.
        assert (Hs2 : same_above rank v v2 (rank n)) by (intros x Hx; rewrite (A2 x Hx); apply H2, Hx).
        destruct r2; cbn [fst snd].
        -- split; [exact A1|]. split; [exact Hs2|]. split; [|discriminate]. intros _. apply Hfires. left. apply A3. reflexivity.
        -- destruct (single_acyc g rank (rank n) chk inputs v2 Hc (fun m Hm => Hcon m (or_intror (or_intror Hm))) (A1 I)) as (G1 & G2 & G3).
           split; [exact G1|]. split; [intros x Hx; rewrite (G2 x Hx); apply Hs2, Hx|].
           eapply answers_iff; [|exact G3]. rewrite Hfires. pose proof (proj2 A3 eq_refl) as Hna. split; [tauto|].
           intros [Hx|[_ [Hx|Hx]]]; [contradiction|discriminate|exact Hx].
        -- split; [exact A1|]. split; [exact Hs2|]. split; discriminate.
        -- split; [exact A1|]. split; [exact Hs2|]. split; discriminate.
      * split; [intros []|]. split; [exact H2|]. split; discriminate.
    + destruct (HA (H1 I)) as (A1 & A2 & A3). pose proof (proj2 H3 eq_refl) as Hop. split; [exact A1|].
      split; [intros x Hx; rewrite (A2 x Hx); apply H2, Hx|].
      eapply answers_iff; [|exact A3]. rewrite Hfires. tauto.
    + split; [exact H1|]. split; [exact H2|]. split; discriminate.
    + split; [exact H1|]. split; [exact H2|]. split; discriminate.
  - destruct has as [[|]|]; cbn.
    + split; [intros _; exact Hself1|]. split; [exact Hself2|]. split; [|discriminate]. intros _. apply Hfires. auto.
    + destruct (match held with Some h => (min <=? h) && told | None => false end) eqn:E; cbn [fst snd].
      * split; [intros _; exact Hself1|]. split; [exact Hself2|]. split; [|discriminate]. intros _. apply Hfires.
        right. left. destruct held as [h|]; [|discriminate]. apply andb_prop in E. destruct E as [E1 E2].
        apply Nat.leb_le in E1. exists h. auto.
      * destruct (single_acyc g rank (rank n) chk inputs v Hc Hcon Hv) as (H1 & H2 & H3).
        split; [exact H1|]. split; [exact H2|]. eapply answers_iff; [|exact H3]. rewrite Hfires. split; [tauto|].
        intros [Hx|[[h [-> [-> Hle]]]|Hx]]; [discriminate| |exact Hx].
        apply Nat.leb_le in Hle. rewrite Hle in E. discriminate.
    + split; [intros _; exact Hself1|]. split; [exact Hself2|]. split; discriminate.
Qed.

Lemma check_acyc g rank : ranked g rank -> forall fuel k, chk_acyc g rank k (check_upstream fuel g).
Proof.
  intros Hr. induction fuel as [|fuel IH]; intros k v n Hn Hv; cbn [check_upstream].
  - cbn. split; [intros _; exact Hv|]. split; [intros m _; reflexivity|]. split; discriminate.
  - destruct (v n) as [b|] eqn:En; cbn [fst snd].
    + split; [intros _; exact Hv|]. split; [intros m _; reflexivity|]. pose proof (Hv n b En Hn) as Hb.
      destruct b; split; try discriminate; intros _; [apply Hb; reflexivity|].
      intros Ht. apply Hb in Ht. discriminate.
    + set (v1 := emap_set v n (Some false)).
      assert (Hv1 : right_below g rank v1 (rank n)).
      { intros m b Hm Hlt. unfold v1 in Hm. destruct (Nat.eq_dec m n) as [->|Hne]; [lia|].
        rewrite emap_set_neq in Hm by assumption. apply (Hv m b Hm). lia. }
      assert (Hs1 : same_above rank v v1 k).
      { intros m Hm. unfold v1. apply emap_set_neq. intros ->. lia. }
      assert (Hwhole : forall v2 b, right_below g rank v2 (rank n) -> same_above rank v1 v2 (rank n) ->
                (b = true <-> triggerable g n) -> right_below g rank (emap_set v2 n (Some b)) k).
      { intros v2 b H2 Hs2 Hb m c Hm Hlt. destruct (Nat.eq_dec m n) as [->|Hne].
        - rewrite emap_set_eq in Hm. injection Hm as <-. exact Hb.
        - rewrite emap_set_neq in Hm by assumption. destruct (Nat.lt_ge_cases (rank m) (rank n)) as [Hl|Hl].
          + apply (H2 m c Hm Hl).
          + rewrite (Hs2 m Hl) in Hm. unfold v1 in Hm. rewrite emap_set_neq in Hm by assumption.
            apply (Hv m c Hm Hlt). }
      destruct (g n) as [kd|] eqn:Ek; cbn [fst snd].
      * destruct (reach_acyc g rank (check_upstream fuel g) v1 n kd (IH (rank n)) Ek (fun m Hm => Hr n m Hm) Hv1) as (H1 & H2 & H3).
        destruct (is_reachable (check_upstream fuel g) v1 kd) as [v2 r]; cbn [fst snd] in *.
        assert (Hs2 : same_above rank v v2 k).
        { intros m Hm. rewrite (H2 m) by lia. apply Hs1, Hm. }
        assert (Hkeep : right_below g rank v2 (rank n) -> ~ triggerable g n -> right_below g rank v2 k).
        { intros H1' Hnt m c Hm Hlt. apply (Hwhole v2 false H1' H2); [split; [discriminate|contradiction]| |exact Hlt].
          destruct (Nat.eq_dec m n) as [->|Hne]; [|rewrite emap_set_neq; assumption].
          rewrite (H2 n) in Hm by lia. unfold v1 in Hm. rewrite emap_set_eq in Hm. rewrite emap_set_eq. exact Hm. }
        destruct r; cbn [fst snd].
        -- split; [intros _; apply Hwhole; [exact (H1 I)|exact H2|]; split; auto; intros _; apply H3; reflexivity|].
           split; [|exact H3]. intros m Hm. rewrite emap_set_neq; [apply Hs2, Hm|]. intros ->. lia.
        -- split; [intros _; apply Hkeep; [exact (H1 I)|apply H3; reflexivity]|]. split; [exact Hs2|exact H3].
        -- split; [intros []|]. split; [exact Hs2|split; discriminate].
        -- split; [intros []|]. split; [exact Hs2|split; discriminate].
      * split; [intros []|]. split; [exact Hs1|split; discriminate].
Qed.

Lemma reachability_no_acyc g rank fuel n : ranked g rank ->
  check_reachability fuel g n = RNo -> ~ triggerable g n.
Proof.
  intros Hr H. unfold check_reachability in H.
  destruct (check_acyc g rank Hr fuel (S (rank n)) emap_empty n) as (_ & _ & _ & H3).
  - lia.
  - intros m b Hm. discriminate.
  - exact (H3 H).
Qed.

(** * Downstream *)

Lemma immediate_plain w n m : one_storage w -> (In m (immediately_downstream w n) <-> plain w n m).
Proof.
  intros Hone. unfold immediately_downstream. rewrite in_app_iff. split.
  - intros [H|H]; [|apply P_stream, H]. destruct (out_single (w n)) as [t|] eqn:E.
    + destruct H as [<-|[]]. apply P_single, E.
    + destruct (out_fork (w n)) as [l|] eqn:F; [eapply P_fork; eassumption|destruct H].
  - intros [H|l H1 H2|H].
    + rewrite H. left. left. reflexivity.
    + destruct (Hone n) as [E|E]; [|congruence]. rewrite E, H1. left. exact H2.
    + right. exact H.
Qed.

Lemma seen_in x seen : existsb (Nat.eqb x) seen = true <-> In x seen.
Proof.
  rewrite existsb_exists. split.
  - intros [y [Hy E]]. apply Nat.eqb_eq in E. subst. exact Hy.
  - intros H. exists x. split; [exact H|apply Nat.eqb_refl].
Qed.

Definition degree (w : entity -> outputs) (n : entity) : nat := length (immediately_downstream w n).
Definition left_over (w : entity -> outputs) (seen nodes : list entity) : nat :=
  list_sum (map (degree w) (filter (fun n => negb (existsb (Nat.eqb n) seen)) nodes)).

Lemma list_sum_cons x l : list_sum (x :: l) = x + list_sum l.
Proof. reflexivity. Qed.

Lemma left_over_le w seen top nodes : left_over w (top :: seen) nodes <= left_over w seen nodes.
Proof.
  unfold left_over. induction nodes as [|n nodes IH]; [reflexivity|]. cbn [filter existsb] in *.
  destruct (n =? top); cbn [orb]; destruct (existsb (Nat.eqb n) seen); cbn [negb map]; rewrite ?list_sum_cons; lia.
Qed.

Lemma left_over_lt w seen top nodes : In top nodes -> existsb (Nat.eqb top) seen = false ->
  left_over w (top :: seen) nodes + degree w top <= left_over w seen nodes.
Proof.
  intros Hin Hs. induction nodes as [|n nodes IH]; [destruct Hin|].
  destruct Hin as [->|Hin].
  - pose proof (left_over_le w seen top nodes). unfold left_over in *. cbn [filter existsb] in *.
    rewrite Nat.eqb_refl, Hs. cbn [orb negb map]. rewrite list_sum_cons. lia.
  - specialize (IH Hin). unfold left_over in *. cbn [filter existsb] in *.
    destruct (n =? top) eqn:E; cbn [orb negb].
    + apply Nat.eqb_eq in E. subst n. rewrite Hs. cbn [negb map]. rewrite list_sum_cons. lia.
    + destruct (existsb (Nat.eqb n) seen); cbn [negb map]; rewrite ?list_sum_cons; lia.
Qed.

Lemma down_ends w nodes target : one_storage w -> confined w nodes ->
  forall fuel queue seen, (forall q, In q queue -> In q nodes) ->
  length queue + left_over w seen nodes < fuel -> downstream_loop fuel w queue seen target <> None.
Proof.
  intros Hone Hconf. induction fuel as [|fuel IH]; intros queue seen Hq Hf; [lia|].
  cbn [downstream_loop]. destruct queue as [|top rest]; [discriminate|].
  destruct (top =? target); [discriminate|]. cbn [length] in Hf.
  destruct (existsb (Nat.eqb top) seen) eqn:E.
  - apply IH; [intros q H; apply Hq; right; exact H|lia].
  - apply IH.
    + intros q H. apply in_app_iff in H. destruct H as [H|H]; [|apply Hq; right; exact H].
      rewrite <- in_rev in H. apply (Hconf top); [apply Hq; left; reflexivity|].
      apply immediate_plain; assumption.
    + rewrite app_length, rev_length. pose proof (left_over_lt w seen top nodes (Hq top (or_introl eq_refl)) E).
      unfold degree in *. lia.
Qed.

Lemma down_yes w target : one_storage w -> forall fuel queue seen,
  downstream_loop fuel w queue seen target = Some true ->
  exists q, In q queue /\ chain (plain w) q target.
Proof.
  intros Hone. induction fuel as [|fuel IH]; intros queue seen H; [discriminate|].
  cbn [downstream_loop] in H. destruct queue as [|top rest]; [discriminate|].
  destruct (top =? target) eqn:E.
  - apply Nat.eqb_eq in E. subst top. exists target. split; [left; reflexivity|apply C_here].
  - destruct (existsb (Nat.eqb top) seen).
    + destruct (IH _ _ H) as [q [Hq Hc]]. exists q. split; [right; exact Hq|exact Hc].
    + destruct (IH _ _ H) as [q [Hq Hc]]. apply in_app_iff in Hq. destruct Hq as [Hq|Hq].
      * rewrite <- in_rev in Hq. exists top. split; [left; reflexivity|].
        eapply C_step; [apply immediate_plain; eassumption|exact Hc].
      * exists q. split; [right; exact Hq|exact Hc].
Qed.

Lemma down_no w target : one_storage w -> forall fuel queue seen,
  (forall x, In x seen -> x <> target /\ forall y, plain w x y -> In y seen \/ In y queue) ->
  downstream_loop fuel w queue seen target = Some false ->
  forall x, In x seen \/ In x queue -> ~ chain (plain w) x target.
Proof.
  intros Hone. induction fuel as [|fuel IH]; intros queue seen Hinv H; [discriminate|].
  cbn [downstream_loop] in H. destruct queue as [|top rest].
  - intros x [Hx|[]] Hc. induction Hc as [t|x y t Hs Hc IHc].
    + exact (proj1 (Hinv t Hx) eq_refl).
    + destruct (proj2 (Hinv x Hx) y Hs) as [Hy|[]]. exact (IHc IH Hinv Hy).
  - destruct (top =? target) eqn:E; [discriminate|]. apply Nat.eqb_neq in E.
    destruct (existsb (Nat.eqb top) seen) eqn:Es.
    + apply seen_in in Es. intros x Hx. refine (IH _ _ _ H x _).
      * intros z Hz. destruct (Hinv z Hz) as [H1 H2]. split; [exact H1|]. intros y Hy.
        destruct (H2 y Hy) as [Hs|[<-|Hr]]; auto.
      * destruct Hx as [Hx|[<-|Hx]]; auto.
    + intros x Hx. refine (IH _ _ _ H x _).
      * intros z Hz. destruct Hz as [<-|Hz].
        -- split; [exact E|]. intros y Hy. right. apply in_app_iff. left. rewrite <- in_rev.
           apply immediate_plain; assumption.
        -- destruct (Hinv z Hz) as [H1 H2]. split; [exact H1|]. intros y Hy.
           destruct (H2 y Hy) as [Hs|[<-|Hr]].
           ++ left. right. exact Hs.
           ++ left. left. reflexivity.
           ++ right. apply in_app_iff. right. exact Hr.
      * destruct Hx as [Hx|[<-|Hx]].
        -- left. right. exact Hx.
        -- left. left. reflexivity.
        -- right. apply in_app_iff. right. exact Hx.
Qed.

Lemma degree_le w nodes : left_over w [] nodes <= connections w nodes.
Proof.
  unfold left_over, connections. induction nodes as [|n nodes IH]; [reflexivity|].
  cbn [filter existsb negb map] in *. rewrite !list_sum_cons.
  assert (H : degree w n <= (match out_single (w n) with Some _ => 1 | None => 0 end)
                        + length (match out_fork (w n) with Some l => l | None => [] end)
                        + length (out_anonymous (w n))).
  { unfold degree, immediately_downstream. rewrite app_length. destruct (out_single (w n)); cbn [length]; [lia|].
    destruct (out_fork (w n)); cbn [length]; lia. }
  lia.
Qed.

Lemma downstream_exact w nodes source target fuel :
  one_storage w -> confined w nodes -> In source nodes -> 1 + connections w nodes < fuel ->
  exists b, is_downstream_of fuel w source target = Some b /\
            (b = true <-> source <> target /\ chain (plain w) source target).
Proof.
  intros Hone Hconf Hin Hf. unfold is_downstream_of. destruct (source =? target) eqn:E.
  - apply Nat.eqb_eq in E. exists false. split; [reflexivity|]. split; [discriminate|]. intros [H _]. contradiction.
  - apply Nat.eqb_neq in E.
    assert (Hn : downstream_loop fuel w [source] [] target <> None).
    { apply (down_ends w nodes); auto.
      - intros q [<-|[]]. exact Hin.
      - pose proof (degree_le w nodes). cbn. lia. }
    destruct (downstream_loop fuel w [source] [] target) as [[|]|] eqn:L; [| |congruence].
    + exists true. split; [reflexivity|]. split; [|auto]. intros _. split; [exact E|].
      destruct (down_yes w target Hone _ _ _ L) as [q [[<-|[]] Hc]]. exact Hc.
    + exists false. split; [reflexivity|]. split; [discriminate|]. intros [_ Hc]. exfalso.
      refine (down_no w target Hone _ _ _ _ L source _ Hc); [intros x []|right; left; reflexivity].
Qed.

Lemma chain_mono (P Q : entity -> entity -> Prop) : (forall n m, P n m -> Q n m) ->
  forall n m, chain P n m -> chain Q n m.
Proof. intros H n m Hc. induction Hc; [apply C_here|eapply C_step; eauto]. Qed.

(** * The statements of the properties *)

Lemma answers_fuel g nodes n fuel : well_formed g nodes -> In n nodes -> length nodes < fuel ->
  check_reachability fuel g n = RYes \/ check_reachability fuel g n = RNo.
Proof.
  intros Hwf Hin Hf. replace fuel with (S (length nodes) + (fuel - S (length nodes))) by lia.
  apply (reachability_answers g nodes n Hwf Hin).
Qed.

Lemma exact_of_no g nodes n fuel : well_formed g nodes -> In n nodes -> length nodes < fuel ->
  (check_reachability fuel g n = RNo -> ~ triggerable g n) ->
  (check_reachability fuel g n = RYes <-> triggerable g n) /\
  (check_reachability fuel g n = RNo <-> ~ triggerable g n).
Proof.
  intros Hwf Hin Hf Hno. pose proof (reachability_yes g fuel n) as Hyes.
  destruct (answers_fuel g nodes n fuel Hwf Hin Hf) as [E|E]; rewrite E in *.
  - specialize (Hyes eq_refl). split; split; auto; try discriminate; intros; contradiction.
  - specialize (Hno eq_refl). split; split; auto; try discriminate; intros; contradiction.
Qed.

Lemma reachability_exact_or g nodes n fuel :
  well_formed g nodes -> In n nodes -> length nodes < fuel ->
  (forall m k, g m = Some k -> one_suffices k) ->
  (check_reachability fuel g n = RYes <-> triggerable g n) /\
  (check_reachability fuel g n = RNo <-> ~ triggerable g n).
Proof. intros Hwf Hin Hf Ho. apply (exact_of_no g nodes); auto. apply reachability_no_or, Ho. Qed.

Lemma reachability_exact_acyc g nodes rank n fuel :
  well_formed g nodes -> In n nodes -> length nodes < fuel -> ranked g rank ->
  (check_reachability fuel g n = RYes <-> triggerable g n) /\
  (check_reachability fuel g n = RNo <-> ~ triggerable g n).
Proof. intros Hwf Hin Hf Hr. apply (exact_of_no g nodes); auto. apply (reachability_no_acyc g rank), Hr. Qed.

Lemma upstream_active_no' g fuel n has min held told inputs m :
  (forall m k, g m = Some k -> one_suffices k) ->
  g n = Some (KCollect has min held told inputs) -> is_upstream_active fuel g n = RNo ->
  has = Some false /\
  (listed m inputs -> ~ triggerable (fun x => if Nat.eq_dec x n then Some (KWork [] None) else g x) m).
Proof.
  intros Ho Hk H. destruct (upstream_active_no g fuel n has min held told inputs m Ho Hk H) as [H1 H2].
  split; [exact H1|]. intros Hl Ht. apply (H2 Hl).
  revert m Hl H2 Ht. intros m _ _. revert m. apply trig_least. intros x Hf. apply fires_trig.
  unfold fires, stopped in *. destruct (Nat.eq_dec x n) as [->|Hne];
    [rewrite emap_set_eq; exact Hf|rewrite emap_set_neq by assumption; exact Hf].
Qed.

Definition cycle_graph : emap rkind := fun n =>
  match n with
  | 0 => Some (KJoin [(1, Some 0); (2, Some 0)])
  | 1 => Some (KBuffer false [] [(5, Some false)] (Some false) (Some [4; 3]))
  | 2 => Some (KBuffer false [] [(4, Some false)] (Some false) (Some [5]))
  | 3 => Some (KWork [Some true] (Some []))
  | 4 => Some (KWork [Some false] (Some [2]))
  | 5 => Some (KWork [Some false] (Some [1]))
  | _ => None
  end.

Lemma join_cycle_refuted :
  exists g nodes n, well_formed g nodes /\ In n nodes /\ triggerable g n /\
    forall fuel, length nodes < fuel -> check_reachability fuel g n = RNo.
Proof.
  assert (Hl : forall m l, listed m (Some l) -> In m l).
  { intros m l [l' [E H]]. injection E as <-. exact H. }
  assert (Hwf : well_formed cycle_graph [0;1;2;3;4;5]).
  { split; [|split].
    - intros n. split.
      + do 6 (destruct n as [|n]; [intros _; cbn; tauto|]). cbn. congruence.
      + cbn. intros H. repeat (destruct H as [<-|H]; [discriminate|]). destruct H.
    - intros n k H. do 6 (destruct n as [|n]; [injection H as <-; cbn; intuition discriminate|]). discriminate.
    - intros n m H. do 6 (destruct n as [|n]; [cbn in H; repeat (destruct H as [H|H]); try (apply Hl in H; cbn in H);
        cbn; intuition lia|]). destruct H. }
  exists cycle_graph, [0;1;2;3;4;5], 0. split; [exact Hwf|]. split; [left; reflexivity|].
  assert (H3 : triggerable cycle_graph 3) by (eapply T_work; [reflexivity|left; reflexivity]).
  assert (H1 : triggerable cycle_graph 1).
  { eapply T_buffer_open; [reflexivity|]. right. exists 3. split; [exists [4;3]; cbn; auto|exact H3]. }
  assert (H2 : triggerable cycle_graph 2).
  { eapply T_buffer_open; [reflexivity|]. right. exists 5. split; [exists [5]; cbn; auto|].
    eapply T_work_in with (m := 1); [reflexivity|exists [1]; cbn; auto|exact H1]. }
  split.
  - eapply T_join; [reflexivity|]. intros m c [E|[E|[]]]; injection E as <- <-; left; assumption.
  - intros fuel Hf. cbn [length] in Hf.
    destruct (reachability_answers cycle_graph [0;1;2;3;4;5] 0 Hwf (or_introl eq_refl) (fuel - 7)) as [E _].
    cbn [length] in E. replace (7 + (fuel - 7)) with fuel in E by lia. rewrite E. reflexivity.
Qed.

Lemma named_stream_refuted :
  exists w source target, one_storage w /\ source <> target /\ chain (connected w) source target /\
    forall fuel, 2 <= fuel -> is_downstream_of fuel w source target = Some false.
Proof.
  exists (fun n => match n with 0 => mk_outputs None None [] [1] | _ => mk_outputs None None [] [] end), 0, 1.
  split; [intros [|n]; cbn; auto|]. split; [lia|]. split.
  - eapply C_step with (m := 1); [right; left; reflexivity|apply C_here].
  - intros fuel Hf. destruct fuel as [|[|fuel]]; [lia|lia|]. reflexivity.
Qed.
