(** The checks a workflow makes: where answers come from, and that they are given. The
    effect of collecting and of disposal notices. *)
From Verif Require Import Base RosterModel BufferModel InputModel InputSpec InputProofs GateModel
  OpsModel OpsSpec OpsProofs ReachModel ReachSpec ReachProofs ExecModel ExecSpec ExecProofs.

(** A message of session [s] waits at [n]. *)
Definition waits (o : oworld) (s n : entity) : Prop := exists v, In (s, v) (pending (o_w o) n).

(** [m] can be reached from [n] along connections. *)
Definition reaches (f : workflow) : entity -> entity -> Prop :=
  chain (fun n t => In t (node_targets f n)).

Lemma leads_reaches f n : leads f n <-> reaches f n (f_terminal f).
Proof.
  split.
  - induction 1 as [|n t Ht _ IH]; [apply C_here|exact (C_step _ n t _ Ht IH)].
  - unfold reaches. intros H. remember (f_terminal f) as z eqn:Ez. induction H as [n|n m t Hs _ IH].
    + subst. apply L_here.
    + exact (L_next f n m Hs (IH Ez)).
Qed.

Lemma reaches_leads f n m : reaches f n m -> leads f m -> leads f n.
Proof. induction 1 as [n|n m t Hs _ IH]; intros H; [exact H|]. exact (L_next f n m Hs (IH H)). Qed.

Lemma reaches_trans f a b c : reaches f a b -> reaches f b c -> reaches f a c.
Proof. induction 1 as [n|n m t Hs _ IH]; intros H; [exact H|]. exact (C_step _ n m c Hs (IH H)). Qed.

Lemma reaches_snoc f a b c : reaches f a b -> In c (node_targets f b) -> reaches f a c.
Proof. intros H1 H2. eapply reaches_trans; [exact H1|]. exact (C_step _ b c c H2 (C_here _ c)). Qed.

Lemma existsb_eqb n l : existsb (Nat.eqb n) l = true <-> In n l.
Proof.
  rewrite existsb_exists. split.
  - intros [x [Hx E]]. apply Nat.eqb_eq in E. subst. exact Hx.
  - intros H. exists n. split; [exact H|apply Nat.eqb_refl].
Qed.

Lemma inputs_targets f n m : In m (inputs_of f n) <-> In m (f_nodes f) /\ In n (node_targets f m).
Proof. unfold inputs_of. rewrite filter_In, existsb_eqb. tauto. Qed.

Lemma targets_working f m t : In t (node_targets f m) -> working f m.
Proof.
  unfold node_targets, working. destruct (f_kind f m) as [k|] eqn:E; [|intros []].
  intros H. split; [discriminate|]. intros H2. injection H2 as ->. destruct H.
Qed.

Lemma has_waits f o s n : shaped f o -> working f n ->
  exists b, has_input (o_w o) n s = Some b /\ (b = true <-> waits o s n).
Proof.
  intros Ho Hw. destruct (working_node f o n Ho Hw) as [nd [q [En [Eq _]]]].
  unfold has_input, waits. rewrite pending_node, En, Eq. eexists. split; [reflexivity|].
  unfold contains_session. rewrite existsb_exists. split.
  - intros [[s' v] [Hin E]]. cbn in E. apply Nat.eqb_eq in E. subst. exists v. apply in_rev in Hin. exact Hin.
  - intros [v Hin]. exists (s, v). split; [apply in_rev; exact Hin|apply Nat.eqb_refl].
Qed.

Definition workers (f : workflow) : list entity := filter (fun n => negb (unused f n)) (f_nodes f).

Lemma in_workers f n : built f -> (In n (workers f) <-> working f n).
Proof.
  intros (_ & Hn & _). unfold workers, working. rewrite filter_In, Hn. unfold unused.
  destruct (f_kind f n) as [k|]; [|split; [intros [H _]|intros [H _]]; congruence].
  destruct k; cbn; intuition congruence.
Qed.

Lemma workers_length f : length (workers f) <= length (f_nodes f).
Proof. apply filter_length_le. Qed.

Lemma rkind_working f o s origin n : rkind_of f o s origin n <> None <-> working f n.
Proof.
  unfold rkind_of, working. destruct (f_kind f n) as [k|]; [|split; [congruence|intros [H _]; congruence]].
  destruct k; split; try (intros _; split; discriminate); try discriminate; try congruence; intros [_ H]; congruence.
Qed.

Lemma checks_well_formed f o s origin : built f -> shaped f o ->
  well_formed (rkind_of f o s origin) (workers f).
Proof.
  intros Hb Ho. split; [|split].
  - intros n. rewrite in_workers by exact Hb. apply rkind_working.
  - intros n k Hk. assert (Hw : working f n) by (apply (rkind_working f o s origin); congruence).
    destruct (has_waits f o s n Ho Hw) as [b [E _]]. unfold rkind_of in Hk. rewrite E in Hk.
    destruct (f_kind f n) as [[]|]; try discriminate; injection Hk as <-; cbn; try discriminate;
      intros [H|[]]; discriminate.
  - intros n m Hc. rewrite in_workers by exact Hb.
    assert (Hm : In m (inputs_of f n)).
    { unfold consults, rkind_of in Hc. destruct (f_kind f n) as [[]|]; try destruct Hc;
        destruct H as [H H']; injection H as <-; exact H'. }
    apply inputs_targets in Hm. exact (targets_working f m n (proj2 Hm)).
Qed.

Lemma terminal_working f : built f -> working f (f_terminal f).
Proof.
  intros (_ & _ & _ & _ & Ht & _). destruct (Ht (f_terminal f)) as [_ H]. specialize (H eq_refl).
  split; rewrite H; discriminate.
Qed.

Lemma terminal_answer f o s origin : built f -> shaped f o ->
  let r := check_reachability (reach_fuel f) (rkind_of f o s origin) (f_terminal f) in r = RYes \/ r = RNo.
Proof.
  intros Hb Ho. pose proof (checks_well_formed f o s origin Hb Ho) as Hwf.
  destruct (check_ends _ _ Hwf (reach_fuel f) emap_empty (f_terminal f)) as [_ H].
  - apply in_workers; [exact Hb|]. apply terminal_working, Hb.
  - rewrite unseen_empty. unfold reach_fuel. pose proof (workers_length f). lia.
  - exact H.
Qed.

Lemma collect_working f n : is_collect f n = true -> working f n.
Proof. unfold is_collect, working. destruct (f_kind f n) as [[]|]; try discriminate. split; discriminate. Qed.

Lemma collect_rkind f o s origin n : is_collect f n = true -> exists min held told,
  rkind_of f o s origin n = Some (KCollect (has_input (o_w o) n s) min held told (Some (inputs_of f n))).
Proof.
  unfold is_collect, rkind_of. destruct (f_kind f n) as [[]|]; try discriminate. intros _.
  eexists _, _, _. reflexivity.
Qed.

Lemma active_answer f o s n origin : built f -> shaped f o -> is_collect f n = true ->
  upstream_active f o s n origin <> None.
Proof.
  intros Hb Ho Hc. pose proof (checks_well_formed f o s origin Hb Ho) as Hwf.
  destruct (collect_rkind f o s origin n Hc) as [min [held [told E]]].
  destruct (has_waits f o s n Ho (collect_working f n Hc)) as [b [Eh _]].
  unfold upstream_active, is_upstream_active. rewrite E, Eh. destruct b; cbn [run_tests]; [discriminate|].
  destruct (single_ends (workers f) (reach_fuel f) (check_upstream (reach_fuel f) (rkind_of f o s origin))
              (Some (inputs_of f n)) (emap_set emap_empty n (Some false))) as [_ H].
  - apply check_ends, Hwf.
  - intros m [l [El Hin]]. injection El as <-. apply in_workers; [exact Hb|].
    apply inputs_targets in Hin. exact (targets_working f m n (proj2 Hin)).
  - apply (Nat.le_lt_trans _ (unseen (workers f) emap_empty)).
    + apply unseen_le. intros m Hm. exfalso. apply Hm. reflexivity.
    + rewrite unseen_empty. unfold reach_fuel. pose proof (workers_length f). lia.
  - destruct H as [-> | ->]; discriminate.
Qed.

(** ** Where a positive answer comes from *)
Definition simple_kind (k : rkind) : Prop :=
  match k with KWork _ _ | KCollect _ _ _ _ _ => True | _ => False end.

Definition own (k : rkind) : Prop :=
  match k with
  | KWork tests _ => works tests
  | KCollect has min held told _ => has = Some true \/ (exists h, held = Some h /\ min <= h /\ told = true)
  | _ => False
  end.
Definition ins (k : rkind) : option (list entity) :=
  match k with KWork _ i | KCollect _ _ _ _ i => i | _ => None end.

Lemma run_tests_yes' tests : run_tests tests = RYes -> works tests.
Proof.
  induction tests as [|[[|]|] tests IH]; cbn; try discriminate; intros H.
  - left. reflexivity.
  - right. apply IH, H.
Qed.

Section Avoid.
Variables (g : emap rkind) (n : entity) (P : entity -> Prop).
Hypothesis Hsimple : forall m k, g m = Some k -> simple_kind k.
Hypothesis Hclosed : forall m k, m <> n -> g m = Some k -> own k \/ (exists m', listed m' (ins k) /\ P m') -> P m.

Definition fair (v : emap bool) : Prop := v n = Some false /\ (forall m, v m = Some true -> P m).
Definition fair_check (chk : emap bool -> entity -> emap bool * rres) : Prop :=
  forall v m, fair v -> fair (fst (chk v m)) /\ (snd (chk v m) = RYes -> P m).

Lemma any_fair chk : fair_check chk -> forall l v, fair v ->
  fair (fst (any_upstream chk v l)) /\ (snd (any_upstream chk v l) = RYes -> exists m, In m l /\ P m).
Proof.
  intros Hc. induction l as [|m l IH]; intros v Hv; cbn [any_upstream].
  - split; [exact Hv|discriminate].
  - destruct (Hc v m Hv) as [H1 H2]. destruct (chk v m) as [v1 r]. cbn [fst snd] in *. destruct r; cbn [fst snd].
    + split; [exact H1|]. intros _. exists m. split; [left; reflexivity|]. apply H2. reflexivity.
    + destruct (IH v1 H1) as [H3 H4]. split; [exact H3|]. intros H. destruct (H4 H) as [x [Hx Hp]].
      exists x. split; [right; exact Hx|exact Hp].
    + split; [exact H1|discriminate].
    + split; [exact H1|discriminate].
Qed.

Lemma single_fair chk : fair_check chk -> forall inputs v, fair v ->
  fair (fst (single_input chk v inputs)) /\
  (snd (single_input chk v inputs) = RYes -> exists m, listed m inputs /\ P m).
Proof.
  intros Hc [l|] v Hv; cbn [single_input].
  - destruct (any_fair chk Hc l v Hv) as [H1 H2]. split; [exact H1|]. intros H. destruct (H2 H) as [m [Hm Hp]].
    exists m. split; [exists l; auto|exact Hp].
  - split; [exact Hv|discriminate].
Qed.

Lemma reach_fair chk k : fair_check chk -> simple_kind k -> forall v, fair v ->
  fair (fst (is_reachable chk v k)) /\
  (snd (is_reachable chk v k) = RYes -> own k \/ exists m, listed m (ins k) /\ P m).
Proof.
  intros Hc Hk v Hv. destruct k as [tests inputs| | | | |has min held told inputs]; try destruct Hk;
    cbn [is_reachable own ins].
  - destruct (run_tests tests) eqn:E; cbn [fst snd].
    + split; [exact Hv|]. intros _. left. apply run_tests_yes', E.
    + destruct (single_fair chk Hc inputs v Hv) as [H1 H2]. split; [exact H1|]. intros H. right. apply H2, H.
    + split; [exact Hv|discriminate].
    + split; [exact Hv|discriminate].
  - destruct (run_tests [has]) eqn:E; cbn [fst snd].
    + split; [exact Hv|]. intros _. left. left. apply run_tests_yes' in E. destruct E as [->|[]]. reflexivity.
    + destruct (match held with Some h => (min <=? h) && told | None => false end) eqn:Eh; cbn [fst snd].
      * split; [exact Hv|]. intros _. left. right. destruct held as [h|]; [|discriminate].
        apply andb_prop in Eh. destruct Eh as [E1 E2]. apply Nat.leb_le in E1. exists h. auto.
      * destruct (single_fair chk Hc inputs v Hv) as [H1 H2]. split; [exact H1|]. intros H. right. apply H2, H.
    + split; [exact Hv|discriminate].
    + split; [exact Hv|discriminate].
Qed.

Lemma fair_set v m b : fair v -> m <> n -> (b = true -> P m) -> fair (emap_set v m (Some b)).
Proof.
  intros [H1 H2] Hne Hb. split.
  - rewrite emap_set_neq; auto.
  - intros x. destruct (Nat.eq_dec x m) as [->|Hx].
    + rewrite emap_set_eq. intros E. injection E as ->. auto.
    + rewrite emap_set_neq by assumption. apply H2.
Qed.

Lemma check_fair : forall fuel, fair_check (check_upstream fuel g).
Proof.
  induction fuel as [|fuel IH]; intros v m Hv; cbn [check_upstream].
  - split; [exact Hv|discriminate].
  - destruct (v m) as [b|] eqn:Em; cbn [fst snd].
    + split; [exact Hv|]. destruct b; [|discriminate]. intros _. apply Hv, Em.
    + assert (Hne : m <> n) by (intros ->; destruct Hv as [H _]; congruence).
      assert (Hv1 : fair (emap_set v m (Some false))) by (apply fair_set; auto; discriminate).
      destruct (g m) as [k|] eqn:Eg; cbn [fst snd]; [|split; [exact Hv1|discriminate]].
      destruct (reach_fair _ k IH (Hsimple m k Eg) _ Hv1) as [H1 H2].
      destruct (is_reachable (check_upstream fuel g) (emap_set v m (Some false)) k) as [v2 r].
      cbn [fst snd] in *. destruct r; cbn [fst snd].
      * assert (Hp : P m) by (apply (Hclosed m k Hne Eg), H2; reflexivity).
        split; [apply fair_set; auto|auto].
      * split; [exact H1|discriminate].
      * split; [exact H1|discriminate].
      * split; [exact H1|discriminate].
Qed.
End Avoid.

Lemma rkind_simple f o s origin m k : rkind_of f o s origin m = Some k -> simple_kind k.
Proof. unfold rkind_of. destruct (f_kind f m) as [[]|]; try discriminate; intros H; injection H as <-; exact I. Qed.

(** A collect which was told of a disposal at [origin]. *)
Definition told_of (f : workflow) (origin : option entity) (m : entity) : Prop :=
  is_collect f m = true /\ exists d, origin = Some d /\ downstream f d m = true.

Lemma rkind_own f o s origin m k : shaped f o -> rkind_of f o s origin m = Some k -> own k ->
  waits o s m \/ told_of f origin m.
Proof.
  intros Ho Hk Hown. assert (Hw : working f m) by (apply (rkind_working f o s origin); congruence).
  destruct (has_waits f o s m Ho Hw) as [b [E Hb]].
  unfold rkind_of in Hk. rewrite E in Hk. destruct (f_kind f m) as [k0|] eqn:Ek; [|discriminate].
  destruct k0; try discriminate; injection Hk as <-; cbn [own works] in Hown;
    try (destruct Hown as [H|[]]; injection H as ->; left; apply Hb; reflexivity).
  destruct Hown as [H|[h [H1 [H2 H3]]]].
  - injection H as ->. left. apply Hb. reflexivity.
  - right. split; [unfold is_collect; rewrite Ek; reflexivity|].
    destruct origin as [d|]; [|discriminate]. exists d. auto.
Qed.

Lemma rkind_ins f o s origin m k m' : rkind_of f o s origin m = Some k -> listed m' (ins k) ->
  In m (node_targets f m').
Proof.
  intros Hk [l [El Hin]]. unfold rkind_of in Hk.
  destruct (f_kind f m) as [[]|]; try discriminate; injection Hk as <-; cbn in El; injection El as <-;
    apply inputs_targets in Hin; exact (proj2 Hin).
Qed.

Lemma active_source f o s n origin : shaped f o -> is_collect f n = true ->
  upstream_active f o s n origin = Some true ->
  exists m, reaches f m n /\ (waits o s m \/ (m <> n /\ told_of f origin m)).
Proof.
  intros Ho Hc H. destruct (collect_rkind f o s origin n Hc) as [min [held [told E]]].
  destruct (has_waits f o s n Ho (collect_working f n Hc)) as [b [Eh Hb]].
  unfold upstream_active, is_upstream_active in H. rewrite E, Eh in H. destruct b; cbn [run_tests] in H.
  - exists n. split; [apply C_here|]. left. apply Hb. reflexivity.
  - set (P := fun x => exists m, reaches f m x /\ (waits o s m \/ (m <> n /\ told_of f origin m))).
    assert (Hfc : fair_check n P (check_upstream (reach_fuel f) (rkind_of f o s origin))).
    { apply check_fair.
      - intros m k. apply rkind_simple.
      - intros m k Hne Hk [Hown|[m' [Hl [x [Hr Hx]]]]].
        + destruct (rkind_own f o s origin m k Ho Hk Hown) as [Hx|Hx]; exists m; (split; [apply C_here|auto]).
        + exists x. split; [|exact Hx]. exact (reaches_snoc f x m' m Hr (rkind_ins _ _ _ _ _ _ _ Hk Hl)). }
    destruct (single_fair n P _ Hfc (Some (inputs_of f n)) (emap_set emap_empty n (Some false))) as [_ H2].
    { split; [apply emap_set_eq|]. intros m. destruct (Nat.eq_dec m n) as [->|Hne].
      - rewrite emap_set_eq. discriminate.
      - rewrite emap_set_neq by assumption. discriminate. }
    destruct (snd (single_input (check_upstream (reach_fuel f) (rkind_of f o s origin))
                (emap_set emap_empty n (Some false)) (Some (inputs_of f n)))); try discriminate.
    destruct (H2 eq_refl) as [m' [[l [El Hin]] [x [Hr Hx]]]]. injection El as <-.
    apply inputs_targets in Hin. exists x. split; [|exact Hx]. exact (reaches_snoc f x m' n Hr (proj2 Hin)).
Qed.

Lemma terminal_source f o s origin : shaped f o ->
  check_reachability (reach_fuel f) (rkind_of f o s origin) (f_terminal f) = RYes ->
  exists m, leads f m /\ (waits o s m \/ told_of f origin m).
Proof.
  intros Ho H. apply reachability_yes in H.
  assert (HP : forall x, triggerable (rkind_of f o s origin) x ->
             exists m, reaches f m x /\ (waits o s m \/ told_of f origin m)).
  { apply trig_least. intros x Hf. unfold fires in Hf.
    destruct (rkind_of f o s origin x) as [k|] eqn:Ek; [|destruct Hf].
    pose proof (rkind_simple _ _ _ _ _ _ Ek) as Hs.
    assert (Hcase : own k \/ exists m, listed m (ins k) /\ exists m0, reaches f m0 m /\ (waits o s m0 \/ told_of f origin m0)).
    { destruct k as [tests inputs| | | | |has min held told inputs]; try destruct Hs; cbn in Hf |- *.
      - exact Hf.
      - destruct Hf as [->|[Hh|Hl]]; [left; left; reflexivity| |right; exact Hl].
        left. right. destruct Hh as [h [-> [-> Hle]]]. exists h. auto. }
    destruct Hcase as [Hown|[m' [Hl [m [Hr Hm]]]]].
    - exists x. split; [apply C_here|]. exact (rkind_own f o s origin x k Ho Ek Hown).
    - exists m. split; [|exact Hm]. exact (reaches_snoc f m m' x Hr (rkind_ins _ _ _ _ _ _ _ Ek Hl)). }
  destruct (HP _ H) as [m [Hr Hm]]. exists m. split; [apply leads_reaches, Hr|exact Hm].
Qed.

(** And a message upstream of the terminal makes the answer positive. *)
Lemma reach_trig f o s origin m x : built f -> shaped f o -> reaches f m x -> working f x ->
  triggerable (rkind_of f o s origin) m -> triggerable (rkind_of f o s origin) x.
Proof.
  intros Hb Ho Hr. induction Hr as [n|n t z Hs Hr IH]; intros Hx Ht; [exact Ht|]. apply IH; [exact Hx|].
  assert (Hw : working f t).
  { destruct Hr as [t|t t' z Hs' _]; [exact Hx|exact (targets_working f t t' Hs')]. }
  assert (Hl : listed n (Some (inputs_of f t))).
  { exists (inputs_of f t). split; [reflexivity|]. apply inputs_targets. split; [|exact Hs].
    destruct Hb as (_ & Hn & _). apply Hn. unfold node_targets in Hs. destruct (f_kind f n); [discriminate|destruct Hs]. }
  destruct (rkind_of f o s origin t) as [k|] eqn:Ek.
  - pose proof Ek as Ek'. unfold rkind_of in Ek'.
    destruct (f_kind f t) as [[]|]; try discriminate; injection Ek' as <-;
      first [eapply T_work_in; eassumption|eapply T_collect_in; eassumption].
  - exfalso. apply (rkind_working f o s origin t); assumption.
Qed.

Lemma waits_terminal f o s origin m : built f -> shaped f o -> waits o s m -> leads f m ->
  check_reachability (reach_fuel f) (rkind_of f o s origin) (f_terminal f) = RYes.
Proof.
  intros Hb Ho Hm Hl. apply leads_reaches in Hl.
  assert (Hw : working f m).
  { pose proof (proj1 Ho m) as Hn. destruct Hm as [v Hin]. rewrite pending_node in Hin. unfold working.
    destruct (f_kind f m) as [k|] eqn:Ek; [|rewrite Hn in Hin; destruct Hin]. split; [discriminate|].
    intros E. injection E as ->. destruct Hn as [nd [En [Ei _]]]. rewrite En, Ei in Hin. destruct Hin. }
  pose proof (checks_well_formed f o s origin Hb Ho) as Hwf.
  apply (reachability_exact_or (rkind_of f o s origin) (workers f)); auto.
  - apply in_workers; [exact Hb|]. apply terminal_working, Hb.
  - unfold reach_fuel. pose proof (workers_length f). lia.
  - intros x k Hk. apply rkind_simple in Hk. destruct k; try destruct Hk; exact I.
  - apply (reach_trig f o s origin m); auto; [apply terminal_working, Hb|].
    destruct (has_waits f o s m Ho Hw) as [b [E Hb']]. rewrite (proj2 Hb' Hm) in E.
    destruct (rkind_of f o s origin m) as [k|] eqn:Ek; [|exfalso; apply (rkind_working f o s origin m); assumption].
    pose proof Ek as Ek'. unfold rkind_of in Ek'. rewrite E in Ek'.
    destruct (f_kind f m) as [[]|]; try discriminate; injection Ek' as <-;
      first [eapply T_work; [exact Ek|left; reflexivity]|eapply T_collect; exact Ek].
Qed.

(** ** Downstream *)
Lemma plain_targets f n m : plain (outputs_of f) n m <-> In m (node_targets f n).
Proof.
  split.
  - intros H. unfold node_targets. destruct H as [H|l H1 H2|H]; unfold outputs_of in *;
      destruct (f_kind f n) as [[]|]; cbn in *; try discriminate; try (injection H as <-; auto);
      try (injection H1 as <-; auto); try destruct H; auto.
  - unfold node_targets. intros H. destruct (f_kind f n) as [k|] eqn:Ek; [|destruct H].
    destruct k; cbn in H; try destruct H as [<-|[]]; try contradiction;
      try (apply P_single; unfold outputs_of; rewrite Ek; reflexivity);
      try (eapply P_fork; [unfold outputs_of; rewrite Ek; reflexivity|cbn; auto]).
Qed.

Lemma outputs_one_storage f : one_storage (outputs_of f).
Proof. intros n. unfold outputs_of. destruct (f_kind f n) as [[]|]; cbn; auto. Qed.

Lemma outputs_confined f : built f -> confined (outputs_of f) (f_nodes f).
Proof. intros (_ & _ & Ht & _) n m _ H. apply plain_targets in H. exact (Ht n m H). Qed.

Lemma connections_targets f l :
  connections (outputs_of f) l = list_sum (map (fun n => length (node_targets f n)) l).
Proof.
  unfold connections. f_equal. apply map_ext. intros n. unfold outputs_of, node_targets.
  destruct (f_kind f n) as [[]|]; cbn; lia.
Qed.

Lemma chain_plain f a b : chain (plain (outputs_of f)) a b <-> reaches f a b.
Proof.
  unfold reaches. split; induction 1 as [n|n m t Hs _ IH]; try apply C_here;
    apply plain_targets in Hs; exact (C_step _ n m t Hs IH).
Qed.

Lemma downstream_iff f a b : built f -> f_kind f a <> None ->
  (downstream f a b = true <-> a <> b /\ reaches f a b).
Proof.
  intros Hb Ha.
  destruct (downstream_exact (outputs_of f) (f_nodes f) a b (down_fuel f)) as [r [E H]].
  - apply outputs_one_storage.
  - apply outputs_confined, Hb.
  - apply (proj1 (proj2 Hb)), Ha.
  - rewrite connections_targets. unfold down_fuel. lia.
  - unfold downstream. rewrite E, H, chain_plain. tauto.
Qed.

Lemma downstream_outside f a b : f_kind f a = None -> downstream f a b = false.
Proof.
  intros H. unfold downstream, is_downstream_of, down_fuel. destruct (Nat.eqb a b) eqn:E; [reflexivity|].
  cbn [Nat.add downstream_loop]. rewrite E. cbn [existsb]. unfold immediately_downstream, outputs_of. rewrite H.
  reflexivity.
Qed.

Lemma not_circular f : forall l n m, circular f l = false -> In n l -> In m l -> n <> m ->
  is_collect f n = true -> is_collect f m = true -> downstream f n m = true -> downstream f m n = true -> False.
Proof.
  induction l as [|x l IH]; intros n m Hc Hn Hm Hne Cn Cm D1 D2; [destruct Hn|].
  cbn [circular] in Hc. apply Bool.orb_false_iff in Hc. destruct Hc as [H1 H2].
  assert (Hpair : forall y, In y l -> is_collect f x = true -> is_collect f y = true ->
            downstream f x y = true -> downstream f y x = true -> False).
  { intros y Hy Cx Cy E1 E2. rewrite Cx in H1. cbn [andb] in H1.
    assert (E : existsb (fun m => is_collect f m && downstream f x m && downstream f m x) l = true).
    { apply existsb_exists. exists y. rewrite Cy, E1, E2. auto. }
    congruence. }
  destruct Hn as [->|Hn], Hm as [->|Hm].
  - congruence.
  - exact (Hpair m Hm Cn Cm D1 D2).
  - exact (Hpair n Hn Cm Cn D2 D1).
  - exact (IH n m H2 Hn Hm Hne Cn Cm D1 D2).
Qed.
