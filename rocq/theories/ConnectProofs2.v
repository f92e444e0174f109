(** The invariant of workflows being built. *)
From Verif Require Import Base ConnectModel ConnectSpec ConnectProofs.

Record wired (a : api) : Prop := {
  i_fresh : forall e, cw_next (a_w a) <= e -> cw_node (a_w a) e = None;
  i_outs : NoDup (a_outs a);
  i_open : forall o, In o (a_outs a) -> exists c, cw_node (a_w a) o = Some c /\ targets c = [] /\
     c_single c = None /\ c_fork c = None /\ c_anon c = [] /\ c_named c = [] /\ c_start c = None /\
     ((c_entry c = None /\ c_inputs c <> None) \/
      (exists s d, c_entry c = Some s /\ c_inputs c = None /\ cw_node (a_w a) s = Some d /\ c_start d = Some o));
  i_used : forall o, In o (a_outs a) -> ~ In o (a_slots a);
  i_slots : forall n, In n (a_slots a) -> cw_node (a_w a) n <> None;
  i_down : forall m c t, cw_node (a_w a) m = Some c -> In t (targets c) ->
     exists d, cw_node (a_w a) t = Some d /\ In m (members (c_inputs d));
  i_up : forall t d m, cw_node (a_w a) t = Some d -> In m (members (c_inputs d)) ->
     exists c, cw_node (a_w a) m = Some c /\ In t (targets c);
  i_nodup : forall t d, cw_node (a_w a) t = Some d -> NoDup (members (c_inputs d));
  i_start : forall s c e, cw_node (a_w a) s = Some c -> c_start c = Some e ->
     exists d, cw_node (a_w a) e = Some d /\ (In e (a_outs a) -> c_entry d = Some s);
  i_errors : cw_errors (a_w a) = [];
}.

Lemma wired_nothing : wired nothing.
Proof.
  constructor; cbn; try (intros; contradiction); try (intros; discriminate); try constructor; reflexivity.
Qed.

Lemma NoDup_both (l m : list entity) : NoDup l -> NoDup m -> (forall e, In e l -> ~ In e m) -> NoDup (l ++ m).
Proof.
  intros Hl Hm H. induction Hl as [|x l Hx Hl IH]; [exact Hm|]. cbn. constructor.
  - rewrite in_app_iff. intros [Hin|Hin]; [contradiction|]. exact (H x (or_introl eq_refl) Hin).
  - apply IH. intros e He. apply H. right. exact He.
Qed.

Lemma in_range n k e : (Nat.leb n e && Nat.ltb e (n + k))%bool = true <-> n <= e < n + k.
Proof. rewrite Bool.andb_true_iff, Nat.leb_le, Nat.ltb_lt. tauto. Qed.

Lemma grown_cases m c k w w' e d : grown m c k w w' -> cw_node w' e = Some d ->
  (e = m /\ d = c) \/ (e <> m /\ cw_next w <= e < cw_next w + k /\ d = output_of m) \/ (e <> m /\ cw_node w e = Some d).
Proof.
  intros [_ [_ H]] E. rewrite H in E. destruct (Nat.eqb_spec e m) as [->|Hn]; [left; split; congruence|].
  destruct (andb _ _) eqn:R; [|auto]. apply in_range in R. right. left. split; [exact Hn|]. split; [exact R|]. congruence.
Qed.

Lemma grown_old m c k w w' e : grown m c k w w' -> e <> m -> e < cw_next w -> cw_node w' e = cw_node w e.
Proof.
  intros [_ [_ H]] Hn Hl. rewrite H. destruct (Nat.eqb_spec e m); [contradiction|].
  destruct (andb _ _) eqn:R; [apply in_range in R; lia|reflexivity].
Qed.

Lemma grown_new m c k w w' e : grown m c k w w' -> m < cw_next w -> cw_next w <= e < cw_next w + k ->
  cw_node w' e = Some (output_of m).
Proof.
  intros [_ [_ H]] Hn Hl. rewrite H. destruct (Nat.eqb_spec e m); [lia|].
  apply in_range in Hl. rewrite Hl. reflexivity.
Qed.

Lemma i_below a e : wired a -> cw_node (a_w a) e <> None -> e < cw_next (a_w a).
Proof.
  intros I H. destruct (Nat.lt_ge_cases e (cw_next (a_w a))) as [L|L]; [exact L|]. exfalso.
  exact (H (i_fresh a I e L)).
Qed.

(** An operation which is not an unused output gets new outputs. *)
Lemma wired_grown a m c c' k w' slots : wired a -> cw_node (a_w a) m = Some c ->
  grown m c' k (a_w a) w' ->
  c_inputs c' = c_inputs c -> c_entry c' = c_entry c -> c_start c' = c_start c ->
  (forall t, In t (targets c') <-> In t (targets c) \/ cw_next (a_w a) <= t < cw_next (a_w a) + k) ->
  (forall n, In n slots -> In n (a_slots a) \/ n = m) ->
  wired (mk_api w' (without (a_outs a) m ++ seq (cw_next (a_w a)) k) slots (a_scopes a)).
Proof.
  intros I Hm G Ei Ee Es Ht Hs. assert (Lm : m < cw_next (a_w a)) by (apply i_below; [exact I|congruence]).
  pose proof G as [Gn [Ge _]].
  assert (Hlive : forall e d, cw_node (a_w a) e = Some d -> exists d', cw_node w' e = Some d' /\
            c_inputs d' = c_inputs d /\ c_entry d' = c_entry d /\ c_start d' = c_start d /\
            (e <> m -> d' = d)).
  { intros e d E. destruct (Nat.eq_dec e m) as [->|Hn].
    - exists c'. rewrite Hm in E. injection E as <-. split; [exact (grown_node _ _ _ _ _ G)|].
      repeat split; try assumption. intros H. contradiction.
    - exists d. rewrite (grown_old _ _ _ _ _ _ G Hn); [auto|]. apply i_below; [exact I|congruence]. }
  constructor; cbn [a_w a_outs a_slots a_scopes].
  - intros e He. rewrite Gn in He. destruct (cw_node w' e) as [d|] eqn:E; [|reflexivity]. exfalso.
    destruct (grown_cases _ _ _ _ _ _ _ G E) as [[-> _]|[[_ [R _]]|[_ H]]]; [lia|lia|].
    rewrite (i_fresh a I e) in H; [discriminate|lia].
  - apply NoDup_both; [apply without_NoDup, (i_outs a I)|apply seq_NoDup|].
    intros e H. apply without_In in H. intros H2. apply in_seq in H2.
    destruct (i_open a I e (proj1 H)) as [d [E _]]. rewrite (i_fresh a I e) in E; [discriminate|lia].
  - intros o Ho. apply in_app_or in Ho. destruct Ho as [Ho|Ho].
    + apply without_In in Ho. destruct Ho as [Ho Hn]. destruct (i_open a I o Ho) as [d [E [A [B [C [D [F [H J]]]]]]]].
      destruct (Hlive o d E) as [d' [E' [_ [_ [_ Hd]]]]]. rewrite (Hd Hn) in E'. exists d.
      repeat split; try assumption. destruct J as [J|[s [x [J1 [J2 [J3 J4]]]]]]; [left; exact J|].
      right. destruct (Hlive s x J3) as [x' [E2 [_ [_ [E3 _]]]]]. exists s, x'. repeat split; try assumption. congruence.
    + apply in_seq in Ho. exists (output_of m). split; [apply (grown_new _ _ _ _ _ _ G Lm Ho)|].
      repeat split; try reflexivity. left. split; [reflexivity|discriminate].
  - intros o Ho Hsl. apply in_app_or in Ho. apply Hs in Hsl. destruct Ho as [Ho|Ho].
    + apply without_In in Ho. destruct Hsl as [Hsl|Hsl]; [|apply (proj2 Ho), Hsl]. exact (i_used a I o (proj1 Ho) Hsl).
    + apply in_seq in Ho. destruct Hsl as [Hsl|Hsl]; [|lia]. pose proof (i_slots a I o Hsl) as H.
      apply H, (i_fresh a I). lia.
  - intros n Hn. apply Hs in Hn. destruct Hn as [Hn| ->].
    + pose proof (i_slots a I n Hn) as H. destruct (cw_node (a_w a) n) as [d|] eqn:E; [|contradiction].
      destruct (Hlive n d E) as [d' [E' _]]. congruence.
    + rewrite (grown_node _ _ _ _ _ G). discriminate.
  - intros x d t E Hin. destruct (grown_cases _ _ _ _ _ _ _ G E) as [[-> ->]|[[Hn [R ->]]|[Hn H]]].
    + apply Ht in Hin. destruct Hin as [Hin|R].
      * destruct (i_down a I m c t Hm Hin) as [d [E1 H1]]. destruct (Hlive t d E1) as [d' [E2 [E3 _]]].
        exists d'. split; [exact E2|]. rewrite E3. exact H1.
      * exists (output_of m). split; [exact (grown_new _ _ _ _ _ _ G Lm R)|]. left. reflexivity.
    + destruct Hin.
    + destruct (i_down a I x d t H Hin) as [d2 [E1 H1]]. destruct (Hlive t d2 E1) as [d' [E2 [E3 _]]].
      exists d'. split; [exact E2|]. rewrite E3. exact H1.
  - intros t d x E Hin.
    assert (Hold : forall d0, cw_node (a_w a) t = Some d0 -> In x (members (c_inputs d0)) ->
              exists c0, cw_node w' x = Some c0 /\ In t (targets c0)).
    { intros d0 E0 H0. destruct (i_up a I t d0 x E0 H0) as [c0 [E1 H1]].
      destruct (Nat.eq_dec x m) as [->|Hx].
      - exists c'. split; [exact (grown_node _ _ _ _ _ G)|]. apply Ht. left. congruence.
      - destruct (Hlive x c0 E1) as [c1 [E2 [_ [_ [_ H2]]]]]. rewrite (H2 Hx) in E2. eauto. }
    destruct (grown_cases _ _ _ _ _ _ _ G E) as [[-> ->]|[[Hn [R ->]]|[Hn H]]].
    + apply (Hold c Hm). rewrite Ei in Hin. exact Hin.
    + destruct Hin as [<-|[]]. exists c'. split; [exact (grown_node _ _ _ _ _ G)|]. apply Ht. right. exact R.
    + exact (Hold d H Hin).
  - intros t d E. destruct (grown_cases _ _ _ _ _ _ _ G E) as [[-> ->]|[[Hn [R ->]]|[Hn H]]].
    + rewrite Ei. exact (i_nodup a I m c Hm).
    + repeat constructor. intros [].
    + exact (i_nodup a I t d H).
  - intros s d e E He.
    assert (Hold : forall d0, cw_node (a_w a) s = Some d0 -> c_start d0 = Some e ->
       exists x, cw_node w' e = Some x /\ (In e (without (a_outs a) m ++ seq (cw_next (a_w a)) k) -> c_entry x = Some s)).
    { intros d0 E0 H0. destruct (i_start a I s d0 e E0 H0) as [x [E1 H1]].
      destruct (Hlive e x E1) as [x' [E2 [_ [E3 _]]]]. exists x'. split; [exact E2|]. intros Hin. rewrite E3.
      apply H1. apply in_app_or in Hin. destruct Hin as [Hin|Hin]; [apply without_In in Hin; tauto|].
      exfalso. apply in_seq in Hin. rewrite (i_fresh a I e) in E1; [discriminate|lia]. }
    destruct (grown_cases _ _ _ _ _ _ _ G E) as [[-> ->]|[[Hn [R ->]]|[Hn H]]].
    + apply (Hold c Hm). congruence.
    + discriminate.
    + exact (Hold d H He).
  - rewrite Ge. apply (i_errors a I).
Qed.

(** A new entity without connections. *)
Lemma wired_spawn a : wired a ->
  wired (mk_api (spawn (a_w a) c_empty) (a_outs a) (a_slots a ++ [cw_next (a_w a)]) (a_scopes a)).
Proof.
  intros I.
  assert (Hold : forall e d, cw_node (a_w a) e = Some d -> cw_node (spawn (a_w a) c_empty) e = Some d).
  { intros e d E. cbn. unfold emap_set. destruct (Nat.eqb_spec e (cw_next (a_w a))) as [->|]; [|exact E].
    rewrite (i_fresh a I) in E; [discriminate|lia]. }
  assert (Hnew : forall e d, cw_node (spawn (a_w a) c_empty) e = Some d ->
            (e = cw_next (a_w a) /\ d = c_empty) \/ cw_node (a_w a) e = Some d).
  { intros e d E. cbn in E. unfold emap_set in E. destruct (Nat.eqb_spec e (cw_next (a_w a))) as [->|]; [|auto].
    left. split; [reflexivity|congruence]. }
  constructor; cbn [a_w a_outs a_slots a_scopes].
  - intros e He. cbn in He. cbn. unfold emap_set. destruct (Nat.eqb_spec e (cw_next (a_w a))); [lia|].
    apply (i_fresh a I). lia.
  - apply (i_outs a I).
  - intros o Ho. destruct (i_open a I o Ho) as [d [E [A [B [C [D [F [H J]]]]]]]].
    exists d. split; [apply Hold, E|]. repeat split; try assumption.
    destruct J as [J|[s [x [J1 [J2 [J3 J4]]]]]]; [left; exact J|]. right. exists s, x. repeat split; try assumption.
    apply Hold, J3.
  - intros o Ho Hs. apply in_app_or in Hs. destruct Hs as [Hs|[<-|[]]]; [exact (i_used a I o Ho Hs)|].
    destruct (i_open a I _ Ho) as [d [E _]]. rewrite (i_fresh a I) in E; [discriminate|lia].
  - intros n Hn. apply in_app_or in Hn. destruct Hn as [Hn|[<-|[]]].
    + pose proof (i_slots a I n Hn) as H. destruct (cw_node (a_w a) n) as [d|] eqn:E; [|contradiction].
      rewrite (Hold n d E). discriminate.
    + cbn. unfold emap_set. rewrite Nat.eqb_refl. discriminate.
  - intros m c t E Hin. apply Hnew in E. destruct E as [[_ ->]|E]; [destruct Hin|].
    destruct (i_down a I m c t E Hin) as [d [E1 H1]]. eauto.
  - intros t d m E Hin. apply Hnew in E. destruct E as [[_ ->]|E]; [destruct Hin|].
    destruct (i_up a I t d m E Hin) as [c [E1 H1]]. eauto.
  - intros t d E. apply Hnew in E. destruct E as [[_ ->]|E]; [constructor|]. exact (i_nodup a I t d E).
  - intros s c e E He. apply Hnew in E. destruct E as [[_ ->]|E]; [discriminate|].
    destruct (i_start a I s c e E He) as [d [E1 H1]]. eauto.
  - apply (i_errors a I).
Qed.

Lemma without_none l e : ~ In e l -> without l e = l.
Proof.
  intros H. unfold without. induction l as [|x l IH]; [reflexivity|]. cbn.
  destruct (Nat.eqb_spec x e) as [->|]; [exfalso; apply H; left; reflexivity|]. cbn. f_equal. apply IH.
  intros Hin. apply H. right. exact Hin.
Qed.

Lemma wired_chain a m sh : wired a -> cw_node (a_w a) m <> None -> NoDup (sh_anon sh) -> NoDup (sh_named sh) ->
  (forall c, cw_node (a_w a) m = Some c -> c_single c = None /\ c_fork c = None /\ c_anon c = [] /\ c_named c = []) ->
  forall slots, (forall n, In n slots -> In n (a_slots a) \/ n = m) ->
  wired (mk_api (fst (place m sh (a_w a))) (without (a_outs a) m ++ snd (place m sh (a_w a))) slots (a_scopes a)).
Proof.
  intros I Hm Ha Hn Hc slots Hs. destruct (cw_node (a_w a) m) as [c|] eqn:E; [|contradiction].
  destruct (Hc c eq_refl) as [C1 [C2 [C3 C4]]].
  assert (L : m < cw_next (a_w a)) by (apply i_below; [exact I|congruence]).
  destruct (place_grown m sh c (a_w a) L E Ha Hn) as [P G]. rewrite P.
  refine (wired_grown a m c _ _ _ slots I E G _ _ _ _ Hs).
  - unfold placed. destruct (sh_fork sh), (sh_single sh); reflexivity.
  - unfold placed. destruct (sh_fork sh), (sh_single sh); reflexivity.
  - unfold placed. destruct (sh_fork sh), (sh_single sh); reflexivity.
  - intros t. rewrite (placed_targets sh _ c t C1 C2). unfold targets. rewrite C1, C2, C3, C4. cbn. intuition.
Qed.

Lemma wired_create a sh : wired a -> distinct_streams (ACreate sh) -> wired (astep a (ACreate sh)).
Proof.
  intros I [Ha Hn]. pose proof (wired_spawn a I) as I1. cbn [astep].
  assert (E : cw_node (spawn (a_w a) c_empty) (cw_next (a_w a)) = Some c_empty).
  { cbn. unfold emap_set. rewrite Nat.eqb_refl. reflexivity. }
  pose proof (wired_chain _ (cw_next (a_w a)) sh I1) as H. cbn [a_w a_outs a_slots a_scopes] in H.
  specialize (H ltac:(congruence) Ha Hn). 
  specialize (H ltac:(intros c Hc; rewrite E in Hc; injection Hc as <-; repeat split)).
  specialize (H (a_slots a ++ [cw_next (a_w a)]) ltac:(intros n Hin; auto)).
  destruct (place (cw_next (a_w a)) sh (spawn (a_w a) c_empty)) as [w1 ts]. cbn [fst snd] in H.
  rewrite without_none in H; [exact H|]. intros Ho. destruct (i_open a I _ Ho) as [d [E1 _]].
  rewrite (i_fresh a I) in E1; [discriminate|lia].
Qed.

Lemma wired_achain a o sh : wired a -> distinct_streams (AChain o sh) -> wired (astep a (AChain o sh)).
Proof.
  intros I [Ha Hn]. cbn [astep]. destruct (has (a_outs a) o) eqn:Ho; [|exact I]. apply has_In in Ho.
  destruct (i_open a I o Ho) as [c [E [A [B [C [D [F [H J]]]]]]]].
  pose proof (wired_chain a o sh I) as K. specialize (K ltac:(congruence) Ha Hn).
  specialize (K ltac:(intros c' Hc'; rewrite E in Hc'; injection Hc' as <-; auto)).
  specialize (K (a_slots a ++ [o])). destruct (place o sh (a_w a)) as [w1 ts]. cbn [fst snd] in K. apply K.
  intros n Hin. apply in_app_or in Hin. destruct Hin as [Hin|[<-|[]]]; auto.
Qed.

Lemma wired_branch a m : wired a -> wired (astep a (ABranch m)).
Proof.
  intros I. cbn [astep]. destruct (has (a_slots a) m && forks (a_w a) m)%bool eqn:Hf; [|exact I].
  apply andb_prop in Hf. destruct Hf as [Hs Hf]. apply has_In in Hs. unfold forks in Hf.
  destruct (cw_node (a_w a) m) as [c|] eqn:E; [|discriminate]. destruct (c_fork c) as [l|] eqn:El; [|discriminate].
  assert (L : m < cw_next (a_w a)) by (apply i_below; [exact I|congruence]).
  assert (G : grown m (set_fork (Some (l ++ [cw_next (a_w a)])) c) 1 (a_w a)
    (add_branch m (cw_next (a_w a)) (spawn (a_w a) (set_inputs (Some [m]) c_empty)))).
  { unfold add_branch. cbn [cw_node spawn]. unfold emap_set. destruct (Nat.eqb_spec m (cw_next (a_w a))); [lia|].
    rewrite E, El. split; [cbn; lia|]. split; [reflexivity|]. intros e. cbn [cw_node put spawn cw_next]. unfold emap_set.
    destruct (Nat.eqb_spec e m); [reflexivity|].
    destruct (Nat.eqb_spec e (cw_next (a_w a))), (Nat.leb_spec (cw_next (a_w a)) e), (Nat.ltb_spec e (cw_next (a_w a) + 1)); cbn;
      try reflexivity; lia. }
  pose proof (wired_grown a m c _ 1 _ (a_slots a) I E G eq_refl eq_refl eq_refl) as K.
  rewrite without_none in K by (intros Ho; exact (i_used a I m Ho Hs)). apply K.
  - intros t. unfold targets. cbn. rewrite El. rewrite !in_app_iff. cbn. rewrite Nat.add_1_r. intuition lia.
  - auto.
Qed.

Lemma wired_listen a b m : wired a -> wired (astep a (AListen b m)).
Proof.
  intros I. cbn [astep]. destruct (has (a_slots a) b && forks (a_w a) b && has (a_slots a) m)%bool eqn:Hf; [|exact I].
  apply andb_prop in Hf. destruct Hf as [Hf Hm]. apply andb_prop in Hf. destruct Hf as [Hs Hf].
  apply has_In in Hs. apply has_In in Hm. unfold forks in Hf.
  destruct (cw_node (a_w a) b) as [c|] eqn:E; [|discriminate]. destruct (c_fork c) as [l|] eqn:El; [|discriminate].
  pose proof (i_slots a I m Hm) as Hmn. destruct (cw_node (a_w a) m) as [d|] eqn:Em; [|contradiction].
  set (w := add_listener b m (a_w a)).
  assert (Hw : cw_next w = cw_next (a_w a) /\ cw_errors w = cw_errors (a_w a) /\
     forall e, cw_node w e = option_map (fun x =>
       let x1 := if Nat.eqb e b then set_fork (Some (add_input m l)) x else x in
       if Nat.eqb e m then set_inputs (add_to b (c_inputs x)) x1 else x1) (cw_node (a_w a) e)).
  { subst w. unfold add_listener. rewrite E, El. cbn [cw_node put]. unfold emap_set.
    destruct (Nat.eqb_spec m b) as [Emb|Hmb].
    - subst m. split; [reflexivity|]. split; [reflexivity|]. intros e. cbn [cw_node put]. unfold emap_set.
      destruct (Nat.eqb_spec e b) as [->|]; [rewrite E; reflexivity|]. destruct (cw_node (a_w a) e); reflexivity.
    - rewrite Em. split; [reflexivity|]. split; [reflexivity|]. intros e. cbn [cw_node put]. unfold emap_set.
      destruct (Nat.eqb_spec e m) as [->|].
      + rewrite Em. destruct (Nat.eqb_spec m b); [contradiction|]. reflexivity.
      + destruct (Nat.eqb_spec e b) as [->|]; [rewrite E; reflexivity|]. destruct (cw_node (a_w a) e); reflexivity. }
  destruct Hw as [Wn [We Wd]].
  assert (Hlive : forall e x, cw_node (a_w a) e = Some x -> exists x', cw_node w e = Some x' /\
     c_entry x' = c_entry x /\ c_start x' = c_start x /\
     (e <> b -> e <> m -> x' = x) /\
     (forall t, In t (targets x') <-> In t (targets x) \/ (e = b /\ t = m)) /\
     (forall y, In y (members (c_inputs x')) <-> In y (members (c_inputs x)) \/ (e = m /\ y = b)) /\
     (NoDup (members (c_inputs x)) -> NoDup (members (c_inputs x')))).
  { intros e x Ex. rewrite Wd, Ex. cbn [option_map]. eexists. split; [reflexivity|].
    assert (Hx : e = b -> c_fork x = Some l) by (intros ->; congruence). clear Ex.
    assert (Ht : forall (Hc : c_fork x = Some l) t, In t (targets (set_fork (Some (add_input m l)) x)) <->
              In t (targets x) \/ t = m).
    { intros Hc t. unfold targets. cbn. rewrite Hc, !in_app_iff, add_input_In. tauto. }
    destruct (Nat.eqb_spec e b) as [Eb|Hb]; destruct (Nat.eqb_spec e m) as [E2|H2]; cbn zeta;
      (split; [reflexivity|]); (split; [reflexivity|]); (split; [intros; try contradiction; reflexivity|]);
      (split; [|split]).
    all: try (intros t; rewrite ?targets_set_inputs; try rewrite (Ht (Hx Eb)); intuition congruence).
    all: try (intros y; cbn [set_inputs set_fork c_inputs]; rewrite ?add_to_In; intuition congruence).
    all: try (intros; apply add_to_NoDup; assumption).
    all: auto. }
  assert (Hback : forall e x', cw_node w e = Some x' -> exists x, cw_node (a_w a) e = Some x).
  { intros e x' Ex. rewrite Wd in Ex. destruct (cw_node (a_w a) e); [eauto|discriminate]. }
  assert (Hbase : forall e x x', cw_node (a_w a) e = Some x -> cw_node w e = Some x' ->
     c_entry x' = c_entry x /\ c_start x' = c_start x /\
     (e <> b -> e <> m -> x' = x) /\
     (forall t, In t (targets x') <-> In t (targets x) \/ (e = b /\ t = m)) /\
     (forall y, In y (members (c_inputs x')) <-> In y (members (c_inputs x)) \/ (e = m /\ y = b)) /\
     (NoDup (members (c_inputs x)) -> NoDup (members (c_inputs x')))).
  { intros e x x' Ex Ex'. destruct (Hlive e x Ex) as [x2 [E2 R]]. rewrite Ex' in E2. injection E2 as <-. exact R. }
  constructor; cbn [a_w a_outs a_slots a_scopes].
  - intros e He. rewrite Wn in He. rewrite Wd, (i_fresh a I e He). reflexivity.
  - apply (i_outs a I).
  - intros o Ho. destruct (i_open a I o Ho) as [x [Ex [A [B [C [D [F [H J]]]]]]]].
    destruct (Hlive o x Ex) as [x' [Ex' [_ [_ [Hsame _]]]]].
    assert (x' = x). { apply Hsame; intros ->; [exact (i_used a I _ Ho Hs)|exact (i_used a I _ Ho Hm)]. }
    subst x'. exists x. repeat split; try assumption.
    destruct J as [J|[s [y [J1 [J2 [J3 J4]]]]]]; [left; exact J|]. right.
    destruct (Hlive s y J3) as [y' [Ey [_ [Es _]]]]. exists s, y'. repeat split; try assumption. congruence.
  - apply (i_used a I).
  - intros n Hn. pose proof (i_slots a I n Hn) as H. destruct (cw_node (a_w a) n) as [x|] eqn:Ex; [|contradiction].
    destruct (Hlive n x Ex) as [x' [Ex' _]]. congruence.
  - intros y x' t Ex' Hin. destruct (Hback y x' Ex') as [x Ex]. destruct (Hbase y x x' Ex Ex') as [_ [_ [_ [Ht _]]]].
    apply Ht in Hin. destruct Hin as [Hin|[-> ->]].
    + destruct (i_down a I y x t Ex Hin) as [z [Ez Hz]]. destruct (Hlive t z Ez) as [z' [Ez' [_ [_ [_ [_ [Hi _]]]]]]].
      exists z'. split; [exact Ez'|]. apply Hi. auto.
    + destruct (Hlive m d Em) as [z' [Ez' [_ [_ [_ [_ [Hi _]]]]]]]. exists z'. split; [exact Ez'|]. apply Hi. auto.
  - intros t x' y Ex' Hin. destruct (Hback t x' Ex') as [x Ex]. destruct (Hbase t x x' Ex Ex') as [_ [_ [_ [_ [Hi _]]]]].
    apply Hi in Hin. destruct Hin as [Hin|[-> ->]].
    + destruct (i_up a I t x y Ex Hin) as [z [Ez Hz]]. destruct (Hlive y z Ez) as [z' [Ez' [_ [_ [_ [Ht _]]]]]].
      exists z'. split; [exact Ez'|]. apply Ht. auto.
    + destruct (Hlive b c E) as [z' [Ez' [_ [_ [_ [Ht _]]]]]]. exists z'. split; [exact Ez'|]. apply Ht. auto.
  - intros t x' Ex'. destruct (Hback t x' Ex') as [x Ex]. destruct (Hbase t x x' Ex Ex') as [_ [_ [_ [_ [_ Hd]]]]].
    exact (Hd (i_nodup a I t x Ex)).
  - intros s x' e Ex' He. destruct (Hback s x' Ex') as [x Ex]. destruct (Hbase s x x' Ex Ex') as [_ [Es _]].
    destruct (i_start a I s x e Ex ltac:(congruence)) as [z [Ez Hz]].
    destruct (Hlive e z Ez) as [z' [Ez' [En _]]]. exists z'. split; [exact Ez'|]. rewrite En. exact Hz.
  - rewrite We. apply (i_errors a I).
Qed.
