(** Whole constructions. *)
From Verif Require Import Base ConnectModel ConnectSpec ConnectProofs ConnectProofs2 ConnectProofs3 ConnectProofs4.

(** Every target belongs to a port. *)
Definition full (a : api) : Prop := forall m c t, cw_node (a_w a) m = Some c -> In t (targets c) ->
  exists p, p <> PStart /\ portof c p = Some t.

Lemma full_same w w' outs slots sc outs' slots' sc' : (forall e, cw_node w e = cw_node w' e) ->
  full (mk_api w outs slots sc) -> full (mk_api w' outs' slots' sc').
Proof. intros H F m c t E. cbn in E. rewrite <- H in E. exact (F m c t E). Qed.

Lemma full_grown a m c' k w' outs slots sc : full a -> grown m c' k (a_w a) w' ->
  (forall t, In t (targets c') -> exists p, p <> PStart /\ portof c' p = Some t) -> full (mk_api w' outs slots sc).
Proof.
  intros F G H e d t E Ht. destruct (grown_cases _ _ _ _ _ _ _ G E) as [[-> ->]|[[_ [_ ->]]|[_ Hd]]].
  - apply H, Ht.
  - destruct Ht.
  - exact (F e d t Hd Ht).
Qed.

Lemma full_place a m c sh outs slots sc : wired a -> full a -> cw_node (a_w a) m = Some c -> bare c ->
  NoDup (sh_anon sh) -> NoDup (sh_named sh) -> full (mk_api (fst (place m sh (a_w a))) outs slots sc).
Proof.
  intros I F E B Ha Hn. assert (Lm : m < cw_next (a_w a)) by (apply i_below; [exact I|congruence]).
  destruct (place_grown m sh c (a_w a) Lm E Ha Hn) as [_ G]. apply (full_grown a m _ _ _ _ _ _ F G).
  intros t Ht. pose proof B as [B1 [B2 _]]. apply (placed_targets sh _ c t B1 B2) in Ht.
  destruct (placed_all sh _ c t Ha Hn B Ht) as [p [Hp Hs]]. eauto.
Qed.

Lemma In_fork c l t : c_fork c = Some l -> In t l -> exists p, p <> PStart /\ portof c p = Some t.
Proof.
  intros E H. apply In_nth_error in H. destruct H as [i Hi]. exists (PFork i). split; [discriminate|]. cbn. rewrite E. exact Hi.
Qed.

Lemma full_fork c l l' : c_fork c = Some l -> (forall i t, nth_error l i = Some t -> nth_error l' i = Some t) ->
  (forall t, In t (targets c) -> exists p, p <> PStart /\ portof c p = Some t) ->
  forall t, In t (targets (set_fork (Some l') c)) -> exists p, p <> PStart /\ portof (set_fork (Some l') c) p = Some t.
Proof.
  intros E K F t Ht. unfold targets in Ht. cbn in Ht. rewrite !in_app_iff in Ht.
  assert (D : In t l' \/ In t (targets c)) by (unfold targets; rewrite !in_app_iff; tauto).
  destruct D as [D|D].
  - apply (In_fork _ l' t); [reflexivity|exact D].
  - destruct (F t D) as [p [Hp Hport]]. exists p. split; [exact Hp|]. destruct p; try exact Hport.
    cbn in *. rewrite E in Hport. apply K, Hport.
Qed.

Lemma full_step a x : wired a -> distinct_streams x -> full a -> full (astep a x).
Proof.
  intros I Hx F. destruct x as [sh|o sh|m|b m| |o n].
  - destruct Hx as [Ha Hn]. cbn [astep]. pose proof (wired_spawn a I) as I1.
    set (a1 := mk_api (spawn (a_w a) c_empty) (a_outs a) (a_slots a ++ [cw_next (a_w a)]) (a_scopes a)) in *.
    assert (E : cw_node (a_w a1) (cw_next (a_w a)) = Some c_empty).
    { cbn. unfold emap_set. rewrite Nat.eqb_refl. reflexivity. }
    assert (F1 : full a1).
    { intros e d t Ed Ht. cbn in Ed. unfold emap_set in Ed. destruct (Nat.eqb_spec e (cw_next (a_w a))).
      - injection Ed as <-. destruct Ht.
      - exact (F e d t Ed Ht). }
    pose proof (full_place a1 (cw_next (a_w a)) c_empty sh) as P.
    change (a_w a1) with (spawn (a_w a) c_empty) in P, E.
    destruct (place (cw_next (a_w a)) sh (spawn (a_w a) c_empty)) as [w1 ts]. cbn [fst] in P.
    apply P; try assumption. repeat split.
  - destruct Hx as [Ha Hn]. cbn [astep]. destruct (has (a_outs a) o) eqn:Ho; [|exact F]. apply has_In in Ho.
    destruct (i_open a I o Ho) as [c [E [A [B [C [D [G [H J]]]]]]]].
    pose proof (full_place a o c sh) as P. destruct (place o sh (a_w a)) as [w1 ts]. cbn [fst] in P.
    apply P; try assumption. repeat split; assumption.
  - cbn [astep]. destruct (has (a_slots a) m && forks (a_w a) m)%bool eqn:Hf; [|exact F].
    apply andb_prop in Hf. destruct Hf as [Hs Hf]. apply has_In in Hs. unfold forks in Hf.
    destruct (cw_node (a_w a) m) as [c|] eqn:E; [|discriminate]. destruct (c_fork c) as [l|] eqn:El; [|discriminate].
    assert (L : m < cw_next (a_w a)) by (apply i_below; [exact I|congruence]).
    unfold add_branch. cbn [cw_node spawn]. unfold emap_set. destruct (Nat.eqb_spec m (cw_next (a_w a))); [lia|].
    rewrite E, El. intros e d t Ed Ht. cbn in Ed. unfold emap_set in Ed. destruct (Nat.eqb_spec e m) as [->|].
    + injection Ed as <-. apply (full_fork c l); [exact El| |exact (fun t => F m c t E)|exact Ht].
      intros i t0 Hi. rewrite nth_error_app1; [exact Hi|]. apply nth_error_Some. congruence.
    + destruct (Nat.eqb_spec e (cw_next (a_w a))); [injection Ed as <-; destruct Ht|]. exact (F e d t Ed Ht).
  - cbn [astep]. destruct (has (a_slots a) b && forks (a_w a) b && has (a_slots a) m)%bool eqn:Hf; [|exact F].
    apply andb_prop in Hf. destruct Hf as [Hf Hm]. apply andb_prop in Hf. destruct Hf as [Hs Hf].
    apply has_In in Hs. apply has_In in Hm. unfold forks in Hf.
    destruct (cw_node (a_w a) b) as [c|] eqn:E; [|discriminate]. destruct (c_fork c) as [l|] eqn:El; [|discriminate].
    pose proof (i_slots a I m Hm) as Hmn. destruct (cw_node (a_w a) m) as [d|] eqn:Em; [|contradiction].
    assert (Fb : forall t, In t (targets (set_fork (Some (add_input m l)) c)) ->
       exists p, p <> PStart /\ portof (set_fork (Some (add_input m l)) c) p = Some t).
    { apply (full_fork c l); [exact El| |exact (fun t => F b c t E)]. intros i t Hi. unfold add_input.
      destruct (existsb _ _); [exact Hi|]. rewrite nth_error_app1; [exact Hi|]. apply nth_error_Some. congruence. }
    assert (Fi : forall c0 i0, (forall t, In t (targets c0) -> exists p, p <> PStart /\ portof c0 p = Some t) ->
       forall t, In t (targets (set_inputs i0 c0)) -> exists p, p <> PStart /\ portof (set_inputs i0 c0) p = Some t).
    { intros c0 i0 H0 t Ht. rewrite targets_set_inputs in Ht. destruct (H0 t Ht) as [p [Hp Hq]]. exists p.
      split; [exact Hp|]. destruct p; exact Hq. }
    unfold add_listener. rewrite E, El. cbn [cw_node put]. unfold emap_set at 1.
    intros e d0 t Ed Ht. destruct (Nat.eqb_spec m b) as [Emb|Hmb].
    + subst m. cbn in Ed. unfold emap_set in Ed. destruct (Nat.eqb_spec e b) as [->|].
      * injection Ed as <-. exact (Fi _ _ Fb t Ht).
      * exact (F e d0 t Ed Ht).
    + rewrite Em in Ed. cbn in Ed. unfold emap_set in Ed. destruct (Nat.eqb_spec e m) as [->|].
      * injection Ed as <-. exact (Fi _ _ (fun t => F m d t Em) t Ht).
      * destruct (Nat.eqb_spec e b) as [->|]; [injection Ed as <-; exact (Fb t Ht)|]. exact (F e d0 t Ed Ht).
  - pose proof (scope_same a) as [[_ [_ S2]] _]. intros e d t Ed Ht. rewrite <- S2 in Ed. apply scope_cases in Ed.
    destruct Ed as [[-> ->]|[[-> ->]|[[-> ->]|[[-> ->]|Ed]]]]; try (destruct Ht; fail).
    + destruct Ht as [<-|[]]. exists PSingle. split; [discriminate|reflexivity].
    + exact (F e d t Ed Ht).
  - cbn [astep]. destruct (has (a_outs a) o && has (a_slots a) n)%bool eqn:Hh; [|exact F].
    apply andb_prop in Hh. destruct Hh as [Ho Hn]. apply has_In in Ho. apply has_In in Hn.
    destruct (connect_nodes a o n I Ho Hn) as [_ [_ [W3 W]]]. intros e d t Ed Ht. cbn [a_w] in Ed.
    assert (He : e <> o) by congruence.
    destruct W as [[l [E [Hol W]]]|[s [ds [E [Es [Hst [Hso W]]]]]]]; rewrite (W e He) in Ed; apply map_inv_some in Ed;
      destruct Ed as [c [Ec ->]].
    + rewrite rerouted_targets in Ht. destruct (has l e) eqn:Hl.
      * apply in_map_iff in Ht. destruct Ht as [t0 [<- Ht]]. destruct (F e c t0 Ec Ht) as [p [Hp Hq]]. exists p.
        split; [exact Hp|]. rewrite portof_rerouted, Hl. destruct p; try (rewrite Hq; reflexivity). contradiction.
      * destruct (F e c t Ec Ht) as [p [Hp Hq]]. exists p. split; [exact Hp|]. rewrite portof_rerouted, Hl. exact Hq.
    + assert (Ht' : In t (targets c)) by (destruct (Nat.eqb e n), (Nat.eqb e s); exact Ht).
      destruct (F e c t Ec Ht') as [p [Hp Hq]]. exists p. split; [exact Hp|].
      destruct (Nat.eqb e n), (Nat.eqb e s), p; try exact Hq; contradiction.
Qed.

Record sound (a : api) : Prop := {
  s_wired : wired a;
  s_sole : sole a;
  s_full : full a;
}.

Lemma sound_run : forall l a, sound a -> Forall distinct_streams l -> sound (fold_left astep l a).
Proof.
  induction l as [|x l IH]; intros a S H; [exact S|]. inversion H; subst. cbn. apply IH; [|assumption].
  destruct S as [S1 S2 S3]. constructor; [apply wired_step|apply sole_step|apply full_step]; assumption.
Qed.

Lemma sound_build l : Forall distinct_streams l -> sound (build l).
Proof.
  intros H. apply sound_run; [|exact H]. constructor; [exact wired_nothing| |].
  - intros o [].
  - intros m c t E. discriminate.
Qed.

(** A port that leads to something other than an unused output never changes. *)
Lemma port_stays a x m p t : wired a -> distinct_streams x -> leads_to a m p = Some t -> ~ In t (a_outs a) ->
  leads_to (astep a x) m p = Some t /\ ~ In t (a_outs (astep a x)).
Proof.
  intros I Hx Hl Hn. pose proof (leads_live a m p t I Hl) as Hlive.
  destruct (act_eq x) as [[o [n ->]]|Hno].
  - destruct (has (a_outs a) o && has (a_slots a) n)%bool eqn:Hh.
    2: { cbn [astep]. rewrite Hh. auto. }
    pose proof Hh as Hh'. apply andb_prop in Hh. destruct Hh as [Ho Hs]. apply has_In in Ho. apply has_In in Hs.
    rewrite (connect_ports a o n I Ho Hs m p), Hl. cbn [option_map]. rewrite swap_other by (intros ->; contradiction).
    split; [reflexivity|]. cbn [astep]. rewrite Hh'. cbn [a_outs]. rewrite without_In. tauto.
  - destruct (step_ports a x I Hx Hno) as [K [_ [_ [O _]]]]. split; [apply K, Hl|]. intros Hin. destruct (O t Hin) as [H|H]; [contradiction|].
    exact (Hlive (i_fresh a I t H)).
Qed.

Lemma port_stays_run : forall l a m p t, wired a -> Forall distinct_streams l -> leads_to a m p = Some t -> ~ In t (a_outs a) ->
  leads_to (fold_left astep l a) m p = Some t.
Proof.
  induction l as [|x l IH]; intros a m p t I H Hl Hn; [exact Hl|]. inversion H; subst. cbn.
  destruct (port_stays a x m p t I) as [A B]; try assumption. apply IH; try assumption. apply wired_step; assumption.
Qed.

(** An unused output that is still unused is where it was. *)
Lemma port_waits_run : forall l a m p o, wired a -> Forall distinct_streams l -> leads_to a m p = Some o ->
  In o (a_outs (fold_left astep l a)) -> leads_to (fold_left astep l a) m p = Some o.
Proof.
  induction l as [|x l IH]; intros a m p o I H Hl Ho; [exact Hl|]. inversion H; subst. cbn in *.
  pose proof (wired_step a x I H2) as I'. apply IH; try assumption.
  destruct (act_eq x) as [[o1 [n ->]]|Hno].
  - destruct (has (a_outs a) o1 && has (a_slots a) n)%bool eqn:Hh.
    2: { cbn [astep]. rewrite Hh. auto. }
    pose proof Hh as Hh'. apply andb_prop in Hh. destruct Hh as [Ho1 Hs]. apply has_In in Ho1. apply has_In in Hs.
    rewrite (connect_ports a o1 n I Ho1 Hs m p), Hl. cbn [option_map].
    destruct (Nat.eq_dec o o1) as [->|Hne]; [|rewrite swap_other by exact Hne; reflexivity]. exfalso.
    assert (Hgone : ~ In o1 (a_outs (fold_left astep l (astep a (AConnect o1 n))))).
    { clear IH H Ho. assert (Hf : ~ In o1 (a_outs (astep a (AConnect o1 n))) /\ o1 < cw_next (a_w (astep a (AConnect o1 n)))).
      { cbn [astep]. rewrite Hh'. cbn [a_outs a_w]. rewrite without_In. split; [tauto|].
        destruct (connect_nodes a o1 n I Ho1 Hs) as [W _]. rewrite W. destruct (i_open a I o1 Ho1) as [d [Ed _]].
        apply i_below; [exact I|congruence]. }
      revert Hf I'. generalize (astep a (AConnect o1 n)) as b. clear - H3. induction l as [|y l IH]; intros b [Hb Lb] Ib; [exact Hb|].
      inversion H3; subst. cbn. apply IH; [assumption| |apply wired_step; assumption].
      destruct (act_eq y) as [[o2 [n2 ->]]|Hno].
      - cbn [astep]. destruct (has (a_outs b) o2 && has (a_slots b) n2)%bool eqn:Hh; [|auto]. cbn [a_outs a_w].
        apply andb_prop in Hh. destruct Hh as [Ho2 Hs2]. apply has_In in Ho2. apply has_In in Hs2.
        destruct (connect_nodes b o2 n2 Ib Ho2 Hs2) as [W _]. rewrite W, without_In. split; [tauto|exact Lb].
      - destruct (step_ports b y Ib H1 Hno) as [_ [_ [_ [O [_ N]]]]]. split; [|lia]. intros Hin.
        destruct (O o1 Hin); [contradiction|lia]. }
    exact (Hgone Ho).
  - destruct (step_ports a x I H2 Hno) as [K _]. apply K, Hl.
Qed.
