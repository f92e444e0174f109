(** Where ports lead to after each act. *)
From Verif Require Import Base ConnectModel ConnectSpec ConnectProofs ConnectProofs2 ConnectProofs3.

Definition portof (c : cnode) (p : port) : option entity :=
  match p with
  | PSingle => c_single c
  | PFork i => match c_fork c with Some l => nth_error l i | None => None end
  | PAnon k => lookup k (c_anon c)
  | PNamed k => lookup k (c_named c)
  | PStart => c_start c
  end.

Lemma leads_portof a m p : leads_to a m p = match cw_node (a_w a) m with Some c => portof c p | None => None end.
Proof. unfold leads_to, portof. destruct (cw_node (a_w a) m); reflexivity. Qed.

Lemma lookup_In k t : forall l, lookup k l = Some t -> In t (map snd l).
Proof.
  induction l as [|[k' t'] l IH]; cbn; [discriminate|]. destruct (Nat.eqb k k'); [|auto].
  intros H. injection H as ->. auto.
Qed.
Lemma lookup_map f k : forall l, lookup k (map (fun q => (fst q, f (snd q))) l) = option_map f (lookup k l).
Proof. induction l as [|[k' t'] l IH]; cbn; [reflexivity|]. destruct (Nat.eqb k k'); [reflexivity|exact IH]. Qed.

Lemma lookup_seq k t : forall ks n, lookup k (combine ks (seq n (length ks))) = Some t -> exists i, nth_error ks i = Some k /\ t = n + i.
Proof.
  induction ks as [|x ks IH]; intros n; cbn; [discriminate|]. destruct (Nat.eqb_spec k x) as [->|].
  - intros H. injection H as <-. exists 0. split; [reflexivity|lia].
  - intros H. destruct (IH _ H) as [i [A B]]. exists (S i). split; [exact A|lia].
Qed.
Lemma lookup_seq_nth k : forall ks n i, NoDup ks -> nth_error ks i = Some k -> lookup k (combine ks (seq n (length ks))) = Some (n + i).
Proof.
  induction ks as [|x ks IH]; intros n i Hd Hi; [destruct i; discriminate|]. inversion Hd; subst. cbn. destruct i as [|i].
  - injection Hi as ->. rewrite Nat.eqb_refl. f_equal. lia.
  - cbn in Hi. destruct (Nat.eqb_spec k x) as [->|]; [apply nth_error_In in Hi; contradiction|].
    rewrite (IH (S n) i); auto. f_equal. lia.
Qed.

(** The ports of an operation lead to its targets. *)
Lemma port_target c p t : p <> PStart -> portof c p = Some t -> In t (targets c).
Proof.
  intros Hp H. unfold targets. rewrite !in_app_iff. destruct p; cbn in H.
  - rewrite H. left. left. reflexivity.
  - destruct (c_fork c); [|discriminate]. apply nth_error_In in H. tauto.
  - apply lookup_In in H. tauto.
  - apply lookup_In in H. tauto.
  - contradiction.
Qed.

Lemma port_eq p : p = PStart \/ p <> PStart.
Proof. destruct p; (left; reflexivity) || (right; discriminate). Qed.

Lemma leads_live a m p t : wired a -> leads_to a m p = Some t -> cw_node (a_w a) t <> None.
Proof.
  intros I H. rewrite leads_portof in H. destruct (cw_node (a_w a) m) as [c|] eqn:E; [|discriminate].
  destruct (port_eq p) as [->|Hp].
  - destruct (i_start a I m c t E H) as [d [E1 _]]. congruence.
  - destruct (i_down a I m c t E (port_target c p t Hp H)) as [d [E1 _]]. congruence.
Qed.

(** Ports of an operation that was placed. *)
Lemma nth_seq : forall len n i t, nth_error (seq n len) i = Some t <-> i < len /\ t = n + i.
Proof.
  induction len as [|len IH]; intros n i t; cbn.
  - destruct i; split; [discriminate|lia|discriminate|lia].
  - destruct i as [|i]; cbn.
    + split; [intros H; injection H as <-; lia|]. intros [_ ->]. f_equal. lia.
    + rewrite IH. lia.
Qed.

Definition bare (c : cnode) : Prop := c_single c = None /\ c_fork c = None /\ c_anon c = [] /\ c_named c = [].

Lemma placed_keep sh n c p t : bare c -> portof c p = Some t -> portof (placed sh n c) p = Some t.
Proof.
  intros [A [B [C D]]] H. destruct p; cbn in H; rewrite ?A, ?B, ?C, ?D in H; try discriminate.
  unfold placed. destruct (sh_fork sh), (sh_single sh); exact H.
Qed.

Lemma placed_port sh n c p t : bare c -> portof (placed sh n c) p = Some t ->
  match p with
  | PSingle => sh_single sh = true /\ t = n
  | PFork i => i < fork_size (sh_fork sh) /\ t = n + b2n (sh_single sh) + i
  | PAnon k => exists i, nth_error (sh_anon sh) i = Some k /\ t = n + b2n (sh_single sh) + fork_size (sh_fork sh) + i
  | PNamed k => exists i, nth_error (sh_named sh) i = Some k /\
       t = n + b2n (sh_single sh) + fork_size (sh_fork sh) + length (sh_anon sh) + i
  | PStart => portof c PStart = Some t
  end.
Proof.
  intros [A [B [C D]]] H. unfold placed in H. destruct sh as [si fo an na]. cbn [sh_single sh_fork sh_anon sh_named] in *.
  destruct p; cbn in H.
  - destruct fo, si; cbn in H; rewrite ?A in H; try discriminate; injection H as <-; auto.
  - destruct fo, si; cbn in H |- *; rewrite ?B in H; try discriminate; apply nth_seq in H; cbn; lia.
  - apply lookup_seq in H. exact H.
  - apply lookup_seq in H. exact H.
  - destruct fo, si; exact H.
Qed.

Lemma placed_all sh n c t : NoDup (sh_anon sh) -> NoDup (sh_named sh) -> bare c -> n <= t < n + size sh ->
  exists p, portof (placed sh n c) p = Some t /\ p <> PStart.
Proof.
  intros Ha Hn [A [B [C D]]] Ht. unfold size in Ht. destruct sh as [si fo an na]. cbn [sh_single sh_fork sh_anon sh_named] in *.
  assert (Cases : (si = true /\ t = n) \/ (n + b2n si <= t < n + b2n si + fork_size fo) \/
     (n + b2n si + fork_size fo <= t < n + b2n si + fork_size fo + length an) \/
     (n + b2n si + fork_size fo + length an <= t < n + b2n si + fork_size fo + length an + length na)).
  { destruct si; cbn [b2n] in *; lia. }
  destruct Cases as [[-> ->]|[H|[H|H]]].
  - exists PSingle. split; [|discriminate]. unfold placed. cbn. destruct fo; reflexivity.
  - exists (PFork (t - (n + b2n si))). split; [|discriminate]. destruct fo as [k|]; [|cbn in H; lia].
    cbn. destruct si; cbn in *; apply nth_seq; lia.
  - destruct (nth_error an (t - (n + b2n si + fork_size fo))) as [k|] eqn:E.
    + exists (PAnon k). split; [|discriminate]. cbn. rewrite (lookup_seq_nth k an _ _ Ha E). f_equal. lia.
    + apply nth_error_None in E. lia.
  - destruct (nth_error na (t - (n + b2n si + fork_size fo + length an))) as [k|] eqn:E.
    + exists (PNamed k). split; [|discriminate]. cbn. rewrite (lookup_seq_nth k na _ _ Hn E). f_equal. lia.
    + apply nth_error_None in E. lia.
Qed.

Lemma placed_one sh n c p p' t : bare c -> (forall e, c_start c = Some e -> e < n) -> n <= t ->
  portof (placed sh n c) p = Some t -> portof (placed sh n c) p' = Some t -> p = p'.
Proof.
  intros Hc Hs Ht H1 H2. pose proof (placed_port sh n c p t Hc H1) as K1. pose proof (placed_port sh n c p' t Hc H2) as K2.
  assert (B : forall i k, nth_error (sh_anon sh) i = Some k -> i < length (sh_anon sh)).
  { intros i k E. apply nth_error_Some. congruence. }
  destruct p, p'; try reflexivity;
       repeat match goal with
       | H : portof c PStart = Some _ |- _ => apply Hs in H
       | H : exists _, _ |- _ => destruct H as [? [? ?]]
       | H : _ /\ _ |- _ => destruct H
       | H : nth_error (sh_anon sh) _ = Some _ |- _ => pose proof (B _ _ H); revert H
       | H : sh_single sh = true |- _ => rewrite H in *; clear H
       end; intros; cbn [b2n] in *; try lia.
  - f_equal. lia.
  - f_equal. match goal with A : nth_error _ ?i = Some ?k, A' : nth_error _ ?j = Some ?l |- ?k = ?l =>
        assert (i = j) by lia; congruence
    | A : nth_error _ ?i = Some ?k, A' : nth_error _ ?j = Some ?l |- ?l = ?k =>
        assert (i = j) by lia; congruence end.
  - f_equal. match goal with A : nth_error _ ?i = Some ?k, A' : nth_error _ ?j = Some ?l |- ?k = ?l =>
        assert (i = j) by lia; congruence
    | A : nth_error _ ?i = Some ?k, A' : nth_error _ ?j = Some ?l |- ?l = ?k =>
        assert (i = j) by lia; congruence end.
Qed.

(** ** Every act but [AConnect] *)
Definition ports_grow (a a' : api) (x : act) : Prop :=
  (forall m p t, leads_to a m p = Some t -> leads_to a' m p = Some t) /\
  (forall m p t, leads_to a' m p = Some t ->
     leads_to a m p = Some t \/ (cw_next (a_w a) <= t /\ In t (a_outs a')) \/ (x = AListen m t /\ In t (a_slots a))) /\
  (forall t, In t (a_outs a') -> cw_next (a_w a) <= t ->
     exists m p, leads_to a' m p = Some t /\ forall m' p', leads_to a' m' p' = Some t -> m' = m /\ p' = p) /\
  (forall t, In t (a_outs a') -> In t (a_outs a) \/ cw_next (a_w a) <= t) /\
  (forall t, In t (a_slots a) -> In t (a_slots a')) /\
  cw_next (a_w a) <= cw_next (a_w a').

Lemma ports_grow_refl a x : wired a -> ports_grow a a x.
Proof.
  intros I. split; [auto|]. split; [auto|]. split.
  - intros t Ht L. destruct (i_open a I t Ht) as [d [E _]]. rewrite (i_fresh a I t L) in E. discriminate.
  - auto.
Qed.

Lemma ports_grown a m c c' k w' slots sc x : wired a -> cw_node (a_w a) m = Some c -> grown m c' k (a_w a) w' ->
  (forall p t, portof c p = Some t -> portof c' p = Some t) ->
  (forall p t, portof c' p = Some t -> portof c p = Some t \/ cw_next (a_w a) <= t < cw_next (a_w a) + k) ->
  (forall t, cw_next (a_w a) <= t < cw_next (a_w a) + k -> exists p, portof c' p = Some t /\
     forall p', portof c' p' = Some t -> p' = p) ->
  (forall t, In t (a_slots a) -> In t slots) ->
  ports_grow a (mk_api w' (without (a_outs a) m ++ seq (cw_next (a_w a)) k) slots sc) x.
Proof.
  intros I E G K L U Hs. pose proof G as [Gn [_ _]].
  assert (Lm : m < cw_next (a_w a)) by (apply i_below; [exact I|congruence]).
  assert (Hl : forall e p t, leads_to (mk_api w' (without (a_outs a) m ++ seq (cw_next (a_w a)) k) slots sc) e p = Some t ->
     (e = m /\ portof c' p = Some t) \/ (e <> m /\ leads_to a e p = Some t)).
  { intros e p t H. rewrite leads_portof in H. cbn [a_w] in H. destruct (cw_node w' e) as [d|] eqn:Ed; [|discriminate].
    destruct (grown_cases _ _ _ _ _ _ _ G Ed) as [[-> ->]|[[Hn [R ->]]|[Hn Hd]]]; [auto| |].
    - exfalso. destruct p; cbn in H; try discriminate.
    - right. split; [exact Hn|]. rewrite leads_portof, Hd. exact H. }
  assert (Hm : forall p, leads_to (mk_api w' (without (a_outs a) m ++ seq (cw_next (a_w a)) k) slots sc) m p = portof c' p).
  { intros p. rewrite leads_portof. cbn [a_w]. rewrite (grown_node _ _ _ _ _ G). reflexivity. }
  split; [|split; [|split; [|split; [|split]]]]; cbn [a_outs a_w a_slots].
  - intros e p t H. destruct (Nat.eq_dec e m) as [->|Hn].
    + rewrite Hm. apply K. rewrite leads_portof, E in H. exact H.
    + rewrite leads_portof in *. cbn [a_w]. destruct (cw_node (a_w a) e) as [d|] eqn:Ed; [|discriminate].
      rewrite (grown_old _ _ _ _ _ _ G Hn), Ed; [exact H|]. apply i_below; [exact I|congruence].
  - intros e p t H. apply Hl in H. destruct H as [[-> H]|[_ H]]; [|auto]. apply L in H. destruct H as [H|R].
    + left. rewrite leads_portof, E. exact H.
    + right. left. split; [lia|]. apply in_or_app. right. apply in_seq. lia.
  - intros t Ht R. apply in_app_or in Ht. destruct Ht as [Ht|Ht].
    { apply without_In in Ht. destruct (i_open a I t (proj1 Ht)) as [d [Ed _]]. rewrite (i_fresh a I t R) in Ed. discriminate. }
    apply in_seq in Ht. destruct (U t Ht) as [p [Hp Hu]]. exists m, p. split; [rewrite Hm; exact Hp|].
    intros m' p' H. apply Hl in H. destruct H as [[-> H]|[_ H]].
    + split; [reflexivity|]. apply Hu, H.
    + exfalso. apply (leads_live a _ _ _ I) in H. exact (H (i_fresh a I t R)).
  - intros t Ht. apply in_app_or in Ht. destruct Ht as [Ht|Ht].
    + apply without_In in Ht. tauto.
    + apply in_seq in Ht. lia.
  - exact Hs.
  - lia.
Qed.

Lemma ports_place a m c sh slots x sc : wired a -> cw_node (a_w a) m = Some c -> bare c -> NoDup (sh_anon sh) -> NoDup (sh_named sh) ->
  (forall t, In t (a_slots a) -> In t slots) ->
  ports_grow a (mk_api (fst (place m sh (a_w a))) (without (a_outs a) m ++ snd (place m sh (a_w a))) slots sc) x.
Proof.
  intros I E B Ha Hn Hs. assert (Lm : m < cw_next (a_w a)) by (apply i_below; [exact I|congruence]).
  destruct (place_grown m sh c (a_w a) Lm E Ha Hn) as [P G]. rewrite P.
  assert (Hst : forall e, c_start c = Some e -> e < cw_next (a_w a)).
  { intros e He. destruct (i_start a I m c e E He) as [d [Ed _]]. apply i_below; [exact I|congruence]. }
  apply (ports_grown a m c (placed sh (cw_next (a_w a)) c)); try assumption.
  - intros p t. apply placed_keep, B.
  - intros p t H. destruct (port_eq p) as [->|Hp].
    + left. exact (placed_port _ _ _ _ _ B H).
    + right. destruct B as [B1 [B2 _]]. apply (placed_targets sh _ c t B1 B2). exact (port_target _ _ _ Hp H).
  - intros t R. destruct (placed_all sh _ c t Ha Hn B R) as [p [Hp _]]. exists p. split; [exact Hp|].
    intros p' Hp'. apply (placed_one sh (cw_next (a_w a)) c p' p t B Hst); [lia|exact Hp'|exact Hp].
Qed.

Lemma leads_spawn a outs slots sc m p : wired a -> leads_to (mk_api (spawn (a_w a) c_empty) outs slots sc) m p = leads_to a m p.
Proof.
  intros I. rewrite !leads_portof. cbn. unfold emap_set. destruct (Nat.eqb_spec m (cw_next (a_w a))) as [->|]; [|reflexivity].
  rewrite (i_fresh a I); [|lia]. destruct p; reflexivity.
Qed.

Lemma step_ports a x : wired a -> distinct_streams x -> (forall o n, x <> AConnect o n) -> ports_grow a (astep a x) x.
Proof.
  intros I Hx Hno. destruct x as [sh|o sh|m|b m| |o n].
  - destruct Hx as [Ha Hn]. cbn [astep]. pose proof (wired_spawn a I) as I1.
    set (a1 := mk_api (spawn (a_w a) c_empty) (a_outs a) (a_slots a ++ [cw_next (a_w a)]) (a_scopes a)) in *.
    assert (Hsp : forall e p, leads_to a1 e p = leads_to a e p) by (intros; apply leads_spawn, I).
    assert (E : cw_node (a_w a1) (cw_next (a_w a)) = Some c_empty).
    { cbn. unfold emap_set. rewrite Nat.eqb_refl. reflexivity. }
    pose proof (ports_place a1 (cw_next (a_w a)) c_empty sh (a_slots a ++ [cw_next (a_w a)]) (ACreate sh) (a_scopes a) I1 E) as P.
    specialize (P ltac:(repeat split) Ha Hn ltac:(auto)). change (a_w a1) with (spawn (a_w a) c_empty) in P.
    destruct (place (cw_next (a_w a)) sh (spawn (a_w a) c_empty)) as [w1 ts] eqn:Ep. cbn [fst snd] in P.
    change (a_outs a1) with (a_outs a) in P. change (cw_next (a_w a1)) with (S (cw_next (a_w a))) in P.
    rewrite without_none in P.
    2: { intros Ho. destruct (i_open a I _ Ho) as [d [E1 _]]. rewrite (i_fresh a I) in E1; [discriminate|lia]. }
    destruct P as [K [L [U [O [Sl N]]]]]. cbn [a_w a_outs a_slots] in K, L, U, O, Sl, N.
    change (cw_next (a_w a1)) with (S (cw_next (a_w a))) in *.
    split; [|split; [|split; [|split; [|split]]]]; cbn [a_w a_outs a_slots].
    + intros e p t H. apply K. rewrite Hsp. exact H.
    + intros e p t H. apply L in H. rewrite Hsp in H.
      destruct H as [H|[[R H]|[H _]]]; [auto| |discriminate]. right. left. split; [lia|exact H].
    + intros t Ht R. destruct (Nat.eq_dec t (cw_next (a_w a))) as [->|]; [|apply U; [exact Ht|lia]].
      exfalso. destruct (O _ Ht) as [H|H]; [|lia]. destruct (i_open a I _ H) as [d [E1 _]].
      rewrite (i_fresh a I) in E1; [discriminate|lia].
    + intros t Ht. destruct (O t Ht); [auto|lia].
    + intros t Ht. apply in_or_app. auto.
    + lia.
  - destruct Hx as [Ha Hn]. cbn [astep]. destruct (has (a_outs a) o) eqn:Ho; [|apply ports_grow_refl, I]. apply has_In in Ho.
    destruct (i_open a I o Ho) as [c [E [A [B [C [D [F [H J]]]]]]]].
    pose proof (ports_place a o c sh (a_slots a ++ [o]) (AChain o sh) (a_scopes a) I E) as P.
    specialize (P ltac:(repeat split; assumption) Ha Hn ltac:(intros t Ht; apply in_or_app; auto)).
    destruct (place o sh (a_w a)) as [w1 ts]. exact P.
  - cbn [astep]. destruct (has (a_slots a) m && forks (a_w a) m)%bool eqn:Hf; [|apply ports_grow_refl, I].
    apply andb_prop in Hf. destruct Hf as [Hs Hf]. apply has_In in Hs. unfold forks in Hf.
    destruct (cw_node (a_w a) m) as [c|] eqn:E; [|discriminate]. destruct (c_fork c) as [l|] eqn:El; [|discriminate].
    assert (L : m < cw_next (a_w a)) by (apply i_below; [exact I|congruence]).
    assert (G : grown m (set_fork (Some (l ++ [cw_next (a_w a)])) c) 1 (a_w a)
      (add_branch m (cw_next (a_w a)) (spawn (a_w a) (set_inputs (Some [m]) c_empty)))).
    { unfold add_branch. cbn [cw_node spawn]. unfold emap_set. destruct (Nat.eqb_spec m (cw_next (a_w a))); [lia|].
      rewrite E, El. split; [cbn; lia|]. split; [reflexivity|]. intros e. cbn [cw_node put spawn cw_next]. unfold emap_set.
      destruct (Nat.eqb_spec e m); [reflexivity|].
      destruct (Nat.eqb_spec e (cw_next (a_w a))), (Nat.leb_spec (cw_next (a_w a)) e), (Nat.ltb_spec e (cw_next (a_w a) + 1)); cbn;
        try reflexivity; lia. }
    pose proof (ports_grown a m c _ 1 _ (a_slots a) (a_scopes a) (ABranch m) I E G) as P.
    rewrite without_none in P by (intros Ho; exact (i_used a I m Ho Hs)). apply P.
    + intros p t H. destruct p; cbn in *; try exact H. rewrite El in H. rewrite nth_error_app1; [exact H|].
      apply nth_error_Some. congruence.
    + intros p t H. destruct p; cbn in *; auto. rewrite El. destruct (Nat.lt_ge_cases i (length l)) as [Hi|Hi].
      * rewrite nth_error_app1 in H by exact Hi. auto.
      * rewrite nth_error_app2 in H by exact Hi. destruct (i - length l) as [|j]; cbn in H; [|destruct j; discriminate].
        injection H as <-. lia.
    + intros t R. assert (Ht : t = cw_next (a_w a)) by lia. subst t. exists (PFork (length l)). split.
      * cbn. rewrite nth_error_app2, Nat.sub_diag; [reflexivity|lia].
      * intros p' H. destruct (port_eq p') as [->|Hp'].
        { exfalso. cbn in H. destruct (i_start a I m c _ E H) as [d [Ed _]]. rewrite (i_fresh a I) in Ed; [discriminate|lia]. }
        assert (Hnot : forall t, In t (targets c) -> t < cw_next (a_w a)).
        { intros t Ht. destruct (i_down a I m c t E Ht) as [d [Ed _]]. apply i_below; [exact I|congruence]. }
        destruct p'; cbn in H; try contradiction.
        -- exfalso. assert (Hin : In (cw_next (a_w a)) (targets c)) by (apply (port_target c PSingle); [discriminate|exact H]).
           apply Hnot in Hin. lia.
        -- destruct (Nat.lt_ge_cases i (length l)) as [Hi|Hi].
           ++ rewrite nth_error_app1 in H by exact Hi. exfalso.
              assert (Hin : In (cw_next (a_w a)) (targets c)).
              { apply (port_target c (PFork i)); [discriminate|]. cbn. rewrite El. exact H. }
              apply Hnot in Hin. lia.
           ++ rewrite nth_error_app2 in H by exact Hi. destruct (i - length l) as [|j] eqn:Ej; cbn in H; [|destruct j; discriminate].
              f_equal. lia.
        -- exfalso. assert (Hin : In (cw_next (a_w a)) (targets c)) by (apply (port_target c (PAnon k)); [discriminate|exact H]).
           apply Hnot in Hin. lia.
        -- exfalso. assert (Hin : In (cw_next (a_w a)) (targets c)) by (apply (port_target c (PNamed k)); [discriminate|exact H]).
           apply Hnot in Hin. lia.
    + auto.
  - cbn [astep]. destruct (has (a_slots a) b && forks (a_w a) b && has (a_slots a) m)%bool eqn:Hf; [|apply ports_grow_refl, I].
    apply andb_prop in Hf. destruct Hf as [Hf Hm]. apply andb_prop in Hf. destruct Hf as [Hs Hf].
    apply has_In in Hs. apply has_In in Hm. unfold forks in Hf.
    destruct (cw_node (a_w a) b) as [c|] eqn:E; [|discriminate]. destruct (c_fork c) as [l|] eqn:El; [|discriminate].
    pose proof (i_slots a I m Hm) as Hmn. destruct (cw_node (a_w a) m) as [d|] eqn:Em; [|contradiction].
    set (w := add_listener b m (a_w a)).
    assert (Hw : cw_next w = cw_next (a_w a) /\ forall e, match cw_node w e, cw_node (a_w a) e with
         | Some x', Some x => forall p, portof x' p =
              if Nat.eqb e b then match p with PFork i => nth_error (add_input m l) i | _ => portof x p end else portof x p
         | None, None => True | _, _ => False end).
    { subst w. unfold add_listener. rewrite E, El. cbn [cw_node put]. unfold emap_set.
      destruct (Nat.eqb_spec m b) as [Emb|Hmb].
      - subst m. split; [reflexivity|]. intros e. cbn [cw_node put]. unfold emap_set.
        destruct (Nat.eqb_spec e b) as [->|]; [rewrite E; intros []; reflexivity|]. destruct (cw_node (a_w a) e); auto.
      - rewrite Em. split; [reflexivity|]. intros e. cbn [cw_node put]. unfold emap_set.
        destruct (Nat.eqb_spec e m) as [->|].
        + rewrite Em. destruct (Nat.eqb_spec m b); [contradiction|]. intros []; reflexivity.
        + destruct (Nat.eqb_spec e b) as [->|]; [rewrite E; intros []; reflexivity|]. destruct (cw_node (a_w a) e); auto. }
    destruct Hw as [Wn W].
    assert (Hle : forall outs sl sc e p, leads_to (mk_api w outs sl sc) e p =
       if Nat.eqb e b then match p with PFork i => nth_error (add_input m l) i | _ => leads_to a e p end else leads_to a e p).
    { intros outs sl sc e p. rewrite !leads_portof. cbn [a_w]. specialize (W e). destruct (cw_node w e) as [x'|], (cw_node (a_w a) e) as [x|] eqn:Ex; try contradiction.
      - apply W.
      - destruct (Nat.eqb_spec e b) as [->|]; [congruence|reflexivity]. }
    split; [|split; [|split; [|split; [|split]]]]; cbn [a_w a_outs a_slots].
    + intros e p t H. rewrite Hle. destruct (Nat.eqb_spec e b) as [->|]; [|exact H]. destruct p; try exact H.
      rewrite leads_portof, E in H. cbn in H. rewrite El in H. unfold add_input. destruct (existsb _ _); [exact H|].
      rewrite nth_error_app1; [exact H|]. apply nth_error_Some. congruence.
    + intros e p t H. rewrite Hle in H. destruct (Nat.eqb_spec e b) as [->|]; [|auto]. destruct p; auto.
      assert (Hold : leads_to a b (PFork i) = nth_error l i) by (rewrite leads_portof, E; cbn; rewrite El; reflexivity).
      rewrite Hold. unfold add_input in H. destruct (existsb _ _); [auto|].
      destruct (Nat.lt_ge_cases i (length l)) as [Hi|Hi].
      * rewrite nth_error_app1 in H by exact Hi. auto.
      * rewrite nth_error_app2 in H by exact Hi. destruct (i - length l) as [|j]; cbn in H; [|destruct j; discriminate].
        injection H as <-. auto.
    + intros t Ht R. destruct (i_open a I t Ht) as [x [Ex _]]. rewrite (i_fresh a I t R) in Ex. discriminate.
    + auto.
    + auto.
    + lia.
  - pose proof (scope_same a) as [S [E1 [E2 E3]]]. destruct (astep a AScope) as [w' outs slots sc].
    cbn [a_w a_outs a_slots a_scopes] in *. subst outs slots sc. destruct S as [S1 [_ S2]].
    set (w := a_w a) in *.
    assert (Hl : forall outs sl sc e p t, leads_to (mk_api w' outs sl sc) e p = Some t ->
       (e = cw_next w /\ ((p = PSingle /\ t = cw_next w + 1) \/ (p = PStart /\ t = cw_next w + 2))) \/ leads_to a e p = Some t).
    { intros outs sl sc e p t H. rewrite leads_portof in H. cbn [a_w] in H. rewrite <- S2 in H.
      destruct (cw_node (scope_world w) e) as [d|] eqn:Ed; [|discriminate]. apply scope_cases in Ed.
      destruct Ed as [[-> ->]|[[-> ->]|[[-> ->]|[[-> ->]|Ed]]]].
      - left. split; [reflexivity|]. destruct p; cbn in H; try discriminate; injection H as <-; auto.
      - destruct p; discriminate.
      - destruct p; discriminate.
      - destruct p; discriminate.
      - right. rewrite leads_portof. fold w. rewrite Ed. exact H. }
    split; [|split; [|split; [|split; [|split]]]]; cbn [a_w a_outs a_slots].
    + intros e p t H. rewrite leads_portof in *. cbn [a_w]. rewrite <- S2. fold w in H.
      destruct (cw_node w e) as [d|] eqn:Ed; [|discriminate]. rewrite scope_old, Ed; [exact H|].
      apply (i_below a e I). fold w. congruence.
    + intros e p t H. apply Hl in H. destruct H as [[-> H]|H]; [|auto]. right. left.
      destruct H as [[_ ->]|[_ ->]]; (split; [subst w; lia|]); apply in_or_app; right; cbn; auto.
    + intros t Ht R.
      assert (Hn : ~ In t (a_outs a)).
      { intros Hin. destruct (i_open a I t Hin) as [d [Ed _]]. rewrite (i_fresh a I t R) in Ed. discriminate. }
      assert (Hno2 : forall e p, leads_to a e p = Some t -> False).
      { intros e p H. apply (leads_live a _ _ _ I) in H. exact (H (i_fresh a I t R)). }
      apply in_app_or in Ht. destruct Ht as [Ht|[<-|[<-|[]]]]; [contradiction| |].
      * exists (cw_next w), PSingle. split; [rewrite leads_portof; cbn [a_w]; rewrite <- S2, scope_n; reflexivity|].
        intros m' p' H. apply Hl in H. destruct H as [[-> [[-> _]|[_ H]]]|H]; [auto|subst w; lia|exfalso; exact (Hno2 _ _ H)].
      * exists (cw_next w), PStart. split; [rewrite leads_portof; cbn [a_w]; rewrite <- S2, scope_n; reflexivity|].
        intros m' p' H. apply Hl in H. destruct H as [[-> [[_ H]|[-> _]]]|H]; [subst w; lia|auto|exfalso; exact (Hno2 _ _ H)].
    + intros t Ht. apply in_app_or in Ht. destruct Ht as [Ht|[<-|[<-|[]]]]; [auto|subst w; right; lia|subst w; right; lia].
    + intros t Ht. apply in_or_app. auto.
    + rewrite <- S1. cbn. subst w. lia.
  - exfalso. apply (Hno o n). reflexivity.
Qed.

(** ** [AConnect] *)
Lemma portof_rerouted o n l e c p : portof (rerouted o n l e c) p =
  if has l e then match p with PStart => portof c p | _ => option_map (swap o n) (portof c p) end else portof c p.
Proof.
  unfold rerouted. destruct (has l e), (Nat.eqb e n), p; cbn; try reflexivity.
  all: try (unfold retarget; cbn; destruct (c_fork c) as [f|]; [|reflexivity]; cbn; rewrite nth_error_map; reflexivity).
  all: unfold retarget; cbn; apply lookup_map.
Qed.

Lemma connect_ports a o n : wired a -> In o (a_outs a) -> In n (a_slots a) ->
  forall m p, leads_to (astep a (AConnect o n)) m p = option_map (swap o n) (leads_to a m p).
Proof.
  intros I Ho Hn m p. cbn [astep]. rewrite (proj2 (has_In (a_outs a) o) Ho), (proj2 (has_In (a_slots a) n) Hn). cbn [andb].
  destruct (connect_nodes a o n I Ho Hn) as [_ [_ [W3 W]]]. rewrite !leads_portof. cbn [a_w].
  destruct (Nat.eq_dec m o) as [->|Hm].
  { rewrite W3. destruct (i_open a I o Ho) as [c [E [A [B [C [D [F [H J]]]]]]]]. rewrite E.
    destruct p; cbn; rewrite ?B, ?C, ?D, ?F, ?H; reflexivity. }
  destruct W as [[l [E [Hol W]]]|[s [ds [E [Es [Hst [Hso W]]]]]]]; rewrite (W m Hm);
    destruct (cw_node (a_w a) m) as [c|] eqn:Ec; try reflexivity; cbn [option_map].
  - rewrite portof_rerouted. destruct (portof c p) as [t|] eqn:Ep.
    2: { destruct (has l m); [destruct p|]; reflexivity. }
    destruct (port_eq p) as [->|Hp].
    + assert (Ht : t <> o).
      { intros ->. destruct (i_start a I m c o Ec Ep) as [d [Ed Hd]]. specialize (Hd Ho). rewrite E in Ed. injection Ed as <-. discriminate. }
      cbn [option_map]. rewrite (swap_other o n t Ht). destruct (has l m); reflexivity.
    + destruct (has l m) eqn:Hml.
      * destruct p; try reflexivity. contradiction.
      * cbn [option_map]. rewrite swap_other; [reflexivity|]. intros ->.
        destruct (i_down a I m c o Ec (port_target c p o Hp Ep)) as [d [Ed Hd]]. rewrite E in Ed. injection Ed as <-.
        apply has_In in Hd. cbn in Hd. unfold has in *. congruence.
  - destruct (port_eq p) as [->|Hp].
    + destruct (Nat.eqb_spec m s) as [->|Hms].
      * rewrite Es in Ec. injection Ec as <-. cbn. rewrite Hst. cbn. rewrite swap_o. reflexivity.
      * replace (portof (if Nat.eqb m n then set_entry (Some s) c else c) PStart) with (portof c PStart) by (destruct (Nat.eqb m n); reflexivity).
        destruct (portof c PStart) as [t|] eqn:Ep; [|reflexivity]. cbn. rewrite swap_other; [reflexivity|]. intros ->.
        destruct (i_start a I m c o Ec Ep) as [d [Ed Hd]]. specialize (Hd Ho). rewrite E in Ed. injection Ed as <-. cbn in Hd. congruence.
    + assert (Hsame : portof (if Nat.eqb m s then set_start (Some n) (if Nat.eqb m n then set_entry (Some s) c else c)
                        else if Nat.eqb m n then set_entry (Some s) c else c) p = portof c p).
      { destruct (Nat.eqb m s), (Nat.eqb m n), p; try reflexivity; contradiction. }
      rewrite Hsame. destruct (portof c p) as [t|] eqn:Ep; [|reflexivity]. cbn. rewrite swap_other; [reflexivity|]. intros ->.
      destruct (i_down a I m c o Ec (port_target c p o Hp Ep)) as [d [Ed Hd]]. rewrite E in Ed. injection Ed as <-. destruct Hd.
Qed.

(** ** Unused outputs belong to one port *)
Definition sole (a : api) : Prop := forall o, In o (a_outs a) ->
  exists m p, leads_to a m p = Some o /\ forall m' p', leads_to a m' p' = Some o -> m' = m /\ p' = p.

Lemma act_eq x : (exists o n, x = AConnect o n) \/ (forall o n, x <> AConnect o n).
Proof. destruct x; try (right; discriminate). left. eauto. Qed.

Lemma sole_step a x : wired a -> distinct_streams x -> sole a -> sole (astep a x).
Proof.
  intros I Hx S. destruct (act_eq x) as [[o [n ->]]|Hno].
  - destruct (has (a_outs a) o && has (a_slots a) n)%bool eqn:Hh.
    2: { cbn [astep]. rewrite Hh. exact S. }
    pose proof Hh as Hh'. apply andb_prop in Hh. destruct Hh as [Ho Hn]. apply has_In in Ho. apply has_In in Hn.
    pose proof (connect_ports a o n I Ho Hn) as P.
    assert (Houts : a_outs (astep a (AConnect o n)) = without (a_outs a) o) by (cbn [astep]; rewrite Hh'; reflexivity).
    intros o' Ho'. rewrite Houts in Ho'. apply without_In in Ho'. destruct Ho' as [Ho' Hne].
    assert (Hn' : o' <> n) by (intros ->; exact (i_used a I n Ho' Hn)).
    destruct (S o' Ho') as [m [p [Hp Hu]]]. exists m, p. split.
    + rewrite P, Hp. cbn. rewrite swap_other by exact Hne. reflexivity.
    + intros m' p' H. rewrite P in H. destruct (leads_to a m' p') as [t|] eqn:El; [|discriminate]. cbn in H. injection H as H.
      apply Hu. rewrite El. f_equal. unfold swap in H. destruct (Nat.eqb t o); congruence.
  - destruct (step_ports a x I Hx Hno) as [K [L [U [O _]]]]. intros o Ho. destruct (O o Ho) as [Hold|R]; [|apply U; assumption].
    destruct (S o Hold) as [m [p [Hp Hu]]]. exists m, p. split; [apply K, Hp|]. intros m' p' H. apply L in H.
    destruct H as [H|[[R _]|H]]; [apply Hu, H| |].
    + exfalso. destruct (i_open a I o Hold) as [d [Ed _]]. rewrite (i_fresh a I o R) in Ed. discriminate.
    + exfalso. exact (i_used a I o Hold (proj2 H)).
Qed.
