(** Scopes and connections; where ports lead to. *)
From Verif Require Import Base ConnectModel ConnectSpec ConnectProofs ConnectProofs2.

Definition scope_world (w : cworld) : cworld :=
  let n := cw_next w in
  mk_cworld (fun e =>
      if Nat.eqb e n then Some (mk_cnode None (Some (n + 1)) None [] [] None (Some (n + 2)))
      else if Nat.eqb e (n + 1) then Some (output_of n)
      else if Nat.eqb e (n + 2) then Some (set_entry (Some n) c_empty)
      else if Nat.eqb e (n + 3) then Some c_empty
      else cw_node w e) (n + 4) (cw_errors w).

Definition same_world (w w' : cworld) : Prop :=
  cw_next w = cw_next w' /\ cw_errors w = cw_errors w' /\ forall e, cw_node w e = cw_node w' e.

Lemma wired_same w w' outs slots sc : same_world w w' -> wired (mk_api w outs slots sc) -> wired (mk_api w' outs slots sc).
Proof.
  intros [A [B C]] I. destruct I as [I1 I2 I3 I4 I5 I6 I7 I8 I9 I10].
  constructor; cbn [a_w a_outs a_slots a_scopes] in *.
  - intros e. rewrite <- A, <- C. apply I1.
  - exact I2.
  - intros o Ho. destruct (I3 o Ho) as [c H]. exists c. rewrite <- C.
    destruct H as [H1 [H2 [H3 [H4 [H5 [H6 [H7 H]]]]]]]. repeat split; try assumption.
    destruct H as [H|[s [d H]]]; [left; exact H|]. right. exists s, d. rewrite <- C. exact H.
  - exact I4.
  - intros n Hn. rewrite <- C. apply I5, Hn.
  - intros m c t H Hin. rewrite <- C in H. destruct (I6 m c t H Hin) as [d Hd]. exists d. rewrite <- C. exact Hd.
  - intros m c t H Hin. rewrite <- C in H. destruct (I7 m c t H Hin) as [d Hd]. exists d. rewrite <- C. exact Hd.
  - intros t d H. rewrite <- C in H. exact (I8 t d H).
  - intros s c e H He. rewrite <- C in H. destruct (I9 s c e H He) as [d Hd]. exists d. rewrite <- C. exact Hd.
  - rewrite <- B. exact I10.
Qed.

Lemma scope_same a : let a' := astep a AScope in
  same_world (scope_world (a_w a)) (a_w a') /\
  a_outs a' = a_outs a ++ [cw_next (a_w a) + 1; cw_next (a_w a) + 2] /\
  a_slots a' = a_slots a ++ [cw_next (a_w a); cw_next (a_w a) + 3] /\ a_scopes a' = a_scopes a ++ [cw_next (a_w a)].
Proof.
  cbn [astep a_w a_outs a_slots a_scopes]. set (w := a_w a). set (n := cw_next w).
  split; [|cbn [spawn cw_next]; fold n; rewrite !Nat.add_succ_r, Nat.add_0_r; auto].
  cbn [spawn cw_next]. fold n.
  set (w4 := spawn (spawn (spawn (spawn w c_empty) c_empty) (set_entry (Some n) c_empty)) c_empty).
  assert (Hc : forall m f v c, cw_node v m = Some c -> change m f v = put v m (Some (f c))).
  { intros m f v c E. unfold change. rewrite E. reflexivity. }
  assert (E4 : cw_node w4 n = Some c_empty).
  { cbn. fold n. rewrite !emap_set_neq by lia. apply emap_set_eq. }
  rewrite (Hc n _ w4 c_empty E4). unfold setup_single, feed.
  assert (E5 : cw_node (put w4 n (Some (set_start (Some (S (S n))) c_empty))) (S n) = Some c_empty).
  { cbn. fold n. rewrite !emap_set_neq by lia. apply emap_set_eq. }
  rewrite E5. erewrite Hc; [|cbn [put cw_node]; rewrite emap_set_neq by lia; apply emap_set_eq].
  split; [cbn; fold n; lia|]. split; [reflexivity|]. intros e. cbn [cw_node scope_world put w4 spawn cw_next]. fold n. unfold emap_set.
  replace (n + 1) with (S n) by lia. replace (n + 2) with (S (S n)) by lia. replace (n + 3) with (S (S (S n))) by lia.
  destruct (Nat.eqb_spec e n) as [->|]; [reflexivity|].
  destruct (Nat.eqb_spec e (S n)) as [->|]; [reflexivity|].
  destruct (Nat.eqb_spec e (S (S (S n)))) as [->|].
  - destruct (Nat.eqb_spec (S (S (S n))) (S (S n))); [lia|]. reflexivity.
  - destruct (Nat.eqb_spec e (S (S n))) as [->|]; reflexivity.
Qed.

Lemma scope_cases w e d : cw_node (scope_world w) e = Some d ->
  (e = cw_next w /\ d = mk_cnode None (Some (cw_next w + 1)) None [] [] None (Some (cw_next w + 2))) \/
  (e = cw_next w + 1 /\ d = output_of (cw_next w)) \/
  (e = cw_next w + 2 /\ d = set_entry (Some (cw_next w)) c_empty) \/
  (e = cw_next w + 3 /\ d = c_empty) \/
  cw_node w e = Some d.
Proof.
  cbn. destruct (Nat.eqb_spec e (cw_next w)) as [->|]; [intros E; injection E as <-; auto|].
  destruct (Nat.eqb_spec e (cw_next w + 1)) as [->|]; [intros E; injection E as <-; auto|].
  destruct (Nat.eqb_spec e (cw_next w + 2)) as [->|]; [intros E; injection E as <-; auto|].
  destruct (Nat.eqb_spec e (cw_next w + 3)) as [->|]; [intros E; injection E as <-; auto 6|]. auto 6.
Qed.

Lemma scope_old w e : e < cw_next w -> cw_node (scope_world w) e = cw_node w e.
Proof.
  intros H. cbn. destruct (Nat.eqb_spec e (cw_next w)); [lia|]. destruct (Nat.eqb_spec e (cw_next w + 1)); [lia|].
  destruct (Nat.eqb_spec e (cw_next w + 2)); [lia|]. destruct (Nat.eqb_spec e (cw_next w + 3)); [lia|]. reflexivity.
Qed.

Lemma scope_n w : cw_node (scope_world w) (cw_next w) = Some (mk_cnode None (Some (cw_next w + 1)) None [] [] None (Some (cw_next w + 2))).
Proof. cbn. rewrite Nat.eqb_refl. reflexivity. Qed.
Lemma scope_n1 w : cw_node (scope_world w) (cw_next w + 1) = Some (output_of (cw_next w)).
Proof. cbn. destruct (Nat.eqb_spec (cw_next w + 1) (cw_next w)); [lia|]. rewrite Nat.eqb_refl. reflexivity. Qed.
Lemma scope_n2 w : cw_node (scope_world w) (cw_next w + 2) = Some (set_entry (Some (cw_next w)) c_empty).
Proof.
  cbn. destruct (Nat.eqb_spec (cw_next w + 2) (cw_next w)); [lia|].
  destruct (Nat.eqb_spec (cw_next w + 2) (cw_next w + 1)); [lia|]. rewrite Nat.eqb_refl. reflexivity.
Qed.
Lemma scope_n3 w : cw_node (scope_world w) (cw_next w + 3) = Some c_empty.
Proof.
  cbn. destruct (Nat.eqb_spec (cw_next w + 3) (cw_next w)); [lia|].
  destruct (Nat.eqb_spec (cw_next w + 3) (cw_next w + 1)); [lia|].
  destruct (Nat.eqb_spec (cw_next w + 3) (cw_next w + 2)); [lia|]. rewrite Nat.eqb_refl. reflexivity.
Qed.

Lemma wired_scope a : wired a -> wired (astep a AScope).
Proof.
  intros I. pose proof (scope_same a) as [S [E1 [E2 E3]]]. destruct (astep a AScope) as [w' outs slots sc].
  cbn [a_w a_outs a_slots a_scopes] in *. subst outs slots sc. apply (wired_same (scope_world (a_w a))); [exact S|]. clear S w'.
  set (w := a_w a) in *. pose proof (scope_old w) as Hold. pose proof (scope_n w) as N0. pose proof (scope_n1 w) as N1.
  pose proof (scope_n2 w) as N2. pose proof (scope_n3 w) as N3. pose proof (scope_cases w) as Hc.
  assert (Hl : forall e d, cw_node w e = Some d -> e < cw_next w /\ cw_node (scope_world w) e = Some d).
  { intros e d E. assert (L : e < cw_next w) by (apply (i_below a e I); subst w; congruence). split; [exact L|].
    rewrite Hold; assumption. }
  constructor; cbn [a_w a_outs a_slots a_scopes].
  - intros e He. destruct (cw_node (scope_world w) e) as [d|] eqn:E; [|reflexivity]. exfalso. cbn [scope_world cw_next] in He.
    apply Hc in E. destruct E as [[-> _]|[[-> _]|[[-> _]|[[-> _]|E]]]]; try lia. apply Hl in E. lia.
  - apply NoDup_both; [apply (i_outs a I)| |].
    + constructor; [intros [H|[]]; lia|]. constructor; [intros []|constructor].
    + intros e He Hn. destruct (i_open a I e He) as [d [E _]]. apply Hl in E. destruct Hn as [<-|[<-|[]]]; lia.
  - intros o Ho. apply in_app_or in Ho. destruct Ho as [Ho|[<-|[<-|[]]]].
    + destruct (i_open a I o Ho) as [d [E [A [B [C [D [F [H J]]]]]]]]. exists d. split; [apply Hl, E|].
      repeat split; try assumption. destruct J as [J|[s [x [J1 [J2 [J3 J4]]]]]]; [left; exact J|].
      right. exists s, x. repeat split; try assumption. apply Hl, J3.
    + exists (output_of (cw_next w)). split; [exact N1|]. repeat split; try reflexivity. left. split; [reflexivity|discriminate].
    + exists (set_entry (Some (cw_next w)) c_empty). split; [exact N2|]. repeat split; try reflexivity. right.
      exists (cw_next w). eexists. split; [reflexivity|]. split; [reflexivity|]. split; [exact N0|reflexivity].
  - intros o Ho Hs. apply in_app_or in Ho. apply in_app_or in Hs.
    assert (Hso : In o (a_slots a) -> o < cw_next w).
    { intros H. apply (i_slots a I) in H. apply (i_below a o I H). }
    destruct Ho as [Ho|Ho].
    + destruct (i_open a I o Ho) as [d [E _]]. apply Hl in E. destruct Hs as [Hs|[Hs|[Hs|[]]]]; try lia.
      exact (i_used a I o Ho Hs).
    + destruct Ho as [<-|[<-|[]]]; destruct Hs as [Hs|[Hs|[Hs|[]]]]; try lia; apply Hso in Hs; lia.
  - intros n Hn. apply in_app_or in Hn. destruct Hn as [Hn|[<-|[<-|[]]]]; [|congruence|congruence].
    pose proof (i_slots a I n Hn) as H. fold w in H. destruct (cw_node w n) as [d|] eqn:E; [|contradiction].
    rewrite (proj2 (Hl n d E)). discriminate.
  - intros m c t E Hin. apply Hc in E. destruct E as [[-> ->]|[[-> ->]|[[-> ->]|[[-> ->]|E]]]]; cbn in Hin; try contradiction.
    + destruct Hin as [<-|[]]. exists (output_of (cw_next w)). split; [exact N1|]. left. reflexivity.
    + destruct (i_down a I m c t E Hin) as [d [E1 H1]]. exists d. split; [apply Hl, E1|exact H1].
  - intros t d m E Hin. apply Hc in E. destruct E as [[-> ->]|[[-> ->]|[[-> ->]|[[-> ->]|E]]]]; cbn in Hin; try contradiction.
    + destruct Hin as [<-|[]]. eexists. split; [exact N0|]. left. reflexivity.
    + destruct (i_up a I t d m E Hin) as [c [E1 H1]]. exists c. split; [apply Hl, E1|exact H1].
  - intros t d E. apply Hc in E. destruct E as [[-> ->]|[[-> ->]|[[-> ->]|[[-> ->]|E]]]]; try constructor;
      [intros []|constructor|]. exact (i_nodup a I t d E).
  - intros s c e E He. apply Hc in E. destruct E as [[-> ->]|[[-> ->]|[[-> ->]|[[-> ->]|E]]]]; cbn in He; try discriminate.
    + injection He as <-. eexists. split; [exact N2|]. reflexivity.
    + destruct (i_start a I s c e E He) as [d [E1 H1]]. exists d. split; [apply Hl, E1|]. intros Hin. apply H1.
      apply in_app_or in Hin. destruct Hin as [Hin|[<-|[<-|[]]]]; [exact Hin| |]; apply Hl in E1; lia.
  - apply (i_errors a I).
Qed.

(** ** Connections *)
(** What the components are after a connection. *)
Lemma connect_nodes a o n : wired a -> In o (a_outs a) -> In n (a_slots a) ->
  let w' := connect o n (a_w a) in
  cw_next w' = cw_next (a_w a) /\ cw_errors w' = [] /\ cw_node w' o = None /\
  ((exists l, cw_node (a_w a) o = Some (set_inputs (Some l) c_empty) /\ ~ In o l /\
     forall e, e <> o -> cw_node w' e = option_map (rerouted o n l e) (cw_node (a_w a) e)) \/
   (exists s d, cw_node (a_w a) o = Some (set_entry (Some s) c_empty) /\ cw_node (a_w a) s = Some d /\ c_start d = Some o /\
      ~ In s (a_outs a) /\
      forall e, e <> o -> cw_node w' e = option_map (fun x =>
          let x1 := if Nat.eqb e n then set_entry (Some s) x else x in
          if Nat.eqb e s then set_start (Some n) x1 else x1) (cw_node (a_w a) e))).
Proof.
  intros I Ho Hn w'. subst w'. destruct (i_open a I o Ho) as [c [E [A [B [C [D [F [H J]]]]]]]].
  assert (Hno : n <> o) by (intros ->; exact (i_used a I o Ho Hn)).
  pose proof (i_slots a I n Hn) as Hln. destruct (cw_node (a_w a) n) as [d|] eqn:En; [|contradiction].
  unfold connect, try_connect. rewrite E. destruct J as [[J1 J2]|[s [x [J1 [J2 [J3 J4]]]]]].
  - rewrite J1. destruct (c_inputs c) as [l|] eqn:El; [|contradiction].
    assert (Ec : c = set_inputs (Some l) c_empty) by (destruct c; cbn in *; subst; reflexivity).
    assert (Hol : ~ In o l).
    { intros Hin. destruct (i_up a I o c o E) as [c2 [E2 H2]]; [rewrite El; exact Hin|]. rewrite E in E2.
      injection E2 as <-. rewrite A in H2. destruct H2. }
    destruct (reroute_ok o n l (put (a_w a) o (Some (set_inputs None c)))) as [w2 [Er [R1 [R2 R3]]]].
    + pose proof (i_nodup a I o c E) as Hd. rewrite El in Hd. exact Hd.
    + cbn. unfold emap_set. destruct (Nat.eqb_spec n o); [contradiction|]. congruence.
    + intros m Hm. destruct (i_up a I o c m E) as [c2 [E2 H2]]; [rewrite El; exact Hm|]. exists c2.
      split; [|exact H2]. cbn. unfold emap_set. destruct (Nat.eqb_spec m o) as [->|]; [contradiction|exact E2].
    + rewrite Er. cbn [cw_next cw_errors cw_node put]. split; [exact R1|]. split; [rewrite R2; apply (i_errors a I)|].
      split; [unfold emap_set; rewrite Nat.eqb_refl; reflexivity|]. left. exists l. split; [congruence|]. split; [exact Hol|].
      intros e He. unfold emap_set. destruct (Nat.eqb_spec e o); [contradiction|]. rewrite R3. cbn. unfold emap_set.
      destruct (Nat.eqb_spec e o); [contradiction|]. reflexivity.
  - rewrite J1, En. cbn [cw_node put].
    assert (Hso : s <> o) by (intros ->; rewrite J3 in E; injection E as <-; congruence).
    assert (Es : emap_set (cw_node (a_w a)) n (Some (set_entry (Some s) d)) s =
              Some (if Nat.eqb s n then set_entry (Some s) x else x)).
    { unfold emap_set. destruct (Nat.eqb_spec s n) as [->|]; [congruence|exact J3]. }
    rewrite Es. cbn [cw_next cw_errors cw_node put]. split; [reflexivity|]. split; [apply (i_errors a I)|].
    split; [unfold emap_set; rewrite Nat.eqb_refl; reflexivity|]. right. exists s, x.
    split; [f_equal; destruct c; cbn in *; subst; reflexivity|].
    split; [exact J3|]. split; [exact J4|]. split.
    { intros Hs. destruct (i_open a I s Hs) as [c2 [E2 [_ [_ [_ [_ [_ [H2 _]]]]]]]]. congruence. }
    intros e He. unfold emap_set. destruct (Nat.eqb_spec e o); [contradiction|].
    destruct (Nat.eqb_spec e s) as [->|Hes].
    + rewrite J3. reflexivity.
    + destruct (Nat.eqb_spec e n) as [->|]; [rewrite En; reflexivity|]. destruct (cw_node (a_w a) e); reflexivity.
Qed.

Lemma swap_o o n : swap o n o = n.
Proof. unfold swap. rewrite Nat.eqb_refl. reflexivity. Qed.
Lemma swap_other o n t : t <> o -> swap o n t = t.
Proof. intros H. unfold swap. destruct (Nat.eqb_spec t o); [contradiction|reflexivity]. Qed.

Lemma rerouted_inputs o n l e c : e <> n -> c_inputs (rerouted o n l e c) = c_inputs c.
Proof. intros H. unfold rerouted. destruct (Nat.eqb_spec e n); [contradiction|]. destruct (has l e); reflexivity. Qed.
Lemma rerouted_inputs_n o n l c : c_inputs (rerouted o n l n c) = add_all l (c_inputs c).
Proof. unfold rerouted. rewrite Nat.eqb_refl. reflexivity. Qed.
Lemma rerouted_entry o n l e c : c_entry (rerouted o n l e c) = c_entry c.
Proof. unfold rerouted. destruct (has l e), (Nat.eqb e n); reflexivity. Qed.
Lemma rerouted_start o n l e c : c_start (rerouted o n l e c) = c_start c.
Proof. unfold rerouted. destruct (has l e), (Nat.eqb e n); reflexivity. Qed.
Lemma rerouted_targets o n l e c : targets (rerouted o n l e c) = if has l e then map (swap o n) (targets c) else targets c.
Proof.
  unfold rerouted. destruct (has l e), (Nat.eqb e n); rewrite ?targets_set_inputs, ?targets_retarget; reflexivity.
Qed.
Lemma rerouted_same o n l e c : ~ In e l -> e <> n -> rerouted o n l e c = c.
Proof.
  intros H1 H2. unfold rerouted. destruct (has l e) eqn:E; [apply has_In in E; contradiction|].
  destruct (Nat.eqb_spec e n); [contradiction|reflexivity].
Qed.

Lemma map_inv_some {A B} (f : A -> B) x y : option_map f x = Some y -> exists z, x = Some z /\ y = f z.
Proof. destruct x as [z|]; cbn; [|discriminate]. intros H. injection H as <-. eauto. Qed.

Lemma wired_connect a o n : wired a -> wired (astep a (AConnect o n)).
Proof.
  intros I. cbn [astep]. destruct (has (a_outs a) o && has (a_slots a) n)%bool eqn:Hh; [|exact I].
  apply andb_prop in Hh. destruct Hh as [Ho Hn]. apply has_In in Ho. apply has_In in Hn.
  destruct (connect_nodes a o n I Ho Hn) as [W1 [W2 [W3 W]]]. set (w' := connect o n (a_w a)) in *.
  assert (Hno : n <> o) by (intros ->; exact (i_used a I o Ho Hn)).
  assert (Hsrc : forall t d m, cw_node (a_w a) t = Some d -> In m (members (c_inputs d)) -> m <> o).
  { intros t d m E Hin ->. destruct (i_up a I t d o E Hin) as [c [E1 H1]].
    destruct (i_open a I o Ho) as [c2 [E2 [A _]]]. rewrite E1 in E2. injection E2 as <-. rewrite A in H1. destruct H1. }
  destruct W as [[l [E [Hol W]]]|[s [ds [E [Es [Hst [Hso W]]]]]]].
  - assert (Hm : forall m, In m l -> exists c, cw_node (a_w a) m = Some c /\ In o (targets c)).
    { intros m Hm. apply (i_up a I o _ m E). exact Hm. }
    assert (Hlout : forall e, In e l -> ~ In e (a_outs a)).
    { intros e He Hout. destruct (Hm e He) as [c [E1 H1]]. destruct (i_open a I e Hout) as [c2 [E2 [A _]]].
      rewrite E1 in E2. injection E2 as <-. rewrite A in H1. destruct H1. }
    assert (Hnew : forall e d', cw_node w' e = Some d' -> e <> o /\ exists d, cw_node (a_w a) e = Some d /\ d' = rerouted o n l e d).
    { intros e d' E'. assert (He : e <> o) by congruence. split; [exact He|]. rewrite (W e He) in E'. apply map_inv_some in E'. exact E'. }
    assert (Hkeep : forall e d, e <> o -> cw_node (a_w a) e = Some d -> cw_node w' e = Some (rerouted o n l e d)).
    { intros e d He Ee. rewrite (W e He), Ee. reflexivity. }
    assert (Hin : forall e d y, In y (members (c_inputs (rerouted o n l e d))) <->
              In y (members (c_inputs d)) \/ (e = n /\ In y l)).
    { intros e d y. destruct (Nat.eq_dec e n) as [->|He].
      - rewrite rerouted_inputs_n, add_all_In. tauto.
      - rewrite rerouted_inputs by exact He. tauto. }
    constructor; cbn [a_w a_outs a_slots a_scopes].
    + intros e He. rewrite W1 in He. destruct (Nat.eq_dec e o) as [->|Hd]; [exact W3|].
      rewrite (W e Hd), (i_fresh a I e He). reflexivity.
    + apply without_NoDup, (i_outs a I).
    + intros o' Ho'. apply without_In in Ho'. destruct Ho' as [Ho' Hne].
      assert (Hn' : o' <> n) by (intros ->; exact (i_used a I n Ho' Hn)).
      destruct (i_open a I o' Ho') as [d [Ed [A [B [C [D [F [H J]]]]]]]]. exists d.
      split; [rewrite (Hkeep o' d Hne Ed), rerouted_same; auto; intros Hx; exact (Hlout o' Hx Ho')|]. repeat split; try assumption.
      destruct J as [J|[s [x [J1 [J2 [J3 J4]]]]]]; [left; exact J|]. right.
      assert (Hs : s <> o).
      { intros ->. rewrite E in J3. injection J3 as <-. discriminate. }
      exists s, (rerouted o n l s x). repeat split; try assumption; [apply Hkeep; assumption|]. rewrite rerouted_start. exact J4.
    + intros o' Ho'. apply without_In in Ho'. apply (i_used a I), Ho'.
    + intros n' Hn'. assert (Hne : n' <> o) by (intros ->; exact (i_used a I o Ho Hn')).
      pose proof (i_slots a I n' Hn') as Hl. destruct (cw_node (a_w a) n') as [d|] eqn:Ed; [|contradiction].
      rewrite (Hkeep n' d Hne Ed). discriminate.
    + intros m c' t Ec' Ht. destruct (Hnew m c' Ec') as [Hmo [c [Ec ->]]]. rewrite rerouted_targets in Ht.
      assert (Hgo : forall t, t <> o -> In t (targets c) -> exists d, cw_node w' t = Some d /\ In m (members (c_inputs d))).
      { intros t0 Ht0 Hint. destruct (i_down a I m c t0 Ec Hint) as [d [Ed Hd]]. exists (rerouted o n l t0 d).
        split; [apply Hkeep; assumption|]. apply Hin. auto. }
      destruct (has l m) eqn:Hml.
      * apply has_In in Hml. apply in_map_iff in Ht. destruct Ht as [t0 [Et Ht0]].
        destruct (Nat.eq_dec t0 o) as [->|Hne].
        -- rewrite swap_o in Et. subst t. pose proof (i_slots a I n Hn) as Hl.
           destruct (cw_node (a_w a) n) as [d|] eqn:Ed; [|contradiction]. exists (rerouted o n l n d).
           split; [apply Hkeep; assumption|]. apply Hin. auto.
        -- rewrite swap_other in Et by exact Hne. subst t. exact (Hgo t0 Hne Ht0).
      * apply Hgo; [|exact Ht]. intros ->. destruct (i_down a I m c o Ec Ht) as [d [Ed Hd]]. rewrite E in Ed.
        injection Ed as <-. apply has_In in Hd. cbn in Hd. unfold has in *. congruence.
    + intros t d' m Ed' Hm'. destruct (Hnew t d' Ed') as [Hto [d [Ed ->]]]. apply Hin in Hm'.
      destruct Hm' as [Hm'|[-> Hml]].
      * destruct (i_up a I t d m Ed Hm') as [c [Ec Hc]]. exists (rerouted o n l m c).
        split; [apply Hkeep; [exact (Hsrc t d m Ed Hm')|exact Ec]|]. rewrite rerouted_targets.
        destruct (has l m); [|exact Hc]. apply in_map_iff. exists t. split; [apply swap_other, Hto|exact Hc].
      * destruct (Hm m Hml) as [c [Ec Hc]]. exists (rerouted o n l m c). split.
        -- apply Hkeep; [|exact Ec]. intros ->. contradiction.
        -- rewrite rerouted_targets. apply has_In in Hml. rewrite Hml. apply in_map_iff. exists o.
           split; [apply swap_o|exact Hc].
    + intros t d' Ed'. destruct (Hnew t d' Ed') as [Hto [d [Ed ->]]]. pose proof (i_nodup a I t d Ed) as Hd.
      destruct (Nat.eq_dec t n) as [->|Hne]; [rewrite rerouted_inputs_n; apply add_all_NoDup, Hd|].
      rewrite rerouted_inputs by exact Hne. exact Hd.
    + intros s c' e Ec' He. destruct (Hnew s c' Ec') as [Hso [c [Ec ->]]]. rewrite rerouted_start in He.
      destruct (i_start a I s c e Ec He) as [d [Ed Hd]].
      assert (Heo : e <> o).
      { intros ->. specialize (Hd Ho). rewrite E in Ed. injection Ed as <-. discriminate. }
      exists (rerouted o n l e d). split; [apply Hkeep; assumption|]. intros Hin'. apply without_In in Hin'.
      rewrite rerouted_entry. apply Hd, Hin'.
    + exact W2.
  - set (g := fun e x => let x1 := if Nat.eqb e n then set_entry (Some s) x else x in
          if Nat.eqb e s then set_start (Some n) x1 else x1) in W.
    assert (Hnew : forall e d', cw_node w' e = Some d' -> e <> o /\ exists d, cw_node (a_w a) e = Some d /\ d' = g e d).
    { intros e d' E'. assert (He : e <> o) by congruence. split; [exact He|]. rewrite (W e He) in E'. apply map_inv_some in E'. exact E'. }
    assert (Hkeep : forall e d, e <> o -> cw_node (a_w a) e = Some d -> cw_node w' e = Some (g e d)).
    { intros e d He Ee. rewrite (W e He), Ee. reflexivity. }
    assert (Gi : forall e d, c_inputs (g e d) = c_inputs d) by (intros e d; unfold g; destruct (Nat.eqb e n), (Nat.eqb e s); reflexivity).
    assert (Gt : forall e d, targets (g e d) = targets d) by (intros e d; unfold g; destruct (Nat.eqb e n), (Nat.eqb e s); reflexivity).
    assert (Gs : forall e d, e <> s -> c_start (g e d) = c_start d).
    { intros e d He. unfold g. destruct (Nat.eqb_spec e s); [contradiction|]. destruct (Nat.eqb e n); reflexivity. }
    assert (Gss : forall d, c_start (g s d) = Some n) by (intros d; unfold g; rewrite Nat.eqb_refl; reflexivity).
    assert (Ge : forall e d, e <> n -> c_entry (g e d) = c_entry d).
    { intros e d He. unfold g. destruct (Nat.eqb_spec e n); [contradiction|]. destruct (Nat.eqb e s); reflexivity. }
    assert (Go : forall e d, In e (a_outs a) -> e <> o -> g e d = d).
    { intros e d He Hne. unfold g. destruct (Nat.eqb_spec e n) as [->|]; [exfalso; exact (i_used a I n He Hn)|].
      destruct (Nat.eqb_spec e s) as [->|]; [contradiction|reflexivity]. }
    assert (Ht : forall m c t, cw_node (a_w a) m = Some c -> In t (targets c) -> t <> o).
    { intros m c t Ec Hin ->. destruct (i_down a I m c o Ec Hin) as [d [Ed Hd]]. rewrite E in Ed. injection Ed as <-. destruct Hd. }
    constructor; cbn [a_w a_outs a_slots a_scopes].
    + intros e He. rewrite W1 in He. destruct (Nat.eq_dec e o) as [->|Hd]; [exact W3|].
      rewrite (W e Hd), (i_fresh a I e He). reflexivity.
    + apply without_NoDup, (i_outs a I).
    + intros o' Ho'. apply without_In in Ho'. destruct Ho' as [Ho' Hne].
      destruct (i_open a I o' Ho') as [d [Ed [A [B [C [D [F [H J]]]]]]]]. exists d.
      split; [rewrite (Hkeep o' d Hne Ed), Go; auto|]. repeat split; try assumption.
      destruct J as [J|[s' [x [J1 [J2 [J3 J4]]]]]]; [left; exact J|]. right.
      assert (Hs : s' <> o).
      { intros ->. rewrite E in J3. injection J3 as <-. discriminate. }
      assert (Hs2 : s' <> s) by (intros ->; rewrite Es in J3; injection J3 as <-; congruence).
      exists s', (g s' x). repeat split; try assumption; [apply Hkeep; assumption|]. rewrite Gs by exact Hs2. exact J4.
    + intros o' Ho'. apply without_In in Ho'. apply (i_used a I), Ho'.
    + intros n' Hn'. assert (Hne : n' <> o) by (intros ->; exact (i_used a I o Ho Hn')).
      pose proof (i_slots a I n' Hn') as Hl. destruct (cw_node (a_w a) n') as [d|] eqn:Ed; [|contradiction].
      rewrite (Hkeep n' d Hne Ed). discriminate.
    + intros m c' t Ec' Hin. destruct (Hnew m c' Ec') as [Hmo [c [Ec ->]]]. rewrite Gt in Hin.
      destruct (i_down a I m c t Ec Hin) as [d [Ed Hd]]. exists (g t d). rewrite Gi.
      split; [apply Hkeep; [exact (Ht m c t Ec Hin)|exact Ed]|exact Hd].
    + intros t d' m Ed' Hin. destruct (Hnew t d' Ed') as [Hto [d [Ed ->]]]. rewrite Gi in Hin.
      destruct (i_up a I t d m Ed Hin) as [c [Ec Hc]]. exists (g m c). rewrite Gt.
      split; [apply Hkeep; [exact (Hsrc t d m Ed Hin)|exact Ec]|exact Hc].
    + intros t d' Ed'. destruct (Hnew t d' Ed') as [Hto [d [Ed ->]]]. rewrite Gi. exact (i_nodup a I t d Ed).
    + intros s' c' e Ec' He. destruct (Hnew s' c' Ec') as [Hso' [c [Ec ->]]].
      destruct (Nat.eq_dec s' s) as [->|Hs'].
      * rewrite Gss in He. injection He as <-. pose proof (i_slots a I n Hn) as Hl.
        destruct (cw_node (a_w a) n) as [d|] eqn:Ed; [|contradiction]. exists (g n d).
        split; [apply Hkeep; assumption|]. intros Hin. apply without_In in Hin. exfalso. exact (i_used a I n (proj1 Hin) Hn).
      * rewrite Gs in He by exact Hs'. destruct (i_start a I s' c e Ec He) as [d [Ed Hd]].
        assert (Heo : e <> o).
        { intros ->. specialize (Hd Ho). rewrite E in Ed. injection Ed as <-. cbn in Hd. congruence. }
        exists (g e d). split; [apply Hkeep; assumption|]. intros Hin. apply without_In in Hin.
        rewrite (Go e d (proj1 Hin) (proj2 Hin)). apply Hd, Hin.
    + exact W2.
Qed.

Lemma wired_step a x : wired a -> distinct_streams x -> wired (astep a x).
Proof.
  intros I Hx. destruct x.
  - apply wired_create; assumption.
  - apply wired_achain; assumption.
  - apply wired_branch, I.
  - apply wired_listen, I.
  - apply wired_scope, I.
  - apply wired_connect, I.
Qed.

Lemma wired_run : forall l a, wired a -> Forall distinct_streams l -> wired (fold_left astep l a).
Proof.
  induction l as [|x l IH]; intros a I H; [exact I|]. inversion H; subst. cbn. apply IH; [|assumption].
  apply wired_step; assumption.
Qed.

Lemma wired_build l : Forall distinct_streams l -> wired (build l).
Proof. intros H. apply wired_run; [exact wired_nothing|exact H]. Qed.
