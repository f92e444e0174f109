From Verif Require Import Base RosterModel BufferModel BufferSpec BufferProofs
  InputModel InputSpec InputProofs GateModel GateSpec.

Definition lwakes (l : world unit) (t s : entity) : nat := length (of_session s (pending l t)).

Lemma give_active (l : world unit) t s :
  receives l t -> w_status l s = Some Active ->
  exists l', give_input l t s tt = (l', true) /\
    w_status l' = w_status l /\
    (forall t', receives l t' -> receives l' t') /\
    (forall t' s', lwakes l' t' s'
       = lwakes l t' s' + (if Nat.eqb t' t && Nat.eqb s' s then 1 else 0)).
Proof.
  intros Hr Hs. pose proof (give_delivers l t s tt) as Hd.
  destruct Hr as [nd [q [H1 H2]]].
  assert (E : exists l', give_input l t s tt = (l', true) /\ w_nodes l' t <> w_nodes l t).
  { unfold give_input, sneak_input. rewrite H1, Hs. cbn [andb negb]. rewrite H2.
    eexists. split; [reflexivity|]. cbn [w_nodes]. rewrite emap_set_eq.
    intros E. injection E as E. apply (f_equal n_inputs) in E. cbn [n_inputs] in E.
    rewrite H2 in E. injection E as E. apply (f_equal (@length _)) in E. cbn in E. lia. }
  destruct E as [l' [El Hn]]. exists l'. rewrite El in Hd. cbn [fst] in Hd.
  destruct Hd as [Hst [Hoth Hc]]. split; [exact El|]. split; [exact Hst|].
  destruct Hc as [[_ [Hr' [Hp _]]]|[Hc _]]; [|contradiction].
  split.
  - intros t' Ht'. destruct (Nat.eq_dec t' t) as [->|Hne]; [exact Hr'|].
    unfold receives. rewrite Hoth by assumption. exact Ht'.
  - intros t' s'. unfold lwakes. destruct (Nat.eqb_spec t' t) as [->|Hne]; cbn [andb].
    + rewrite Hp, of_session_app, app_length. unfold of_session at 2. cbn [filter fst].
      rewrite (Nat.eqb_sym s s'). destruct (Nat.eqb s' s); reflexivity.
    + unfold pending. rewrite Hoth by assumption. lia.
Qed.

Lemma wake_all_active ts : forall (l : world unit) s,
  (forall t, In t ts -> receives l t) -> w_status l s = Some Active ->
  exists l', wake_all l ts s = (l', true) /\
    w_status l' = w_status l /\
    (forall t', receives l t' -> receives l' t') /\
    (forall t' s', lwakes l' t' s'
       = lwakes l t' s' + (if Nat.eqb s' s then count_occ Nat.eq_dec ts t' else 0)).
Proof.
  induction ts as [|t ts IH]; intros l s Hr Hs; cbn [wake_all].
  - exists l. repeat split; auto. intros t' s'. cbn. destruct (Nat.eqb s' s); lia.
  - destruct (give_active l t s) as [l1 [E1 [S1 [R1 W1]]]]; [apply Hr; left; reflexivity|exact Hs|].
    rewrite E1.
    destruct (IH l1 s) as [l2 [E2 [S2 [R2 W2]]]].
    + intros t' Ht'. apply R1. apply Hr. right. exact Ht'.
    + rewrite S1. exact Hs.
    + exists l2. split; [exact E2|]. split; [congruence|]. split; [auto|].
      intros t' s'. rewrite W2, W1. cbn [count_occ].
      destruct (Nat.eqb_spec s' s), (Nat.eqb_spec t' t), (Nat.eq_dec t t');
        subst; cbn [andb]; try congruence; lia.
Qed.

Section GateProofs.
Context {V : Type}.
Implicit Types (w : gworld V).

Lemma wakes_lwakes w t s : wakes w t s = lwakes (gw_lis w) t s.
Proof. reflexivity. Qed.

Lemma gate_reads_set w b n b' s :
  gate_reads (set_buf w b n) b' s
  = if Nat.eqb b' b then Some (match bn_gates n s with Some g => g | None => Open end)
    else gate_reads w b' s.
Proof.
  unfold gate_reads, set_buf. cbn [gw_bufs]. unfold emap_set. destruct (Nat.eqb b' b); reflexivity.
Qed.

Lemma is_closed_reads (gs : emap gate) s :
  is_closed gs s = gate_eqb (match gs s with Some g => g | None => Open end) Closed.
Proof. unfold is_closed. destruct (gs s) as [[|]|]; reflexivity. Qed.

(** *** Pushing *)

Lemma push_result w b s v n :
  gw_bufs w b = Some n ->
  forall b' s', gate_reads (fst (buffer_execute w b s v)) b' s' = gate_reads w b' s' /\
    targets_of (fst (buffer_execute w b s v)) b' = targets_of w b' /\
    buf_contents (fst (buffer_execute w b s v)) b' s'
    = if Nat.eqb b' b then iter (fst (force_push (bn_store n) s v)) s' else buf_contents w b' s'.
Proof.
  intros En b' s'. unfold buffer_execute. rewrite En. cbn [bn_gates bn_targets].
  set (n1 := mk_bufnode _ _ _).
  assert (Hg : gate_reads (set_buf w b n1) b' s' = gate_reads w b' s').
  { rewrite gate_reads_set. destruct (Nat.eqb_spec b' b) as [->|]; [|reflexivity].
    unfold gate_reads. rewrite En. reflexivity. }
  assert (Ht : targets_of (set_buf w b n1) b' = targets_of w b').
  { unfold targets_of, set_buf. cbn [gw_bufs]. unfold emap_set.
    destruct (Nat.eqb_spec b' b) as [->|]; [rewrite En|]; reflexivity. }
  assert (Hc : buf_contents (set_buf w b n1) b' s'
    = if Nat.eqb b' b then iter (fst (force_push (bn_store n) s v)) s' else buf_contents w b' s').
  { unfold buf_contents, set_buf. cbn [gw_bufs]. unfold emap_set.
    destruct (Nat.eqb_spec b' b) as [->|]; reflexivity. }
  destruct (is_closed (bn_gates n) s); [cbn [fst]; auto|].
  destruct (wake_all _ _ _) as [l ok]. cbn [fst]. auto.
Qed.

Lemma closed_push w b s v :
  gate_reads w b s = Some Closed ->
  forall t s', wakes (fst (buffer_execute w b s v)) t s' = wakes w t s'.
Proof.
  unfold gate_reads. destruct (gw_bufs w b) as [n|] eqn:En; [|discriminate].
  intros Hg t s'. unfold buffer_execute. rewrite En. cbn [bn_gates bn_targets].
  rewrite is_closed_reads. injection Hg as ->. reflexivity.
Qed.

Lemma open_push w b s v :
  gate_reads w b s = Some Open -> ready w b s ->
  forall t s', wakes (fst (buffer_execute w b s v)) t s'
    = wakes w t s' + (if Nat.eqb s' s then count_occ Nat.eq_dec (targets_of w b) t else 0).
Proof.
  unfold gate_reads, ready, targets_of. destruct (gw_bufs w b) as [n|] eqn:En; [|discriminate].
  intros Hg [Hr [Hs _]] t s'. unfold buffer_execute. rewrite En. cbn [bn_gates bn_targets].
  rewrite is_closed_reads. injection Hg as ->. cbn [gate_eqb].
  cbn [set_buf gw_lis].
  destruct (wake_all_active (bn_targets n) (gw_lis w) s Hr Hs) as [l [E [_ [_ W]]]].
  rewrite E. cbn [fst]. rewrite !wakes_lwakes. cbn [gw_lis]. apply W.
Qed.

(** *** Gate actions by nodes *)

Lemma action_reads w b s g b' s' :
  gw_bufs w b <> None ->
  gate_reads (fst (gate_apply w b s g)) b' s'
  = if Nat.eqb b' b && Nat.eqb s' s then Some g else gate_reads w b' s'.
Proof.
  intros Hb. unfold gate_apply. destruct (gw_bufs w b) as [n|] eqn:En; [|congruence].
  destruct (gate_eqb _ g) eqn:Eg.
  - cbn [fst]. rewrite gate_reads_set. cbn [bn_gates].
    destruct (Nat.eqb_spec b' b) as [->|]; cbn [andb]; [|reflexivity].
    unfold emap_set. destruct (Nat.eqb_spec s' s) as [->|].
    + destruct (bn_gates n s) as [[|]|]; destruct g; try discriminate; reflexivity.
    + unfold gate_reads. rewrite En. reflexivity.
  - assert (H : gate_reads
        (set_buf w b (mk_bufnode (bn_store n)
          (emap_set (emap_set (bn_gates n) s
             (Some match bn_gates n s with Some g0 => g0 | None => Open end)) s (Some g))
          (bn_targets n))) b' s'
      = if Nat.eqb b' b && Nat.eqb s' s then Some g else gate_reads w b' s').
    { rewrite gate_reads_set. cbn [bn_gates].
      destruct (Nat.eqb_spec b' b) as [->|]; cbn [andb]; [|reflexivity].
      unfold emap_set. destruct (Nat.eqb_spec s' s) as [->|]; [reflexivity|].
      unfold gate_reads. rewrite En. reflexivity. }
    destruct g; [|exact H]. destruct (wake_all _ _ _) as [l ok]. cbn [fst]. exact H.
Qed.

Lemma action_contents w b s g b' s' :
  buf_contents (fst (gate_apply w b s g)) b' s' = buf_contents w b' s'.
Proof.
  unfold gate_apply. destruct (gw_bufs w b) as [n|] eqn:En; [|reflexivity].
  assert (H : forall gs, buf_contents (set_buf w b (mk_bufnode (bn_store n) gs (bn_targets n))) b' s'
                = buf_contents w b' s').
  { intros gs. unfold buf_contents, set_buf. cbn [gw_bufs]. unfold emap_set.
    destruct (Nat.eqb_spec b' b) as [->|]; [rewrite En|]; reflexivity. }
  destruct (gate_eqb _ g); [apply H|]. destruct g; [|apply H].
  destruct (wake_all _ _ _). apply (H _).
Qed.

Lemma action_wakes w b s g :
  ready w b s ->
  forall t s', wakes (fst (gate_apply w b s g)) t s'
    = wakes w t s' +
      (match gate_reads w b s, g with
       | Some Closed, Open => if Nat.eqb s' s then count_occ Nat.eq_dec (targets_of w b) t else 0
       | _, _ => 0
       end).
Proof.
  unfold ready, targets_of, gate_reads. intros [Hr [Hs Hb]] t s'. unfold gate_apply.
  destruct (gw_bufs w b) as [n|] eqn:En; [|congruence].
  destruct (bn_gates n s) as [[|]|] eqn:Eg; destruct g; cbn [gate_eqb fst];
    try (rewrite !wakes_lwakes; cbn [set_buf gw_lis]; lia).
  cbn [set_buf gw_lis].
  destruct (wake_all_active (bn_targets n) (gw_lis w) s Hr Hs) as [l [E [_ [_ W]]]].
  rewrite E. cbn [fst]. rewrite !wakes_lwakes. cbn [gw_lis]. apply W.
Qed.

(** Closing never wakes anybody, whatever the world looks like. *)
Lemma close_no_wake w b s t s' : wakes (fst (gate_apply w b s Closed)) t s' = wakes w t s'.
Proof.
  unfold gate_apply. destruct (gw_bufs w b) as [n|]; [|reflexivity].
  destruct (gate_eqb _ Closed); reflexivity.
Qed.

(** *** Gate actions through a key *)

Lemma key_actions_closed l : forall gs s m,
  gs s = Some Closed -> Forall (fun g => g = Closed) l ->
  snd (key_gate_actions gs s m l) = m /\ fst (key_gate_actions gs s m l) s = Some Closed.
Proof.
  induction l as [|g l IH]; intros gs s m Hg Hl; cbn [key_gate_actions]; [auto|].
  inversion Hl; subst. cbn [key_gate_action]. rewrite Hg.
  apply IH; [apply emap_set_eq|assumption].
Qed.

Lemma key_actions_other l : forall gs s m s',
  s' <> s -> fst (key_gate_actions gs s m l) s' = gs s'.
Proof.
  induction l as [|g l IH]; intros gs s m s' H; cbn [key_gate_actions]; [reflexivity|].
  destruct (key_gate_action gs s m g) as [gs1 m1] eqn:E. rewrite IH by assumption.
  unfold key_gate_action in E. destruct g; destruct (gs s) as [[|]|]; injection E as <- <-;
    try reflexivity; apply emap_set_neq; assumption.
Qed.

Lemma key_gate_reads w b s acc l b' s' :
  gate_reads (key_gate w b s acc l) b' s'
  = match gw_bufs w b with
    | Some n => if Nat.eqb b' b
                then Some (match fst (key_gate_actions (bn_gates n) s false l) s' with
                           | Some g => g | None => Open end)
                else gate_reads w b' s'
    | None => gate_reads w b' s'
    end.
Proof.
  unfold key_gate. destruct (gw_bufs w b) as [n|] eqn:En; [|reflexivity].
  destruct (key_gate_actions (bn_gates n) s false l) as [gs m]. cbn [fst].
  assert (H : gate_reads (set_buf w b (mk_bufnode (bn_store n) gs (bn_targets n))) b' s'
    = if Nat.eqb b' b then Some (match gs s' with Some g => g | None => Open end)
      else gate_reads w b' s') by apply gate_reads_set.
  destruct m; exact H.
Qed.

Lemma key_close_takes_effect w b s acc :
  gw_bufs w b <> None ->
  (exists n g, gw_bufs w b = Some n /\ bn_gates n s = Some g) ->
  gate_reads (key_gate w b s acc [Closed]) b s = Some Closed.
Proof.
  intros _ [n [g [En Eg]]]. rewrite key_gate_reads, En, Nat.eqb_refl.
  cbn [key_gate_actions key_gate_action]. rewrite Eg. cbn [fst]. rewrite emap_set_eq. reflexivity.
Qed.

(** A gate action by a node makes the entry exist for good. *)
Definition touched w b s : Prop := exists n g, gw_bufs w b = Some n /\ bn_gates n s = Some g.

Lemma touched_key_actions l : forall gs s m s',
  gs s' <> None -> fst (key_gate_actions gs s m l) s' <> None.
Proof.
  induction l as [|g l IH]; intros gs s m s' H; cbn [key_gate_actions]; [exact H|].
  destruct (key_gate_action gs s m g) as [gs1 m1] eqn:E. apply IH.
  unfold key_gate_action in E. destruct g; destruct (gs s) as [[|]|] eqn:Eg; injection E as <- <-;
    try exact H; unfold emap_set; destruct (Nat.eqb s' s); congruence.
Qed.

Lemma touched_alt w b s :
  touched w b s <-> match gw_bufs w b with Some n => bn_gates n s <> None | None => False end.
Proof.
  unfold touched. split.
  - intros [n [g [-> ->]]]. discriminate.
  - destruct (gw_bufs w b) as [n|]; [|contradiction]. destruct (bn_gates n s) as [g|] eqn:E;
      [|congruence]. intros _. exists n, g. auto.
Qed.

Lemma apply_next_bufs w : gw_bufs (apply_next w) = gw_bufs w.
Proof.
  unfold apply_next. destruct (gw_cmds w) as [|c cs]; [reflexivity|].
  unfold notify_apply. cbn [gw_bufs]. destruct (gw_bufs w (nt_buffer c)); [|reflexivity].
  destruct (is_closed _ _); [reflexivity|]. destruct (wake_all _ _ _). reflexivity.
Qed.

Lemma touched_step w o b s : touched w b s -> touched (gstep w o) b s.
Proof.
  rewrite !touched_alt. intros H. destruct o as [b' s' v|b' s' g|b' s' acc l|b' s' acc l|]; cbn [gstep].
  - unfold buffer_execute. destruct (gw_bufs w b') as [n|] eqn:En; [|exact H].
    cbn [bn_gates bn_targets].
    destruct (is_closed _ _); [|destruct (wake_all _ _ _)]; cbn [fst set_buf gw_bufs]; unfold emap_set;
      destruct (Nat.eqb_spec b b') as [->|]; try exact H; cbn [bn_gates]; rewrite En in H; exact H.
  - unfold gate_apply. destruct (gw_bufs w b') as [n|] eqn:En; [|exact H].
    assert (Hk : forall gs, bn_gates n s <> None \/ b <> b' -> (forall k, bn_gates n k <> None -> gs k <> None) ->
      match gw_bufs (set_buf w b' (mk_bufnode (bn_store n) gs (bn_targets n))) b with
      | Some n0 => bn_gates n0 s <> None | None => False end).
    { intros gs Hor Hgs. cbn [set_buf gw_bufs]. unfold emap_set.
      destruct (Nat.eqb_spec b b') as [->|]; cbn [bn_gates]; [|exact H].
      apply Hgs. rewrite En in H. exact H. }
    assert (Hor : bn_gates n s <> None \/ b <> b').
    { destruct (Nat.eq_dec b b') as [->|]; [left; rewrite En in H; exact H|right; assumption]. }
    assert (H1 : forall g0 k, bn_gates n k <> None -> emap_set (bn_gates n) s' (Some g0) k <> None).
    { intros g0 k Hn. unfold emap_set. destruct (Nat.eqb k s'); [discriminate|exact Hn]. }
    assert (H2 : forall g0 g1 k, bn_gates n k <> None ->
       emap_set (emap_set (bn_gates n) s' (Some g0)) s' (Some g1) k <> None).
    { intros g0 g1 k Hn. unfold emap_set. destruct (Nat.eqb k s'); [discriminate|exact Hn]. }
    destruct (gate_eqb _ g); [apply Hk; auto|]. destruct g; [|apply Hk; auto].
    destruct (wake_all _ _ _). cbn [fst gw_bufs]. apply Hk; auto.
  - unfold key_gate. destruct (gw_bufs w b') as [n|] eqn:En; [|exact H].
    pose proof (touched_key_actions l (bn_gates n) s' false s) as Ht.
    destruct (key_gate_actions (bn_gates n) s' false l) as [gs m]. cbn [fst] in Ht.
    assert (Hk : match gw_bufs (set_buf w b' (mk_bufnode (bn_store n) gs (bn_targets n))) b with
      | Some n0 => bn_gates n0 s <> None | None => False end).
    { cbn [set_buf gw_bufs]. unfold emap_set. destruct (Nat.eqb_spec b b') as [->|]; [|exact H].
      cbn [bn_gates]. apply Ht. rewrite En in H. exact H. }
    destruct m; exact Hk.
  - unfold key_edit. destruct (gw_bufs w b') as [n|] eqn:En; [|exact H].
    destruct (do_accesses (bn_store n) s' false l) as [st m].
    assert (Hk : match gw_bufs (set_buf w b' (mk_bufnode st (bn_gates n) (bn_targets n))) b with
      | Some n0 => bn_gates n0 s <> None | None => False end).
    { cbn [set_buf gw_bufs]. unfold emap_set. destruct (Nat.eqb_spec b b') as [->|]; [|exact H].
      cbn [bn_gates]. rewrite En in H. exact H. }
    destruct m; exact Hk.
  - rewrite apply_next_bufs. exact H.
Qed.

Lemma touched_run ops : forall w b s, touched w b s -> touched (grun w ops) b s.
Proof.
  induction ops as [|o ops IH]; intros w b s H; [exact H|].
  cbn. apply IH. apply touched_step. exact H.
Qed.

Lemma key_close_after_action w b s g ops acc :
  gw_bufs w b <> None ->
  gate_reads (key_gate (grun (gstep w (GAction b s g)) ops) b s acc [Closed]) b s = Some Closed.
Proof.
  intros Hb.
  assert (H : touched (grun (gstep w (GAction b s g)) ops) b s).
  { apply touched_run. rewrite touched_alt. cbn [gstep]. unfold gate_apply.
    destruct (gw_bufs w b) as [n|] eqn:En; [|congruence].
    destruct (gate_eqb _ g).
    - cbn [fst set_buf gw_bufs]. rewrite emap_set_eq. cbn [bn_gates]. rewrite emap_set_eq. discriminate.
    - destruct g; [destruct (wake_all _ _ _)|]; cbn [fst set_buf gw_bufs]; rewrite emap_set_eq;
        cbn [bn_gates]; rewrite emap_set_eq; discriminate. }
  destruct H as [n [g' [E1 E2]]]. apply key_close_takes_effect; [congruence|eauto].
Qed.

(** *** Quiet histories *)

Lemma notify_closed w c t s' :
  gate_reads w (nt_buffer c) (nt_session c) = Some Closed ->
  wakes (fst (notify_apply w c)) t s' = wakes w t s'.
Proof.
  unfold gate_reads, notify_apply. destruct (gw_bufs w (nt_buffer c)) as [n|]; [|discriminate].
  intros Hg. rewrite is_closed_reads. injection Hg as ->. reflexivity.
Qed.

Definition cmds_for b s w : Prop :=
  Forall (fun c => nt_buffer c = b /\ nt_session c = s) (gw_cmds w).

Lemma gate_reads_bufs w1 w2 b s : gw_bufs w1 = gw_bufs w2 -> gate_reads w1 b s = gate_reads w2 b s.
Proof. unfold gate_reads. intros ->. reflexivity. Qed.

Lemma quiet_step w o b s :
  gate_reads w b s = Some Closed -> cmds_for b s w -> quiet b s o ->
  gate_reads (gstep w o) b s = Some Closed /\ cmds_for b s (gstep w o) /\
  forall t s', wakes (gstep w o) t s' = wakes w t s'.
Proof.
  intros Hg Hc Hq.
  assert (Hb : gw_bufs w b <> None) by (unfold gate_reads in Hg; destruct (gw_bufs w b); congruence).
  destruct o as [b' s' v|b' s' g|b' s' acc l|b' s' acc l|]; cbn [quiet gstep] in *.
  - destruct Hq as [-> ->]. destruct (gw_bufs w b) as [n|] eqn:En; [|congruence].
    split; [|split].
    + destruct (push_result w b s v n En b s) as [H _]. rewrite H. exact Hg.
    + unfold cmds_for, buffer_execute in *. rewrite En. cbn [bn_gates bn_targets].
      destruct (is_closed _ _); [exact Hc|]. destruct (wake_all _ _ _). exact Hc.
    + intros. apply closed_push. exact Hg.
  - destruct Hq as [-> [-> ->]]. split; [|split].
    + rewrite action_reads by exact Hb. rewrite !Nat.eqb_refl. reflexivity.
    + unfold cmds_for, gate_apply in *. destruct (gw_bufs w b); [|exact Hc].
      destruct (gate_eqb _ _); exact Hc.
    + intros. apply close_no_wake.
  - destruct Hq as [-> [-> Hl]].
    unfold gate_reads in Hg. destruct (gw_bufs w b) as [n|] eqn:En; [|congruence].
    assert (Hgs : bn_gates n s = Some Closed).
    { destruct (bn_gates n s) as [[|]|]; try discriminate. reflexivity. }
    destruct (key_actions_closed l (bn_gates n) s false Hgs Hl) as [K1 K2].
    split; [|split].
    + rewrite key_gate_reads, En, Nat.eqb_refl, K2. reflexivity.
    + unfold cmds_for, key_gate in *. rewrite En.
      destruct (key_gate_actions _ _ _ _) as [gs m]. cbn [snd] in K1. subst m. exact Hc.
    + intros t s'. unfold key_gate. rewrite En.
      destruct (key_gate_actions _ _ _ _) as [gs m]. cbn [snd] in K1. subst m. reflexivity.
  - destruct Hq as [-> ->]. unfold key_edit. destruct (gw_bufs w b) as [n|] eqn:En; [|congruence].
    destruct (do_accesses (bn_store n) s false l) as [st m].
    assert (Hr : gate_reads (set_buf w b (mk_bufnode st (bn_gates n) (bn_targets n))) b s = Some Closed).
    { rewrite gate_reads_set, Nat.eqb_refl. cbn [bn_gates]. unfold gate_reads in Hg. rewrite En in Hg. exact Hg. }
    destruct m; (split; [exact Hr|split; [|reflexivity]]); [|exact Hc].
    unfold cmds_for. cbn [gw_cmds]. apply Forall_app. split; [exact Hc|]. repeat constructor.
  - rewrite (gate_reads_bufs _ w) by apply apply_next_bufs. split; [exact Hg|].
    unfold apply_next, cmds_for in *. destruct (gw_cmds w) as [|c cs] eqn:Ec.
    + rewrite Ec. split; [constructor|reflexivity].
    + inversion Hc as [|? ? [H1 H2] H3]; subst. split.
      * unfold notify_apply. cbn [gw_bufs]. destruct (gw_bufs w (nt_buffer c)); [|exact H3].
        destruct (is_closed _ _); [exact H3|]. destruct (wake_all _ _ _). exact H3.
      * intros t s'. rewrite notify_closed; [reflexivity|exact Hg].
Qed.

Lemma quiet_run ops : forall w b s,
  gate_reads w b s = Some Closed -> cmds_for b s w -> Forall (quiet b s) ops ->
  gate_reads (grun w ops) b s = Some Closed /\
  forall t s', wakes (grun w ops) t s' = wakes w t s'.
Proof.
  induction ops as [|o ops IH]; intros w b s Hg Hc Hq; [auto|].
  inversion Hq as [|? ? Hq1 Hq2]; subst. cbn [grun fold_left].
  destruct (quiet_step w o b s Hg Hc Hq1) as [G [C W]].
  destruct (IH (gstep w o) b s G C Hq2) as [G' W'].
  split; [exact G'|]. intros t s'. unfold grun in W'. rewrite W'. apply W.
Qed.

(** *** Sessions are independent *)

Lemma gate_other_session w o b s' :
  gop_session o <> Some s' -> gate_reads (gstep w o) b s' = gate_reads w b s'.
Proof.
  intros Hs. destruct o as [b0 s v|b0 s g|b0 s acc l|b0 s acc l|]; cbn [gstep gop_session] in *.
  - destruct (gw_bufs w b0) as [n|] eqn:En.
    + destruct (push_result w b0 s v n En b s') as [H _]. exact H.
    + unfold buffer_execute. rewrite En. reflexivity.
  - destruct (gw_bufs w b0) as [n|] eqn:En.
    + rewrite action_reads by congruence.
      destruct (Nat.eqb_spec s' s); [congruence|]. rewrite andb_false_r. reflexivity.
    + unfold gate_apply. rewrite En. reflexivity.
  - rewrite key_gate_reads. destruct (gw_bufs w b0) as [n|] eqn:En; [|reflexivity].
    destruct (Nat.eqb_spec b b0) as [->|]; [|reflexivity].
    rewrite key_actions_other by congruence. unfold gate_reads. rewrite En. reflexivity.
  - unfold key_edit. destruct (gw_bufs w b0) as [n|] eqn:En; [|reflexivity].
    destruct (do_accesses _ _ _ _) as [st m].
    assert (H : gate_reads (set_buf w b0 (mk_bufnode st (bn_gates n) (bn_targets n))) b s'
                = gate_reads w b s').
    { rewrite gate_reads_set. cbn [bn_gates]. destruct (Nat.eqb_spec b b0) as [->|]; [|reflexivity].
      unfold gate_reads. rewrite En. reflexivity. }
    destruct m; exact H.
  - apply gate_reads_bufs, apply_next_bufs.
Qed.

Lemma gate_other_run ops : forall w b s',
  Forall (fun o => gop_session o <> Some s') ops ->
  gate_reads (grun w ops) b s' = gate_reads w b s'.
Proof.
  induction ops as [|o ops IH]; intros w b s' H; [reflexivity|].
  inversion H; subst. cbn [grun fold_left]. fold (grun (gstep w o) ops). rewrite IH by assumption.
  apply gate_other_session. assumption.
Qed.

(** *** Changes through a key *)

Lemma do_accesses_modified l : forall (st : storage V) s m,
  snd (do_accesses st s m l) = m || touches l.
Proof.
  unfold touches.
  induction l as [|a l IH]; intros st s m; cbn [do_accesses existsb]; [rewrite orb_false_r; reflexivity|].
  destruct a; rewrite IH; cbn [orb]; rewrite ?orb_true_r; reflexivity.
Qed.

Lemma key_edit_untouched w b s acc l :
  touches l = false ->
  gw_cmds (key_edit w b s acc l) = gw_cmds w /\
  forall t s', wakes (key_edit w b s acc l) t s' = wakes w t s'.
Proof.
  intros Ht. unfold key_edit. destruct (gw_bufs w b) as [n|]; [|auto].
  pose proof (do_accesses_modified l (bn_store n) s false) as Hm. rewrite Ht in Hm.
  destruct (do_accesses _ _ _ _) as [st m]. cbn [snd] in Hm. subst m. split; reflexivity.
Qed.

Lemma count_filter acc (t : entity) l :
  count_occ Nat.eq_dec
    (filter (fun t => negb (match acc with Some a => Nat.eqb a t | None => false end)) l) t
  = if match acc with Some a => Nat.eqb a t | None => false end
    then 0 else count_occ Nat.eq_dec l t.
Proof.
  induction l as [|x l IH].
  - cbn. destruct acc as [a|]; [destruct (Nat.eqb a t)|]; reflexivity.
  - cbn [filter count_occ].
    destruct acc as [a|].
    + destruct (Nat.eqb_spec a x) as [->|Hax]; cbn [negb count_occ]; rewrite IH.
      * destruct (Nat.eqb_spec x t), (Nat.eq_dec x t); congruence.
      * destruct (Nat.eqb_spec a t), (Nat.eq_dec x t); congruence.
    + cbn [negb count_occ]. destruct (Nat.eq_dec x t); [f_equal|]; exact IH.
Qed.

Lemma key_edit_notifies w b s acc l :
  touches l = true -> gw_cmds w = [] -> ready w b s ->
  gate_reads w b s = Some Open ->
  forall t s', wakes (apply_next (key_edit w b s acc l)) t s'
    = wakes w t s' +
      (if Nat.eqb s' s
       then (if match acc with Some a => Nat.eqb a t | None => false end
             then 0 else count_occ Nat.eq_dec (targets_of w b) t)
       else 0).
Proof.
  intros Ht Hc [Hr [Hs Hb]] Hg t s'. unfold key_edit, targets_of, gate_reads in *.
  destruct (gw_bufs w b) as [n|] eqn:En; [|congruence].
  pose proof (do_accesses_modified l (bn_store n) s false) as Hm. rewrite Ht in Hm.
  destruct (do_accesses _ _ _ _) as [st m]. cbn [snd orb] in Hm. subst m.
  unfold apply_next. cbn [set_buf gw_cmds gw_bufs gw_lis]. rewrite Hc. cbn [app].
  unfold notify_apply. cbn [nt_buffer nt_session nt_accessor gw_bufs gw_lis].
  rewrite emap_set_eq. cbn [bn_gates bn_targets]. rewrite is_closed_reads.
  injection Hg as ->. cbn [gate_eqb].
  destruct (wake_all_active
    (filter (fun t => negb (match acc with Some a => Nat.eqb a t | None => false end)) (bn_targets n))
    (gw_lis w) s) as [l' [E [_ [_ W]]]].
  - intros t' Ht'. apply filter_In in Ht'. apply Hr. apply Ht'.
  - exact Hs.
  - rewrite E. cbn [fst]. rewrite !wakes_lwakes. cbn [gw_lis]. rewrite W.
    destruct (Nat.eqb s' s); [|reflexivity]. f_equal. apply count_filter.
Qed.

Lemma key_edit_closed w b s acc l :
  gw_cmds w = [] -> gate_reads w b s = Some Closed ->
  forall t s', wakes (apply_next (key_edit w b s acc l)) t s' = wakes w t s'.
Proof.
  intros Hc Hg. 
  assert (C0 : cmds_for b s w) by (unfold cmds_for; rewrite Hc; constructor).
  destruct (quiet_run [GKeyEdit b s acc l; GApply] w b s Hg C0) as [_ H].
  - constructor; [split; reflexivity|]. constructor; [exact I|constructor].
  - exact H.
Qed.

Lemma world_buffer_mut_silent w b s acc l :
  gw_cmds (world_buffer_mut w b s acc l) = gw_cmds w /\
  gw_bufs (world_buffer_mut w b s acc l) = gw_bufs (key_edit w b s acc l) /\
  forall t s', wakes (world_buffer_mut w b s acc l) t s' = wakes w t s'.
Proof.
  split; [reflexivity|]. split; [reflexivity|]. intros t s'. unfold world_buffer_mut, key_edit.
  destruct (gw_bufs w b) as [n|]; [|reflexivity].
  destruct (do_accesses _ _ _ _) as [st []]; reflexivity.
Qed.

(** *** The effect of an access *)

Lemma method_ok (st : storage V) s m q :
  queues st s = Some q -> within_limit (policy st) (length q) -> policy st <> KeepFirst 0 ->
  exists q', queues (fst (bstep st (method_op s m))) s = Some q' /\
    rev q' = method_result (policy st) (rev q) m /\
    within_limit (policy st) (length q').
Proof.
  intros Hq Hl Hp.
  assert (Hs : op_session (method_op s m) = s) by (destruct m; reflexivity).
  pose proof (bstep_queue st (method_op s m)) as HQ. rewrite Hs, Hq in HQ.
  assert (Hlim : qok (policy st) (fst (lstep (policy st) (Some q) (method_op s m)))).
  { apply lstep_limit; [congruence|exact Hl]. }
  destruct (partial_drain (method_op s m)) eqn:Ed.
  - destruct m as [| | | | | | | | |lo hi|]; try discriminate. cbn [method_op] in *. cbn [method_result].
    rewrite <- HQ in Hlim.
    destruct ((hi <? lo) || (length q <? hi)) eqn:E.
    + exists q. unfold bstep, drain. rewrite Hq, E. cbn [fst]. split; [exact Hq|]. split; [|exact Hl].
      rewrite rev_length. apply orb_true_iff in E.
      destruct (Nat.leb_spec lo hi), (Nat.leb_spec hi (length q)); cbn [andb]; try reflexivity.
      destruct E as [E|E]; apply Nat.ltb_lt in E; lia.
    + apply orb_false_iff in E. destruct E as [E1 E2]. apply Nat.ltb_ge in E1, E2.
      destruct (drain_exact st s q lo hi Hq E1 E2) as [_ D].
      assert (B : fst (bstep st (ODrain s lo hi)) = fst (drain st s lo hi)).
      { unfold bstep. destruct (drain st s lo hi) as [b' []]; reflexivity. }
      rewrite B in *. unfold iter in D. rewrite Hq in D.
      destruct (queues (fst (drain st s lo hi)) s) as [q'|] eqn:Eq'.
      2:{ exfalso. unfold drain in Eq'. rewrite Hq in Eq'.
          destruct ((hi <? lo) || (length q <? hi)); cbn [fst queues] in Eq'; [congruence|].
          rewrite emap_set_eq in Eq'. discriminate. }
      exists q'. split; [reflexivity|]. split; [|exact Hlim].
      rewrite D. rewrite rev_length.
      destruct (Nat.leb_spec lo hi), (Nat.leb_spec hi (length q)); try lia. reflexivity.
  - assert (Hg : good (policy st) (method_op s m)) by (split; [exact Ed|congruence]).
    pose proof (lstep_refines (policy st) (Some q) (method_op s m) Hg Hl) as R.
    cbn [option_map] in R.
    destruct (fst (lstep (policy st) (Some q) (method_op s m))) as [q'|] eqn:El.
    + exists q'. split; [exact HQ|]. split; [|exact Hlim].
      cbn [option_map] in R. apply (f_equal fst) in R. cbn [fst] in R.
      destruct m; cbn [method_op spec_step method_result] in *; try discriminate;
        repeat match type of R with
        | context [let '(_, _) := ?x in _] => destruct x as [? ?]; cbn [fst] in *
        | context [match ?x with _ => _ end] => destruct x eqn:?; cbn [fst] in *
        end; try congruence;
        try (injection R as R; rewrite <- ?R; try reflexivity; try assumption).
      destruct (rev_case (rev q)) as [->|[l0 [x Ex]]]; [reflexivity|].
      rewrite Ex, last_opt_app in *. discriminate.
    + exfalso. destruct m; cbn [method_op spec_step] in R; try discriminate;
        repeat match type of R with
        | context [let '(_, _) := ?x in _] => destruct x as [? ?]; cbn [fst] in *
        | context [match ?x with _ => _ end] => destruct x; cbn [fst] in *
        end; discriminate.
Qed.

Lemma accesses_ok l : forall (st : storage V) s m q,
  queues st s = Some q -> within_limit (policy st) (length q) -> policy st <> KeepFirst 0 ->
  iter (fst (do_accesses st s m l)) s = access_result (policy st) (rev q) l /\
  (forall s', s' <> s -> iter (fst (do_accesses st s m l)) s' = iter st s').
Proof.
  induction l as [|a l IH]; intros st s m q Hq Hl Hp; cbn [do_accesses access_result].
  - split; [|auto]. cbn [fst]. unfold iter. rewrite Hq. reflexivity.
  - destruct a as [mm| |].
    + destruct (method_ok st s mm q Hq Hl Hp) as [q' [H1 [H2 H3]]].
      destruct (IH (fst (bstep st (method_op s mm))) s true q' H1) as [I1 I2];
        rewrite ?bstep_policy; auto.
      rewrite I1, bstep_policy, H2. split; [reflexivity|].
      intros s' Hs'. rewrite I2 by assumption. unfold iter. rewrite bstep_other; [reflexivity|].
      destruct mm; exact Hs'.
    + apply IH; assumption.
    + apply IH; assumption.
Qed.

Lemma key_edit_effect w b s acc l n q :
  gw_bufs w b = Some n -> queues (bn_store n) s = Some q ->
  within_limit (policy (bn_store n)) (length q) -> policy (bn_store n) <> KeepFirst 0 ->
  forall b' s', buf_contents (key_edit w b s acc l) b' s'
    = (if Nat.eqb b' b && Nat.eqb s' s
       then access_result (policy (bn_store n)) (buf_contents w b s) l
       else buf_contents w b' s') /\
    gate_reads (key_edit w b s acc l) b' s' = gate_reads w b' s'.
Proof.
  intros En Hq Hl Hp b' s'. destruct (accesses_ok l (bn_store n) s false q Hq Hl Hp) as [A1 A2].
  unfold key_edit. rewrite En.
  destruct (do_accesses (bn_store n) s false l) as [st m] eqn:Ed. cbn [fst] in *.
  assert (H : buf_contents (set_buf w b (mk_bufnode st (bn_gates n) (bn_targets n))) b' s'
     = (if Nat.eqb b' b && Nat.eqb s' s
       then access_result (policy (bn_store n)) (buf_contents w b s) l
       else buf_contents w b' s') /\
     gate_reads (set_buf w b (mk_bufnode st (bn_gates n) (bn_targets n))) b' s' = gate_reads w b' s').
  { rewrite gate_reads_set. unfold buf_contents, gate_reads. cbn [set_buf gw_bufs bn_gates]. unfold emap_set.
    destruct (Nat.eqb_spec b' b) as [->|]; cbn [andb]; [|auto]. rewrite En. cbn [bn_store].
    destruct (Nat.eqb_spec s' s) as [->|]; split; try reflexivity.
    - rewrite A1. unfold iter. rewrite Hq. reflexivity.
    - apply A2. assumption. }
  destruct m; exact H.
Qed.

(** *** Opening through a key *)

Lemma key_open w b s acc :
  gw_cmds w = [] -> ready w b s ->
  gate_reads w b s = Some Closed ->
  let w' := apply_next (key_gate w b s acc [Open]) in
  gate_reads w' b s = Some Open /\
  forall t s', wakes w' t s'
    = wakes w t s' +
      (if Nat.eqb s' s
       then (if match acc with Some a => Nat.eqb a t | None => false end
             then 0 else count_occ Nat.eq_dec (targets_of w b) t)
       else 0).
Proof.
  intros Hc [Hr [Hs Hb]] Hg. cbn zeta.
  rewrite (gate_reads_bufs _ _ b s (apply_next_bufs _)). rewrite key_gate_reads.
  unfold gate_reads, targets_of in *.
  destruct (gw_bufs w b) as [n|] eqn:En; [|congruence].
  assert (Hgs : bn_gates n s = Some Closed).
  { destruct (bn_gates n s) as [[|]|]; try discriminate. reflexivity. }
  rewrite Nat.eqb_refl. unfold key_gate. rewrite En.
  cbn [key_gate_actions key_gate_action]. rewrite Hgs. cbn [fst]. rewrite emap_set_eq.
  split; [reflexivity|]. intros t s'.
  assert (G : forall w0, gw_bufs w0 b = Some (mk_bufnode (bn_store n) (emap_set (bn_gates n) s (Some Open)) (bn_targets n)) ->
    gw_lis w0 = gw_lis w ->
    wakes (fst (notify_apply w0 (mk_notify b s acc))) t s' = wakes w t s' +
      (if Nat.eqb s' s
       then (if match acc with Some a => Nat.eqb a t | None => false end
             then 0 else count_occ Nat.eq_dec (bn_targets n) t)
       else 0)).
  { intros w0 E0 El0. unfold notify_apply. cbn [nt_buffer nt_session nt_accessor].
    rewrite E0. cbn [bn_gates bn_targets]. unfold is_closed. rewrite emap_set_eq.
    destruct (wake_all_active
      (filter (fun t => negb (match acc with Some a => Nat.eqb a t | None => false end)) (bn_targets n))
      (gw_lis w0) s) as [l' [E [_ [_ W]]]].
    - intros t' Ht'. apply filter_In in Ht'. rewrite El0. apply Hr. apply Ht'.
    - rewrite El0. exact Hs.
    - rewrite E. cbn [fst]. rewrite !wakes_lwakes. cbn [gw_lis]. rewrite W, El0.
      destruct (Nat.eqb s' s); [|reflexivity]. f_equal. apply count_filter. }
  unfold apply_next. cbn [set_buf gw_cmds]. rewrite Hc. cbn [app].
  apply G; [|reflexivity]. cbn [gw_bufs set_buf]. apply emap_set_eq.
Qed.

End GateProofs.
