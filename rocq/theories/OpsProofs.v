(** Lemmas about the operations of OpsModel. *)
From Verif Require Import Base RosterModel BufferModel InputModel InputSpec InputProofs OpsModel OpsSpec.

(** [o'] is [o] after sending [l] in session [s]. *)
Definition sends (o o' : oworld) (s : entity) (l : list (entity * val)) : Prop :=
  (forall m, receives (o_w o) m -> receives (o_w o') m /\
     pending (o_w o') m = pending (o_w o) m ++ map (pair s) (sent_to m l)) /\
  (forall m, accepts (o_w o) m -> accepts (o_w o') m) /\
  (forall m, (w_nodes (o_w o') m = None <-> w_nodes (o_w o) m = None)) /\
  o' = with_w o (mk_world (w_nodes (o_w o')) (w_status (o_w o))
         (mk_roster (r_queue (w_roster (o_w o)) ++ map fst l) (r_awake (w_roster (o_w o)))
            (r_deferred (w_roster (o_w o))) (r_cancel (w_roster (o_w o)))
            (r_unblock (w_roster (o_w o))) (r_disposed (w_roster (o_w o)))
            (r_cleanup (w_roster (o_w o))) (r_despawn (w_roster (o_w o))))).

Lemma with_w_id o : with_w o (o_w o) = o.
Proof. destruct o; reflexivity. Qed.
Lemma world_id {V} (w : world V) : mk_world (w_nodes w) (w_status w) (w_roster w) = w.
Proof. destruct w; reflexivity. Qed.

Lemma sends_nil o s : sends o o s [].
Proof.
  split; [intros m H; split; [exact H|cbn; rewrite app_nil_r; reflexivity]|].
  split; [auto|]. split; [tauto|].
  cbn [map]. rewrite app_nil_r. destruct o as [[ns st [q a d c u ds cl de]] ? ? ? ? ? ? ?]. reflexivity.
Qed.

Lemma sent_to_app m l1 l2 : sent_to m (l1 ++ l2) = sent_to m l1 ++ sent_to m l2.
Proof. unfold sent_to. rewrite filter_app, map_app. reflexivity. Qed.

Lemma sends_trans o1 o2 o3 s l1 l2 :
  sends o1 o2 s l1 -> sends o2 o3 s l2 -> sends o1 o3 s (l1 ++ l2).
Proof.
  intros (H1 & A1 & N1 & E1) (H2 & A2 & N2 & E2). split; [|split; [auto|split]].
  - intros m Hm. destruct (H1 m Hm) as [R1 P1]. destruct (H2 m R1) as [R2 P2].
    split; [exact R2|]. rewrite P2, P1, sent_to_app, map_app, app_assoc. reflexivity.
  - intros m. rewrite N2. apply N1.
  - rewrite E2. rewrite E1. cbn. rewrite map_app, app_assoc. reflexivity.
Qed.

Lemma sends_status o o' s l : sends o o' s l -> w_status (o_w o') = w_status (o_w o).
Proof. intros (_ & _ & _ & ->). reflexivity. Qed.

Lemma pending_node {V} (w : world V) n :
  pending w n = match w_nodes w n with
                | Some nd => match n_inputs nd with Some q => rev q | None => [] end
                | None => [] end.
Proof. reflexivity. Qed.

Lemma o_give_ok o t s v :
  w_status (o_w o) s = Some Active -> accepts (o_w o) t ->
  exists o', o_give o t s v = (o', true) /\ sends o o' s [(t, v)].
Proof.
  intros Hs Ha. unfold o_give, give_input, sneak_input. rewrite Hs. cbn [andb negb].
  destruct Ha as [[nd [q [En Eq]]]|[nd [En [Eq Eu]]]]; rewrite En, Eq.
  - eexists. split; [reflexivity|]. split; [|split; [|split]]; cbn -[emap_set].
    + intros m Hm. split.
      * destruct Hm as [nd' [q' [Hm1 Hm2]]]. destruct (Nat.eq_dec m t) as [->|Hne].
        -- eexists _, _. cbn -[emap_set]. rewrite emap_set_eq. split; reflexivity.
        -- exists nd', q'. cbn -[emap_set]. rewrite emap_set_neq by assumption. auto.
      * rewrite !pending_node. cbn -[emap_set]. unfold sent_to. cbn [filter fst snd map].
        destruct (Nat.eqb_spec t m) as [->|Hne].
        -- rewrite emap_set_eq, En, Eq. reflexivity.
        -- rewrite emap_set_neq by auto. cbn. rewrite app_nil_r. reflexivity.
    + intros m [[nd' [q' [Hm1 Hm2]]]|[nd' [Hm1 [Hm2 Hm3]]]]; destruct (Nat.eq_dec m t) as [->|Hne].
      * left. eexists _, _. cbn -[emap_set]. rewrite emap_set_eq. split; reflexivity.
      * left. exists nd', q'. cbn -[emap_set]. rewrite emap_set_neq by assumption. auto.
      * congruence.
      * right. exists nd'. cbn -[emap_set]. rewrite emap_set_neq by assumption. auto.
    + intros m. destruct (Nat.eq_dec m t) as [->|Hne].
      * rewrite emap_set_eq, En. split; discriminate.
      * rewrite emap_set_neq by assumption. tauto.
    + destruct (w_roster (o_w o)); reflexivity.
  - rewrite Eu. eexists. split; [reflexivity|]. split; [|split; [|split]]; cbn.
    + intros m Hm. split; [exact Hm|]. rewrite !pending_node. cbn. unfold sent_to. cbn [filter fst].
      destruct (Nat.eqb_spec t m) as [->|Hne].
      * destruct Hm as [nd' [q' [Hm1 Hm2]]]. congruence.
      * cbn. rewrite app_nil_r. reflexivity.
    + intros m Hm. exact Hm.
    + tauto.
    + destruct (w_roster (o_w o)); reflexivity.
Qed.

Lemma o_give_all_ok l : forall o s,
  w_status (o_w o) s = Some Active -> Forall (fun p => accepts (o_w o) (fst p)) l ->
  exists o', o_give_all o s l = (o', true) /\ sends o o' s l.
Proof.
  induction l as [|[t v] l IH]; intros o s Hs Hl.
  - exists o. split; [reflexivity|apply sends_nil].
  - inversion Hl as [|p l' Ht Hl']; subst. cbn [fst] in Ht. cbn [o_give_all].
    destruct (o_give_ok o t s v Hs Ht) as [o1 [E1 S1]]. rewrite E1.
    destruct (IH o1 s) as [o2 [E2 S2]].
    + rewrite (sends_status _ _ _ _ S1). exact Hs.
    + destruct S1 as (_ & A1 & _). rewrite Forall_forall in *. auto.
    + exists o2. split; [exact E2|]. exact (sends_trans _ _ _ _ [(t, v)] l S1 S2).
Qed.

(** Taking the first message. *)
Definition takes (o o' : oworld) (n : entity) : Prop :=
  (forall m, receives (o_w o') m <-> receives (o_w o) m) /\
  (forall m, accepts (o_w o') m <-> accepts (o_w o) m) /\
  (forall m, pending (o_w o') m = after_take (o_w o) n m) /\
  (forall m, (w_nodes (o_w o') m = None <-> w_nodes (o_w o) m = None)) /\
  (forall m nd, w_nodes (o_w o) m = Some nd -> exists nd', w_nodes (o_w o') m = Some nd' /\ n_unused nd' = n_unused nd) /\
  o' = with_w o (mk_world (w_nodes (o_w o')) (w_status (o_w o)) (w_roster (o_w o))).

Lemma o_take_ok o n s v rest :
  pending (o_w o) n = (s, v) :: rest ->
  exists o', o_take o n = (o', Took (s, v)) /\ takes o o' n.
Proof.
  intros Hp. rewrite pending_node in Hp.
  destruct (w_nodes (o_w o) n) as [nd|] eqn:En; [|discriminate].
  destruct (n_inputs nd) as [q|] eqn:Eq; [|discriminate].
  assert (Hq : q = rev rest ++ [(s, v)]).
  { apply (f_equal (@rev _)) in Hp. rewrite rev_involutive in Hp. exact Hp. }
  unfold o_take, take_input. rewrite En, Eq, Hq, pop_last_app.
  eexists. split; [reflexivity|]. unfold takes. cbn -[emap_set].
  assert (HR : forall m, receives (mk_world (emap_set (w_nodes (o_w o)) n
        (Some (mk_node (Some (rev rest)) (n_unused nd) (n_detached nd) (n_buffer nd))))
        (w_status (o_w o)) (w_roster (o_w o))) m <-> receives (o_w o) m).
  { intros m. unfold receives. cbn -[emap_set]. destruct (Nat.eq_dec m n) as [->|Hne].
    - rewrite emap_set_eq. split; intros _; eexists _, _; (split; [eassumption || reflexivity|eassumption || reflexivity]).
    - rewrite emap_set_neq by assumption. tauto. }
  split; [exact HR|]. split; [|split; [|split; [|split]]].
  - intros m. unfold accepts. rewrite HR. cbn -[emap_set]. destruct (Nat.eq_dec m n) as [->|Hne].
    + split; intros _; left; exists nd, q; auto.
    + rewrite emap_set_neq by assumption. tauto.
  - intros m. unfold after_take. rewrite !pending_node. cbn -[emap_set].
    destruct (Nat.eqb_spec m n) as [->|Hne].
    + rewrite emap_set_eq, En, Eq, Hq. cbn [n_inputs]. rewrite rev_app_distr, rev_involutive. reflexivity.
    + rewrite emap_set_neq by assumption. reflexivity.
  - intros m. destruct (Nat.eq_dec m n) as [->|Hne].
    + rewrite emap_set_eq, En. split; discriminate.
    + rewrite emap_set_neq by assumption. tauto.
  - intros m nd' Hm. destruct (Nat.eq_dec m n) as [->|Hne].
    + rewrite emap_set_eq. eexists. split; [reflexivity|]. cbn. congruence.
    + rewrite emap_set_neq by assumption. eauto.
  - reflexivity.
Qed.

Lemma takes_status o o' n : takes o o' n -> w_status (o_w o') = w_status (o_w o).
Proof. intros (_ & _ & _ & _ & _ & ->). reflexivity. Qed.

(** Taking and then sending. *)
Definition passes (o o' : oworld) (n s : entity) (l : list (entity * val)) : Prop :=
  (forall m, receives (o_w o) m -> receives (o_w o') m /\
     pending (o_w o') m = after_take (o_w o) n m ++ map (pair s) (sent_to m l)) /\
  (forall m, accepts (o_w o) m -> accepts (o_w o') m) /\
  (forall m, (w_nodes (o_w o') m = None <-> w_nodes (o_w o) m = None)) /\
  o' = with_w o (mk_world (w_nodes (o_w o')) (w_status (o_w o))
         (mk_roster (r_queue (w_roster (o_w o)) ++ map fst l) (r_awake (w_roster (o_w o)))
            (r_deferred (w_roster (o_w o))) (r_cancel (w_roster (o_w o)))
            (r_unblock (w_roster (o_w o))) (r_disposed (w_roster (o_w o)))
            (r_cleanup (w_roster (o_w o))) (r_despawn (w_roster (o_w o))))).

Lemma takes_sends o o1 o2 n s l : takes o o1 n -> sends o1 o2 s l -> passes o o2 n s l.
Proof.
  intros (R & A & P & N & _ & E) (R' & A' & N' & E'). split; [|split; [|split]].
  - intros m Hm. apply R in Hm. destruct (R' m Hm) as [H1 H2]. split; [exact H1|].
    rewrite H2, P. reflexivity.
  - intros m Hm. apply A', A, Hm.
  - intros m. rewrite N'. apply N.
  - rewrite E'. rewrite E. reflexivity.
Qed.

Lemma Forall_takes o o1 n (l : list entity) :
  takes o o1 n -> Forall (accepts (o_w o)) l -> Forall (accepts (o_w o1)) l.
Proof. intros (_ & A & _) H. rewrite Forall_forall in *. intros m Hm. apply A, H, Hm. Qed.

Lemma sends_accepts o o1 s l (ts : list entity) :
  sends o o1 s l -> Forall (accepts (o_w o)) ts -> Forall (accepts (o_w o1)) ts.
Proof. intros (_ & A & _) H. rewrite Forall_forall in *. intros m Hm. apply A, H, Hm. Qed.

Lemma removelast_last (l : list entity) : l <> [] -> exists x, last_opt l = Some x /\ l = removelast l ++ [x].
Proof.
  intros H. destruct (rev_case l) as [->|[l' [x ->]]]; [congruence|].
  exists x. rewrite last_opt_app, removelast_last. auto.
Qed.

Lemma sent_to_same m (ts : list entity) v :
  sent_to m (map (fun t => (t, v)) ts) = repeat v (count_occ Nat.eq_dec ts m).
Proof.
  induction ts as [|t ts IH]; [reflexivity|]. cbn [map count_occ]. unfold sent_to in *. cbn [filter fst].
  destruct (Nat.eqb_spec t m) as [e|Hne]; destruct (Nat.eq_dec t m); try congruence.
  cbn [repeat map snd]. rewrite IH. reflexivity.
Qed.

Lemma fork_clone_passes ts n o s v rest :
  pending (o_w o) n = (s, v) :: rest -> w_status (o_w o) s = Some Active ->
  ts <> [] -> Forall (accepts (o_w o)) ts ->
  snd (fork_clone_execute ts n o) = OpOk /\
  passes o (fst (fork_clone_execute ts n o)) n s (map (fun t => (t, v)) ts).
Proof.
  intros Hp Hs Hts Ha. unfold fork_clone_execute, with_input.
  destruct (o_take_ok o n s v rest Hp) as [o1 [E1 T1]]. rewrite E1.
  pose proof (Forall_takes _ _ _ _ T1 Ha) as Ha1.
  assert (Hs1 : w_status (o_w o1) s = Some Active) by (rewrite (takes_status _ _ _ T1); exact Hs).
  destruct (removelast_last ts Hts) as [x [El Er]].
  destruct ts as [|t0 ts0]; [congruence|]. remember (t0 :: ts0) as ts.
  assert (Hfr : Forall (fun p => accepts (o_w o1) (fst p)) (map (fun t => (t, v)) (removelast ts))).
  { rewrite Forall_map. cbn [fst]. rewrite Er in Ha1. apply Forall_app in Ha1. apply Ha1. }
  destruct (o_give_all_ok _ o1 s Hs1 Hfr) as [o2 [E2 S2]]. rewrite E2, El.
  destruct (o_give_ok o2 x s v) as [o3 [E3 S3]].
  { rewrite (sends_status _ _ _ _ S2). exact Hs1. }
  { destruct S2 as (_ & A2 & _). apply A2. rewrite Er in Ha1. apply Forall_app in Ha1.
    destruct Ha1 as [_ Ha1]. inversion Ha1; assumption. }
  rewrite E3. unfold res. cbn [fst snd]. split; [reflexivity|].
  apply (takes_sends _ _ _ _ _ _ T1). rewrite Er, map_app. cbn [map]. exact (sends_trans _ _ _ _ _ _ S2 S3).
Qed.

Lemma after_take_alt w n m s (v : val) rest :
  pending w n = (s, v) :: rest ->
  after_take w n m = if Nat.eqb m n then rest else pending w m.
Proof.
  intros H. unfold after_take. destruct (Nat.eqb_spec m n) as [->|]; [rewrite H; reflexivity|reflexivity].
Qed.

Lemma map_pair_repeat (s : entity) (v : val) k : map (pair s) (repeat v k) = repeat (s, v) k.
Proof. induction k as [|k IH]; [reflexivity|]. cbn. rewrite IH. reflexivity. Qed.

Lemma fork_clone_ok ts n o s v rest :
  pending (o_w o) n = (s, v) :: rest -> w_status (o_w o) s = Some Active ->
  ts <> [] -> Forall (accepts (o_w o)) ts ->
  let o' := fst (fork_clone_execute ts n o) in
  snd (fork_clone_execute ts n o) = OpOk /\
  (forall m, receives (o_w o) m ->
     pending (o_w o') m
     = (if Nat.eqb m n then rest else pending (o_w o) m) ++ repeat (s, v) (count_occ Nat.eq_dec ts m)) /\
  queued o' = queued o ++ ts /\ notices o' = notices o /\ o_disp o' = o_disp o.
Proof.
  intros Hp Hs Hts Ha o'. destruct (fork_clone_passes ts n o s v rest Hp Hs Hts Ha) as [H1 (R & _ & _ & E)].
  split; [exact H1|]. split.
  - intros m Hm. destruct (R m Hm) as [_ H]. unfold o'. rewrite H.
    rewrite (after_take_alt _ _ _ _ _ _ Hp), sent_to_same, map_pair_repeat. reflexivity.
  - unfold o'. rewrite E. unfold queued, notices. cbn. rewrite map_map. cbn. rewrite map_id. auto.
Qed.

Lemma unzip_dist_ok l : forall o s,
  w_status (o_w o) s = Some Active -> Forall (fun p => accepts (o_w o) (fst p)) l ->
  unzip_distribute o s l = o_give_all o s l.
Proof.
  induction l as [|[t v] l IH]; intros o s Hs Hl; [reflexivity|].
  inversion Hl as [|p l' Ht Hl']; subst. cbn [fst] in Ht. cbn [unzip_distribute o_give_all].
  assert (Hn : w_nodes (o_w o) t <> None).
  { destruct Ht as [[nd [q [En _]]]|[nd [En _]]]; congruence. }
  destruct (w_nodes (o_w o) t) as [nd|]; [|congruence].
  destruct (o_give_ok o t s v Hs Ht) as [o1 [E1 S1]]. rewrite E1.
  apply IH.
  - rewrite (sends_status _ _ _ _ S1). exact Hs.
  - destruct S1 as (_ & A1 & _). rewrite Forall_forall in *. auto.
Qed.

Lemma combine_fst_accepts w (ts : list entity) (vs : list val) :
  Forall (accepts w) ts -> Forall (fun p => accepts w (fst p)) (combine ts vs).
Proof.
  intros H. rewrite Forall_forall in *. intros [t v] Hin. apply H. eapply in_combine_l; eassumption.
Qed.

Lemma unzip_ok ts n o s vs rest :
  pending (o_w o) n = (s, VTuple vs) :: rest -> w_status (o_w o) s = Some Active ->
  length vs <= length ts -> Forall (accepts (o_w o)) ts ->
  let o' := fst (unzip_execute ts n o) in
  snd (unzip_execute ts n o) = OpOk /\
  (forall m, receives (o_w o) m ->
     pending (o_w o') m
     = (if Nat.eqb m n then rest else pending (o_w o) m)
       ++ map (fun v => (s, v)) (sent_to m (combine ts vs))) /\
  queued o' = queued o ++ firstn (length vs) ts /\ notices o' = notices o /\ o_disp o' = o_disp o.
Proof.
  intros Hp Hs Hlen Ha o'.
  destruct (o_take_ok o n s _ rest Hp) as [o1 [E1 T1]].
  assert (Hs1 : w_status (o_w o1) s = Some Active) by (rewrite (takes_status _ _ _ T1); exact Hs).
  pose proof (combine_fst_accepts _ _ vs (Forall_takes _ _ _ _ T1 Ha)) as Ha1.
  destruct (o_give_all_ok _ o1 s Hs1 Ha1) as [o2 [E2 S2]].
  assert (HE : unzip_execute ts n o = (o2, OpOk)).
  { unfold unzip_execute, with_input. rewrite E1. destruct (Nat.ltb_spec (length ts) (length vs)); [lia|].
    rewrite (unzip_dist_ok _ _ _ Hs1 Ha1), E2. reflexivity. }
  unfold o'. rewrite HE. cbn [fst snd]. split; [reflexivity|].
  destruct (takes_sends _ _ _ _ _ _ T1 S2) as (R & _ & _ & E). split.
  - intros m Hm. destruct (R m Hm) as [_ ->]. rewrite (after_take_alt _ _ _ _ _ _ Hp). reflexivity.
  - rewrite E. unfold queued, notices. cbn. split; [|auto]. f_equal.
    clear -Hlen. revert vs Hlen. induction ts as [|t ts IH]; intros [|v vs] Hlen; cbn in *; try reflexivity.
    rewrite IH by lia. reflexivity.
Qed.

(** A disposal at a node of a scope. *)
Lemma emit_ok o n s d sc :
  w_nodes (o_w o) n <> None -> o_scope o n = Some sc ->
  o_disp (emit_disposal o n s d) = set2 (o_disp o) n s (o_disp o n s ++ [d]) /\
  o_w (emit_disposal o n s d)
  = mk_world (w_nodes (o_w o)) (w_status (o_w o)) (ro_disposed (w_roster (o_w o)) (mk_disposal sc n s)) /\
  o_scope (emit_disposal o n s d) = o_scope o /\ o_coll (emit_disposal o n s d) = o_coll o /\
  o_split (emit_disposal o n s d) = o_split o /\ o_bufs (emit_disposal o n s d) = o_bufs o /\
  o_unhandled (emit_disposal o n s d) = o_unhandled o /\ o_series (emit_disposal o n s d) = o_series o.
Proof.
  intros Hn Hsc. unfold emit_disposal. destruct (w_nodes (o_w o) n) as [nd|]; [|congruence].
  rewrite Hsc. cbn. repeat split; reflexivity.
Qed.

Lemma set2_eq {B} (m : entity -> entity -> B) n s b : set2 m n s b n s = b.
Proof. unfold set2. rewrite !Nat.eqb_refl. reflexivity. Qed.
Lemma set2_neq {B} (m : entity -> entity -> B) n s b n' s' : ~ (n' = n /\ s' = s) -> set2 m n s b n' s' = m n' s'.
Proof.
  unfold set2. intros H. destruct (Nat.eqb_spec n' n), (Nat.eqb_spec s' s); cbn; try reflexivity.
  exfalso; auto.
Qed.

Lemma pending_nonnil_receives {V} (w : world V) n x rest : pending w n = x :: rest -> receives w n.
Proof.
  rewrite pending_node. destruct (w_nodes w n) as [nd|] eqn:En; [|discriminate].
  destruct (n_inputs nd) as [q|] eqn:Eq; [|discriminate]. intros _. exists nd, q. auto.
Qed.

Lemma receives_node {V} (w : world V) n : receives w n -> w_nodes w n <> None.
Proof. intros [nd [q [H _]]]. congruence. Qed.

Lemma accepts_node w n : accepts w n -> w_nodes w n <> None.
Proof. intros [H|[nd [H _]]]; [exact (receives_node _ _ H)|congruence]. Qed.

Lemma branching_first act n o s v ta tb x rest sc :
  pending (o_w o) n = (s, v) :: rest -> w_status (o_w o) s = Some Active ->
  accepts (o_w o) ta -> accepts (o_w o) tb -> o_scope o n = Some sc ->
  act v = Some (Some x, None) ->
  let o' := fst (branching_execute act [ta; tb] n o) in
  snd (branching_execute act [ta; tb] n o) = OpOk /\
  (forall m, receives (o_w o) m ->
     pending (o_w o') m
     = (if Nat.eqb m n then rest else pending (o_w o) m) ++ (if Nat.eqb m ta then [(s, x)] else [])) /\
  queued o' = queued o ++ [ta] /\ notices o' = notices o ++ [mk_disposal sc n s] /\
  (forall n' s', o_disp o' n' s'
     = o_disp o n' s' ++ if Nat.eqb n' n && Nat.eqb s' s then [DBranching n tb] else []).
Proof.
  intros Hp Hs Ha Hb Hsc Hact o'.
  destruct (o_take_ok o n s _ rest Hp) as [o1 [E1 T1]].
  assert (Hs1 : w_status (o_w o1) s = Some Active) by (rewrite (takes_status _ _ _ T1); exact Hs).
  assert (Ha1 : accepts (o_w o1) ta) by (destruct T1 as (_ & A & _); apply A, Ha).
  assert (Hb1 : accepts (o_w o1) tb) by (destruct T1 as (_ & A & _); apply A, Hb).
  destruct (o_give_ok o1 ta s x Hs1 Ha1) as [o2 [E2 S2]].
  assert (Hn2 : w_nodes (o_w o2) n <> None).
  { destruct (takes_sends _ _ _ _ _ _ T1 S2) as (_ & _ & N & _). rewrite N.
    apply receives_node. eapply pending_nonnil_receives; eassumption. }
  assert (Hb2 : w_nodes (o_w o2) tb <> None).
  { apply accepts_node. destruct S2 as (_ & A & _). apply A, Hb1. }
  pose proof (takes_sends _ _ _ _ _ _ T1 S2) as (R & _ & _ & E).
  assert (Hsc2 : o_scope o2 n = Some sc) by (rewrite E; exact Hsc).
  assert (HE : branching_execute act [ta; tb] n o = (emit_disposal o2 n s (DBranching n tb), OpOk)).
  { unfold branching_execute, with_input. rewrite E1, Hact. cbn [nth_error].
    unfold branch_to. pose proof (accepts_node _ _ Ha1) as Hn.
    destruct (w_nodes (o_w o1) ta); [|congruence]. rewrite E2. unfold res.
    destruct (w_nodes (o_w o2) tb); [|congruence]. reflexivity. }
  unfold o'. rewrite HE. cbn [fst snd].
  destruct (emit_ok o2 n s (DBranching n tb) sc Hn2 Hsc2) as (D & W & _).
  split; [reflexivity|]. split; [|split; [|split]].
  - intros m Hm. rewrite W. rewrite (pending_roster _ _ _ (w_status (o_w o2)) (w_roster (o_w o2))), world_id.
    destruct (R m Hm) as [_ ->]. rewrite (after_take_alt _ _ _ _ _ _ Hp). unfold sent_to. cbn.
    rewrite (Nat.eqb_sym ta m). destruct (Nat.eqb m ta); reflexivity.
  - unfold queued. rewrite W. cbn. rewrite E. reflexivity.
  - unfold notices. rewrite W. cbn. rewrite E. reflexivity.
  - intros n' s'. rewrite D. assert (Hd : o_disp o2 = o_disp o) by (rewrite E; reflexivity). rewrite Hd.
    unfold set2. destruct (Nat.eqb_spec n' n), (Nat.eqb_spec s' s); cbn; subst; rewrite ?app_nil_r; reflexivity.
Qed.

Lemma branching_second act n o s v ta tb x rest sc :
  pending (o_w o) n = (s, v) :: rest -> w_status (o_w o) s = Some Active ->
  accepts (o_w o) ta -> accepts (o_w o) tb -> o_scope o n = Some sc ->
  act v = Some (None, Some x) ->
  let o' := fst (branching_execute act [ta; tb] n o) in
  snd (branching_execute act [ta; tb] n o) = OpOk /\
  (forall m, receives (o_w o) m ->
     pending (o_w o') m
     = (if Nat.eqb m n then rest else pending (o_w o) m) ++ (if Nat.eqb m tb then [(s, x)] else [])) /\
  queued o' = queued o ++ [tb] /\ notices o' = notices o ++ [mk_disposal sc n s] /\
  (forall n' s', o_disp o' n' s'
     = o_disp o n' s' ++ if Nat.eqb n' n && Nat.eqb s' s then [DBranching n ta] else []).
Proof.
  intros Hp Hs Ha Hb Hsc Hact o'.
  destruct (o_take_ok o n s _ rest Hp) as [o1 [E1 T1]].
  pose proof T1 as (TR & TA & TP & TN & _ & TE).
  assert (Hs1 : w_status (o_w o1) s = Some Active) by (rewrite (takes_status _ _ _ T1); exact Hs).
  assert (Hn1 : w_nodes (o_w o1) n <> None).
  { rewrite TN. apply receives_node. eapply pending_nonnil_receives; eassumption. }
  assert (Hsc1 : o_scope o1 n = Some sc) by (rewrite TE; exact Hsc).
  destruct (emit_ok o1 n s (DBranching n ta) sc Hn1 Hsc1) as (D & W & HS & _).
  set (o2 := emit_disposal o1 n s (DBranching n ta)) in *.
  assert (Hs2 : w_status (o_w o2) s = Some Active) by (rewrite W; exact Hs1).
  assert (Hb2 : accepts (o_w o2) tb).
  { rewrite W. apply TA in Hb. destruct Hb as [Hb|Hb]; [left|right]; exact Hb. }
  destruct (o_give_ok o2 tb s x Hs2 Hb2) as [o3 [E3 S3]].
  assert (HE : branching_execute act [ta; tb] n o = (o3, OpOk)).
  { unfold branching_execute, with_input. rewrite E1, Hact. cbn [nth_error].
    unfold branch_to. apply TA in Ha. pose proof (accepts_node _ _ Ha) as Hn.
    destruct (w_nodes (o_w o1) ta); [|congruence]. fold o2.
    pose proof (accepts_node _ _ Hb2) as Hn2. destruct (w_nodes (o_w o2) tb); [|congruence].
    rewrite E3. reflexivity. }
  unfold o'. rewrite HE. cbn [fst snd]. destruct S3 as (R3 & _ & _ & E3').
  split; [reflexivity|]. split; [|split; [|split]].
  - intros m Hm. destruct (R3 m) as [_ ->]. { rewrite W. apply TR in Hm. exact Hm. }
    rewrite W. rewrite (pending_roster _ _ _ (w_status (o_w o1)) (w_roster (o_w o1))), world_id, TP.
    rewrite (after_take_alt _ _ _ _ _ _ Hp). unfold sent_to. cbn.
    rewrite (Nat.eqb_sym tb m). destruct (Nat.eqb m tb); reflexivity.
  - unfold queued. rewrite E3'. cbn. rewrite W. cbn. rewrite TE. reflexivity.
  - unfold notices. rewrite E3'. cbn. rewrite W. cbn. rewrite TE. reflexivity.
  - intros n' s'. assert (Hd : o_disp o3 = o_disp o2) by (rewrite E3'; reflexivity). rewrite Hd, D.
    assert (Hd1 : o_disp o1 = o_disp o) by (rewrite TE; reflexivity). rewrite Hd1.
    unfold set2. destruct (Nat.eqb_spec n' n), (Nat.eqb_spec s' s); cbn; subst; rewrite ?app_nil_r; reflexivity.
Qed.

Lemma sent_to_const m t (l : list val) :
  sent_to m (map (fun x => (t, x)) l) = if Nat.eqb m t then l else [].
Proof.
  unfold sent_to. rewrite (Nat.eqb_sym m t). induction l as [|x l IH]; cbn.
  - destruct (Nat.eqb t m); reflexivity.
  - destruct (Nat.eqb t m); cbn in *; rewrite IH; reflexivity.
Qed.

Lemma spread_ok t n o s l rest sc :
  pending (o_w o) n = (s, VList l) :: rest -> w_status (o_w o) s = Some Active ->
  accepts (o_w o) t -> o_scope o n = Some sc ->
  let o' := fst (spread_execute t n o) in
  snd (spread_execute t n o) = OpOk /\
  (forall m, receives (o_w o) m ->
     pending (o_w o') m
     = (if Nat.eqb m n then rest else pending (o_w o) m)
       ++ (if Nat.eqb m t then map (fun v => (s, v)) l else [])) /\
  queued o' = queued o ++ repeat t (length l) /\
  notices o' = notices o ++ (match l with [] => [mk_disposal sc n s] | _ => [] end) /\
  (forall n' s', o_disp o' n' s'
     = o_disp o n' s' ++
       match l with
       | [] => if Nat.eqb n' n && Nat.eqb s' s then [DEmptySpread n] else []
       | _ => []
       end).
Proof.
  intros Hp Hs Ha Hsc o'.
  destruct (o_take_ok o n s _ rest Hp) as [o1 [E1 T1]].
  assert (Hs1 : w_status (o_w o1) s = Some Active) by (rewrite (takes_status _ _ _ T1); exact Hs).
  assert (Ha1 : accepts (o_w o1) t) by (destruct T1 as (_ & A & _); apply A, Ha).
  assert (Hl1 : Forall (fun p => accepts (o_w o1) (fst p)) (map (fun x => (t, x)) l)).
  { rewrite Forall_map. apply Forall_forall. intros; exact Ha1. }
  destruct (o_give_all_ok _ o1 s Hs1 Hl1) as [o2 [E2 S2]].
  pose proof (takes_sends _ _ _ _ _ _ T1 S2) as (R & _ & N & E).
  set (o3 := match l with [] => emit_disposal o2 n s (DEmptySpread n) | _ => o2 end).
  assert (HE : spread_execute t n o = (o3, OpOk)).
  { unfold spread_execute, with_input. rewrite E1. pose proof (accepts_node _ _ Ha1) as Hn.
    destruct (w_nodes (o_w o1) t); [|congruence]. rewrite E2. unfold o3. destruct l; reflexivity. }
  unfold o'. rewrite HE. cbn [fst snd]. split; [reflexivity|].
  assert (Hpend : forall m, receives (o_w o) m -> pending (o_w o2) m
     = (if Nat.eqb m n then rest else pending (o_w o) m)
       ++ (if Nat.eqb m t then map (fun v => (s, v)) l else [])).
  { intros m Hm. destruct (R m Hm) as [_ ->]. rewrite (after_take_alt _ _ _ _ _ _ Hp), sent_to_const.
    destruct (Nat.eqb m t); reflexivity. }
  assert (Hq2 : queued o2 = queued o ++ repeat t (length l)).
  { unfold queued. rewrite E. cbn. f_equal. rewrite map_map. cbn.
    clear. induction l as [|x l IH]; cbn; [reflexivity|]. rewrite IH. reflexivity. }
  assert (Hd2 : o_disp o2 = o_disp o) by (rewrite E; reflexivity).
  assert (Hn2 : notices o2 = notices o) by (unfold notices; rewrite E; reflexivity).
  destruct l as [|x l].
  - assert (Hnn : w_nodes (o_w o2) n <> None).
    { rewrite N. apply receives_node. eapply pending_nonnil_receives; eassumption. }
    assert (Hsc2 : o_scope o2 n = Some sc) by (rewrite E; exact Hsc).
    destruct (emit_ok o2 n s (DEmptySpread n) sc Hnn Hsc2) as (D & W & _). unfold o3.
    split; [|split; [|split]].
    + intros m Hm. rewrite W. rewrite (pending_roster _ _ _ (w_status (o_w o2)) (w_roster (o_w o2))), world_id.
      exact (Hpend m Hm).
    + unfold queued in *. rewrite W. exact Hq2.
    + unfold notices in *. rewrite W. cbn. rewrite Hn2. reflexivity.
    + intros n' s'. rewrite D, Hd2. unfold set2.
      destruct (Nat.eqb_spec n' n), (Nat.eqb_spec s' s); cbn; subst; rewrite ?app_nil_r; reflexivity.
  - unfold o3. split; [exact Hpend|]. split; [exact Hq2|]. split; [rewrite app_nil_r; exact Hn2|].
    intros. rewrite Hd2, app_nil_r. reflexivity.
Qed.

(** * Collect *)

Definition cinv (min : nat) (max : option nat) (t n s : entity) (D : list val) (o : oworld) : Prop :=
  receives (o_w o) n /\ receives (o_w o) t /\ t <> n /\
  concat (batches o t s) ++ progress o n s ++ waiting_values o n s = D /\
  Forall (within min max) (batches o t s) /\
  Forall (fun i => exists l, snd i = VList l) (pending (o_w o) t) /\
  match max with Some m => length (progress o n s) < m | None => True end.

Lemma pending_emit o n s d m : pending (o_w (emit_disposal o n s d)) m = pending (o_w o) m.
Proof.
  unfold emit_disposal. destruct (w_nodes (o_w o) n) as [nd|]; [|reflexivity].
  destruct (o_scope o n); [reflexivity|]. destruct (o_series o n).
  - destruct d; reflexivity.
  - destruct (n_unused nd); reflexivity.
Qed.
Lemma nodes_emit o n s d : w_nodes (o_w (emit_disposal o n s d)) = w_nodes (o_w o).
Proof.
  unfold emit_disposal. destruct (w_nodes (o_w o) n) as [nd|]; [|reflexivity].
  destruct (o_scope o n); [reflexivity|]. destruct (o_series o n).
  - destruct d; reflexivity.
  - destruct (n_unused nd); reflexivity.
Qed.
Lemma coll_emit o n s d : o_coll (emit_disposal o n s d) = o_coll o.
Proof.
  unfold emit_disposal. destruct (w_nodes (o_w o) n) as [nd|]; [|reflexivity].
  destruct (o_scope o n); [reflexivity|]. destruct (o_series o n).
  - destruct d; reflexivity.
  - destruct (n_unused nd); reflexivity.
Qed.
Lemma status_emit o n s d : w_status (o_w (emit_disposal o n s d)) = w_status (o_w o).
Proof.
  unfold emit_disposal. destruct (w_nodes (o_w o) n) as [nd|]; [|reflexivity].
  destruct (o_scope o n); [reflexivity|]. destruct (o_series o n).
  - destruct d; reflexivity.
  - destruct (n_unused nd); reflexivity.
Qed.

Lemma progress_set o n s l n' s' :
  progress (set_progress o n s l) n' s' = if Nat.eqb n' n && Nat.eqb s' s then l else progress o n' s'.
Proof.
  unfold progress, set_progress. cbn. destruct (Nat.eqb_spec n' n) as [->|]; cbn; [|reflexivity].
  unfold emap_set. destruct (Nat.eqb s' s); reflexivity.
Qed.

Lemma batches_app o o' t s s' l :
  pending (o_w o') t = pending (o_w o) t ++ [(s', VList l)] ->
  batches o' t s = batches o t s ++ (if Nat.eqb s' s then [l] else []).
Proof.
  intros H. unfold batches. rewrite H. unfold of_session. rewrite filter_app, map_app. cbn [filter fst].
  destruct (Nat.eqb s' s); cbn; rewrite ?app_nil_r; reflexivity.
Qed.

Lemma same_pending_batches o o' t s : pending (o_w o') t = pending (o_w o) t -> batches o' t s = batches o t s.
Proof. intros H. unfold batches. rewrite H. reflexivity. Qed.

Lemma active_dec {V} (w : world V) s : {w_status w s = Some Active} + {w_status w s <> Some Active}.
Proof. destruct (w_status w s) as [[|]|]; [left; reflexivity|right; discriminate..]. Qed.

Lemma give_inactive o t s v : w_status (o_w o) s <> Some Active ->
  fst (o_give o t s v) = o.
Proof.
  intros H. unfold o_give, give_input, sneak_input.
  assert (E : (match w_status (o_w o) s with Some Active => true | _ => false end) = false)
    by (destruct (w_status (o_w o) s) as [[|]|]; congruence).
  destruct (w_nodes (o_w o) t); [|apply with_w_id]. rewrite E. cbn. apply with_w_id.
Qed.

(** A batch leaves: what was gathered for [s'] is sent on and forgotten. *)
Lemma emit_batch min max t n s D o s' l :
  l = progress o n s' -> (s' = s -> within min max l) ->
  receives (o_w o) n -> receives (o_w o) t -> t <> n ->
  concat (batches o t s) ++ progress o n s ++ waiting_values o n s = D ->
  Forall (within min max) (batches o t s) ->
  Forall (fun i => exists l, snd i = VList l) (pending (o_w o) t) ->
  (s' <> s -> match max with Some m => length (progress o n s) < m | None => True end) ->
  match max with Some m => 0 < m | None => True end ->
  w_status (o_w o) s = Some Active ->
  cinv min max t n s D (fst (o_give (set_progress o n s' []) t s' (VList l))).
Proof.
  intros El Hw Hrn Hrt Htn HD HF HL Hlt H0 Hs.
  set (o1 := set_progress o n s' []).
  destruct (active_dec (o_w o1) s') as [Hact|Hina].
  2: { rewrite give_inactive by assumption. cbn [fst].
    assert (Hne : s' <> s) by (intros ->; exact (Hina Hs)).
    assert (Hprog : progress o1 n s = progress o n s).
    { unfold o1. rewrite progress_set. destruct (Nat.eqb_spec s s'); [congruence|]. rewrite andb_false_r. reflexivity. }
    split; [exact Hrn|]. split; [exact Hrt|]. split; [exact Htn|]. rewrite Hprog.
    split; [exact HD|]. split; [exact HF|]. split; [exact HL|]. apply Hlt, Hne. }
  destruct (o_give_ok o1 t s' (VList l)) as [o2 [E2 (R & _ & _ & E)]]; [exact Hact|left; exact Hrt|].
  rewrite E2. cbn [fst].
  destruct (R t Hrt) as [Rt Pt]. destruct (R n Hrn) as [Rn Pn].
  assert (Pt' : pending (o_w o2) t = pending (o_w o) t ++ [(s', VList l)]).
  { rewrite Pt. unfold sent_to. cbn. rewrite Nat.eqb_refl. reflexivity. }
  assert (Pn' : pending (o_w o2) n = pending (o_w o) n).
  { rewrite Pn. unfold sent_to. cbn. destruct (Nat.eqb_spec t n); [congruence|]. cbn. apply app_nil_r. }
  assert (Hc : o_coll o2 = o_coll o1) by (rewrite E; reflexivity).
  assert (Hprog : progress o2 n s = if Nat.eqb s s' then [] else progress o n s).
  { unfold progress at 1. rewrite Hc. change (progress o1 n s = if Nat.eqb s s' then [] else progress o n s).
    unfold o1. rewrite progress_set, Nat.eqb_refl. reflexivity. }
  split; [exact Rn|]. split; [exact Rt|]. split; [exact Htn|].
  rewrite (batches_app o o2 t s s' l Pt'), Hprog, (Nat.eqb_sym s s').
  unfold waiting_values. rewrite Pn'. rewrite Pt'.
  split; [|split; [|split]].
  - rewrite <- HD. unfold waiting_values. destruct (Nat.eqb_spec s' s) as [->|Hne].
    + rewrite El, concat_app. cbn. rewrite app_nil_r, <- app_assoc. reflexivity.
    + rewrite app_nil_r. reflexivity.
  - apply Forall_app. split; [exact HF|]. destruct (Nat.eqb_spec s' s); [|constructor].
    constructor; [auto|constructor].
  - apply Forall_app. split; [exact HL|]. constructor; [eexists; reflexivity|constructor].
  - destruct (Nat.eqb_spec s' s).
    + destruct max; [cbn; assumption|exact I].
    + apply Hlt. congruence.
Qed.

Lemma waiting_app o o' n s x :
  pending (o_w o') n = pending (o_w o) n ++ [x] ->
  waiting_values o' n s = waiting_values o n s ++ (if Nat.eqb (fst x) s then [snd x] else []).
Proof.
  intros H. unfold waiting_values, of_session. rewrite H, filter_app, map_app. cbn [filter].
  destruct (Nat.eqb (fst x) s); reflexivity.
Qed.

Lemma on_unreachable_inv min max t n s D o s' :
  collect_setup_ok min max = true -> w_status (o_w o) s = Some Active ->
  cinv min max t n s D o ->
  cinv min max t n s D (fst (on_unreachable o n s' t min (length (progress o n s')))).
Proof.
  intros Hok Hact (Hrn & Hrt & Htn & HD & HF & HL & Hlt). unfold on_unreachable.
  destruct (Nat.ltb_spec (length (progress o n s')) min) as [Hd|Hd]; cbn [fst].
  - unfold cinv, receives, batches, waiting_values, progress.
    setoid_rewrite pending_emit. rewrite nodes_emit, coll_emit.
    split; [exact Hrn|]. split; [exact Hrt|]. split; [exact Htn|]. split; [exact HD|].
    split; [exact HF|]. split; [exact HL|exact Hlt].
  - unfold res. cbn [fst]. apply (emit_batch min max t n s D); auto.
    + intros ->. split; [exact Hd|]. destruct max; [lia|exact I].
    + unfold collect_setup_ok in Hok. destruct max as [m|]; [|exact I].
      apply andb_prop in Hok. destruct Hok as [Hok _]. apply Nat.ltb_lt in Hok. exact Hok.
Qed.

Lemma status_give o t s v : w_status (o_w (fst (o_give o t s v))) = w_status (o_w o).
Proof.
  unfold o_give, give_input, sneak_input.
  destruct (w_nodes (o_w o) t) as [nd|]; [|reflexivity].
  destruct (w_status (o_w o) s) as [[|]|] eqn:E; cbn [andb negb]; try reflexivity.
  destruct (n_inputs nd); [reflexivity|]. destruct (n_unused nd); [reflexivity|].
  destruct (n_detached nd); reflexivity.
Qed.

Lemma status_on_unreachable o n s t min len :
  w_status (o_w (fst (on_unreachable o n s t min len))) = w_status (o_w o).
Proof.
  unfold on_unreachable. destruct (len <? min); cbn [fst].
  - apply status_emit.
  - unfold res. cbn [fst]. rewrite status_give. reflexivity.
Qed.

Lemma status_take o n : w_status (o_w (fst (o_take o n))) = w_status (o_w o).
Proof.
  unfold o_take, take_input. destruct (w_nodes (o_w o) n) as [nd|]; [|reflexivity].
  destruct (n_inputs nd) as [q|]; [|reflexivity]. destruct (pop_last q); reflexivity.
Qed.

Lemma status_cstep min max t n o c : w_status (o_w (cstep min max t n o c)) = w_status (o_w o).
Proof.
  destruct c as [s v|a|origin s d a|b s]; cbn [cstep].
  - apply status_give.
  - unfold collect_execute, with_input.
    destruct (o_take o n) as [o1 r] eqn:E1.
    assert (H1 : w_status (o_w o1) = w_status (o_w o)).
    { change o1 with (fst (o1, r)). rewrite <- E1. apply status_take. }
    destruct r as [[s v]| |]; cbn [fst]; try exact H1.
    destruct (match max with Some m => m <=? length (progress o1 n s ++ [v]) | None => false end).
    + unfold res. cbn [fst]. rewrite status_give. exact H1.
    + destruct a as [[|]|]; cbn [fst]; try exact H1. rewrite status_on_unreachable. exact H1.
  - unfold collect_disposal. destruct (Nat.eqb n origin); [reflexivity|]. destruct (negb d); [reflexivity|].
    destruct a as [[|]|]; try reflexivity. apply status_on_unreachable.
  - unfold collect_cleanup, cleanup_inputs.
    destruct b; cbn; destruct (w_nodes (o_w o) n) as [nd|]; reflexivity.
Qed.

Lemma status_crun min max t n ops : forall o, w_status (o_w (crun min max t n o ops)) = w_status (o_w o).
Proof.
  induction ops as [|c ops IH]; intros o; [reflexivity|]. cbn [crun fold_left].
  unfold crun in IH. rewrite IH. apply status_cstep.
Qed.

Lemma cinv_step min max t n s D o c :
  collect_setup_ok min max = true -> w_status (o_w o) s = Some Active ->
  not_cleaning s c -> cinv min max t n s D o ->
  cinv min max t n s (D ++ arrived s [c]) (cstep min max t n o c).
Proof.
  intros Hok Hact Hc HI. pose proof HI as (Hrn & Hrt & Htn & HD & HF & HL & Hlt).
  destruct c as [s' v|a|origin s' d a|b s']; cbn [cstep arrived].
  - (* arrival *)
    destruct (active_dec (o_w o) s') as [Hact'|Hina].
    2: { rewrite give_inactive by assumption.
      destruct (Nat.eqb_spec s' s) as [->|]; [contradiction|]. rewrite app_nil_r. exact HI. }
    destruct (o_give_ok o n s' v Hact' (or_introl Hrn)) as [o1 [E1 (R & _ & _ & E)]]. rewrite E1. cbn [fst].
    destruct (R n Hrn) as [Rn Pn]. destruct (R t Hrt) as [Rt Pt].
    assert (Pt' : pending (o_w o1) t = pending (o_w o) t).
    { rewrite Pt. unfold sent_to. cbn. destruct (Nat.eqb_spec n t); [congruence|]. cbn. apply app_nil_r. }
    assert (Pn' : pending (o_w o1) n = pending (o_w o) n ++ [(s', v)]).
    { rewrite Pn. unfold sent_to. cbn. rewrite Nat.eqb_refl. reflexivity. }
    split; [exact Rn|]. split; [exact Rt|]. split; [exact Htn|].
    rewrite (same_pending_batches _ _ _ s Pt'), (waiting_app _ _ _ s _ Pn'), Pt'.
    assert (Hp : progress o1 n s = progress o n s) by (unfold progress; rewrite E; reflexivity). rewrite Hp.
    split; [|split; [exact HF|split; [exact HL|exact Hlt]]].
    cbn [fst snd]. rewrite <- HD, <- !app_assoc. destruct (Nat.eqb s' s); reflexivity.
  - (* execution *)
    rewrite app_nil_r. unfold collect_execute, with_input.
    destruct (pending (o_w o) n) as [|[s' v] rest] eqn:Ep.
    { (* nothing to take *)
      assert (Ht : exists o1, o_take o n = (o1, NotReady) /\ (forall m, pending (o_w o1) m = pending (o_w o) m) /\
                   (forall m, receives (o_w o) m -> receives (o_w o1) m) /\ o_coll o1 = o_coll o).
      { destruct Hrn as [nd [q [En Eq]]]. unfold o_take, take_input. rewrite En, Eq.
        rewrite pending_node, En, Eq in Ep. assert (q = []) as ->.
        { destruct q; [reflexivity|]. cbn in Ep. destruct (rev q); discriminate. }
        cbn. eexists. split; [reflexivity|]. cbn -[emap_set]. split; [|split].
        - intros m. rewrite !pending_node. cbn -[emap_set]. destruct (Nat.eq_dec m n) as [->|Hne].
          + rewrite emap_set_eq, En, Eq. reflexivity.
          + rewrite emap_set_neq by assumption. reflexivity.
        - intros m [nd' [q' [H1 H2]]]. destruct (Nat.eq_dec m n) as [->|Hne].
          + eexists _, _. cbn -[emap_set]. rewrite emap_set_eq. split; reflexivity.
          + exists nd', q'. cbn -[emap_set]. rewrite emap_set_neq by assumption. auto.
        - reflexivity. }
      destruct Ht as (o1 & E1 & P1 & R1 & C1). rewrite E1. cbn [fst].
      split; [auto|]. split; [auto|]. split; [exact Htn|].
      unfold batches, waiting_values, progress. rewrite !P1, C1.
      split; [exact HD|]. split; [exact HF|]. split; [exact HL|exact Hlt]. }
    destruct (o_take_ok o n s' v rest Ep) as [o1 [E1 (TR & _ & TP & _ & _ & TE)]]. rewrite E1.
    assert (Hact1 : w_status (o_w o1) s = Some Active) by (rewrite TE; exact Hact).
    assert (Hc1 : o_coll o1 = o_coll o) by (rewrite TE; reflexivity).
    set (l := progress o1 n s' ++ [v]). set (o2 := set_progress o1 n s' l).
    assert (Hp2 : forall x, progress o2 n x = if Nat.eqb x s' then progress o n x ++ [v] else progress o n x).
    { intros x. unfold o2. rewrite progress_set, Nat.eqb_refl. cbn [andb].
      destruct (Nat.eqb_spec x s') as [->|].
      - unfold l, progress. rewrite Hc1. reflexivity.
      - unfold progress. rewrite Hc1. reflexivity. }
    assert (Hl : l = progress o2 n s').
    { unfold o2. rewrite progress_set, !Nat.eqb_refl. reflexivity. }
    assert (Pn2 : pending (o_w o2) n = rest).
    { change (o_w o2) with (o_w o1). rewrite TP. unfold after_take. rewrite Nat.eqb_refl, Ep. reflexivity. }
    assert (Pt2 : pending (o_w o2) t = pending (o_w o) t).
    { change (o_w o2) with (o_w o1). rewrite TP. unfold after_take. destruct (Nat.eqb_spec t n); [congruence|reflexivity]. }
    assert (Rn2 : receives (o_w o2) n) by (apply TR; exact Hrn).
    assert (Rt2 : receives (o_w o2) t) by (apply TR; exact Hrt).
    assert (HD2 : concat (batches o2 t s) ++ progress o2 n s ++ waiting_values o2 n s = D).
    { rewrite (same_pending_batches _ _ _ s Pt2), Hp2. unfold waiting_values, of_session. rewrite Pn2.
      unfold waiting_values, of_session in HD. rewrite Ep in HD. cbn [filter fst] in HD.
      rewrite (Nat.eqb_sym s' s) in HD. destruct (Nat.eqb s s'); cbn [map snd] in HD.
      - rewrite <- HD, <- !app_assoc. reflexivity.
      - exact HD. }
    assert (HF2 : Forall (within min max) (batches o2 t s)) by (rewrite (same_pending_batches _ _ _ s Pt2); exact HF).
    assert (HL2 : Forall (fun i => exists l, snd i = VList l) (pending (o_w o2) t)) by (rewrite Pt2; exact HL).
    destruct (match max with Some m => m <=? length l | None => false end) eqn:Emax.
    + destruct max as [m|]; [|discriminate]. apply Nat.leb_le in Emax.
      unfold collect_setup_ok in Hok. apply andb_prop in Hok. destruct Hok as [Hm0 Hmm].
      apply Nat.ltb_lt in Hm0. apply Nat.leb_le in Hmm. unfold res. cbn [fst].
      apply (emit_batch min (Some m) t n s D o2 s' l); auto.
      * intros ->. assert (Hlen : length l = m).
        { rewrite Hl, Hp2, Nat.eqb_refl, app_length in *. cbn in *. lia. }
        split; lia.
      * intros Hne. rewrite Hp2. destruct (Nat.eqb_spec s s'); [congruence|exact Hlt].
    + assert (HI2 : cinv min max t n s D o2).
      { split; [exact Rn2|]. split; [exact Rt2|]. split; [exact Htn|]. split; [exact HD2|].
        split; [exact HF2|]. split; [exact HL2|]. rewrite Hp2. destruct max as [m|]; [|exact I].
        apply Nat.leb_gt in Emax. destruct (Nat.eqb_spec s s') as [->|]; [|exact Hlt].
        rewrite Hl, Hp2, Nat.eqb_refl in Emax. exact Emax. }
      destruct a as [[|]|]; cbn [fst]; try exact HI2. rewrite Hl.
      apply on_unreachable_inv; auto; exact Hact1.
  - (* notice *)
    rewrite app_nil_r. unfold collect_disposal.
    destruct (Nat.eqb n origin); [exact HI|]. destruct (negb d); [exact HI|].
    destruct a as [[|]|]; try exact HI. apply on_unreachable_inv; auto.
  - (* cleanup *)
    rewrite app_nil_r. assert (Hne : s' <> s).
    { intros ->. apply (Hc b). reflexivity. }
    assert (Hpend : forall m, pending (o_w (collect_cleanup b n s' o)) m
                    = pending (cleanup_inputs (o_w o) n s') m) by (intros m; destruct b; reflexivity).
    assert (Hnodes : w_nodes (o_w (collect_cleanup b n s' o)) = w_nodes (cleanup_inputs (o_w o) n s'))
      by (destruct b; reflexivity).
    assert (Hrec : forall m, receives (o_w o) m -> receives (o_w (collect_cleanup b n s' o)) m).
    { intros m [nd [q [En Eq]]]. unfold receives. rewrite Hnodes. unfold cleanup_inputs.
      destruct (w_nodes (o_w o) n) as [nd1|] eqn:En1; [|exists nd, q; auto]. cbn -[emap_set].
      destruct (Nat.eq_dec m n) as [->|Hmn].
      - rewrite emap_set_eq. eexists _, _. split; [reflexivity|].
        unfold cleanup_inputs_node. replace nd1 with nd by congruence. rewrite Eq.
        destruct (n_buffer nd); reflexivity.
      - rewrite emap_set_neq by assumption. exists nd, q. auto. }
    assert (Hother : of_session s (pending (cleanup_inputs (o_w o) n s') n) = of_session s (pending (o_w o) n)).
    { rewrite (cleanup_clears (o_w o) n s' n s). destruct (Nat.eqb_spec s s'); [congruence|].
      rewrite andb_false_r. reflexivity. }
    assert (Ht : pending (cleanup_inputs (o_w o) n s') t = pending (o_w o) t).
    { unfold cleanup_inputs. destruct (w_nodes (o_w o) n) as [nd1|]; [|reflexivity].
      rewrite pending_set. destruct (Nat.eqb_spec t n); [congruence|]. reflexivity. }
    split; [auto|]. split; [auto|]. split; [exact Htn|].
    assert (Hprog : progress (collect_cleanup b n s' o) n s = progress o n s).
    { unfold progress, collect_cleanup. cbn. rewrite Nat.eqb_refl. unfold emap_set.
      destruct (Nat.eqb_spec s s'); [congruence|]. destruct b; reflexivity. }
    unfold batches, waiting_values. rewrite !Hpend, Hother, Ht, Hprog.
    split; [exact HD|]. split; [exact HF|]. split; [exact HL|exact Hlt].
Qed.

Lemma arrived_app s (a b : list cop) : arrived s (a ++ b) = arrived s a ++ arrived s b.
Proof.
  induction a as [|c a IH]; [reflexivity|]. destruct c; cbn; rewrite ?IH; try reflexivity.
  destruct (Nat.eqb _ _); reflexivity.
Qed.

Lemma cinv_run min max t n s ops : forall D o,
  collect_setup_ok min max = true -> w_status (o_w o) s = Some Active ->
  Forall (not_cleaning s) ops -> cinv min max t n s D o ->
  cinv min max t n s (D ++ arrived s ops) (crun min max t n o ops).
Proof.
  induction ops as [|c ops IH]; intros D o Hok Hact Hc HI.
  - cbn [arrived crun fold_left]. rewrite app_nil_r. exact HI.
  - inversion Hc as [|c' ops' H1 H2]; subst. cbn [crun fold_left].
    change (c :: ops) with ([c] ++ ops). rewrite arrived_app, app_assoc.
    apply IH; auto.
    + rewrite status_cstep. exact Hact.
    + apply cinv_step; auto.
Qed.

Lemma collect_history min max t n s ops o :
  collect_setup_ok min max = true -> w_status (o_w o) s = Some Active ->
  receives (o_w o) n -> receives (o_w o) t -> t <> n ->
  pending (o_w o) n = [] -> pending (o_w o) t = [] -> (forall s, o_coll o n s = None) ->
  Forall (not_cleaning s) ops ->
  let o' := crun min max t n o ops in
  concat (batches o' t s) ++ progress o' n s ++ waiting_values o' n s = arrived s ops /\
  Forall (within min max) (batches o' t s) /\
  match max with Some m => length (progress o' n s) < m | None => True end.
Proof.
  intros Hok Hact Hrn Hrt Htn Pn Pt Hco Hc o'.
  assert (HI : cinv min max t n s [] o).
  { split; [exact Hrn|]. split; [exact Hrt|]. split; [exact Htn|].
    unfold batches, waiting_values, progress. rewrite Pn, Pt, Hco. cbn.
    split; [reflexivity|]. split; [constructor|]. split; [constructor|].
    unfold collect_setup_ok in Hok. destruct max as [m|]; [|exact I].
    apply andb_prop in Hok. destruct Hok as [Hok _]. apply Nat.ltb_lt in Hok. exact Hok. }
  destruct (cinv_run min max t n s ops [] o Hok Hact Hc HI) as (_ & _ & _ & H1 & H2 & _ & H3).
  auto.
Qed.

(** When the check says that nothing more can come. *)
Lemma collect_stop min max t n o s v rest sc :
  collect_setup_ok min max = true -> w_status (o_w o) s = Some Active ->
  receives (o_w o) t -> t <> n -> o_scope o n = Some sc ->
  pending (o_w o) n = (s, v) :: rest ->
  let l := progress o n s ++ [v] in
  match max with Some m => length l < m | None => True end ->
  let o' := cstep min max t n o (CExec (Some false)) in
  (min <= length l /\ batches o' t s = batches o t s ++ [l] /\ progress o' n s = [] /\
   notices o' = notices o /\ o_disp o' = o_disp o)
  \/ (length l < min /\ batches o' t s = batches o t s /\ progress o' n s = l /\
      notices o' = notices o ++ [mk_disposal sc n s] /\
      disposals o' n s = disposals o n s ++ [DDeficient n min (length l)]).
Proof.
  intros Hok Hs Hrt Htn Hsc Hp l Hmax o'.
  destruct (o_take_ok o n s v rest Hp) as [o1 [E1 (TR & _ & TP & TN & _ & TE)]].
  assert (Hc1 : o_coll o1 = o_coll o) by (rewrite TE; reflexivity).
  assert (Hl1 : progress o1 n s ++ [v] = l) by (unfold l, progress; rewrite Hc1; reflexivity).
  set (o2 := set_progress o1 n s l).
  assert (HE : o' = fst (on_unreachable o2 n s t min (length l))).
  { unfold o', cstep, collect_execute, with_input. rewrite E1. cbn zeta. rewrite Hl1. fold o2.
    destruct max as [m|]; [|reflexivity]. destruct (Nat.leb_spec m (length l)); [lia|reflexivity]. }
  rewrite HE. unfold on_unreachable.
  assert (Hp2 : progress o2 n s = l) by (unfold o2; rewrite progress_set, !Nat.eqb_refl; reflexivity).
  assert (Pt2 : pending (o_w o2) t = pending (o_w o) t).
  { change (o_w o2) with (o_w o1). rewrite TP. unfold after_take. destruct (Nat.eqb_spec t n); [congruence|reflexivity]. }
  destruct (Nat.ltb_spec (length l) min) as [Hd|Hd].
  - right. split; [exact Hd|]. cbn [fst].
    assert (Hn2 : w_nodes (o_w o2) n <> None).
    { change (o_w o2) with (o_w o1). rewrite TN. apply receives_node. eapply pending_nonnil_receives; eassumption. }
    assert (Hsc2 : o_scope o2 n = Some sc) by (unfold o2; rewrite TE; exact Hsc).
    destruct (emit_ok o2 n s (DDeficient n min (length l)) sc Hn2 Hsc2) as (D & W & _).
    split; [|split; [|split]].
    + unfold batches. rewrite pending_emit, Pt2. reflexivity.
    + unfold progress at 1. rewrite coll_emit. exact Hp2.
    + unfold notices. rewrite W. cbn. rewrite TE. reflexivity.
    + unfold disposals. rewrite D, set2_eq. unfold o2. rewrite TE. reflexivity.
  - left. split; [exact Hd|]. rewrite Hp2. unfold res. cbn [fst].
    destruct (o_give_ok (set_progress o2 n s []) t s (VList l)) as [o3 [E3 (R & _ & _ & E)]].
    { cbn. rewrite TE. exact Hs. }
    { left. cbn. apply TR. exact Hrt. }
    rewrite E3. cbn [fst].
    assert (Pt3 : pending (o_w o3) t = pending (o_w o) t ++ [(s, VList l)]).
    { destruct (R t) as [_ ->]; [apply TR; exact Hrt|].
      change (o_w (set_progress o2 n s [])) with (o_w o2). rewrite Pt2. unfold sent_to. cbn.
      rewrite Nat.eqb_refl. reflexivity. }
    split; [|split; [|split]].
    + rewrite (batches_app o o3 t s s l Pt3), Nat.eqb_refl. reflexivity.
    + unfold progress. rewrite E. cbn. rewrite Nat.eqb_refl. unfold emap_set. rewrite Nat.eqb_refl. reflexivity.
    + unfold notices. rewrite E. cbn. rewrite TE. reflexivity.
    + rewrite E. cbn. rewrite TE. reflexivity.
Qed.

Lemma collect_cleaned by_scope n s o :
  waiting_values (collect_cleanup by_scope n s o) n s = [] /\
  progress (collect_cleanup by_scope n s o) n s = [].
Proof.
  split.
  - unfold waiting_values.
    assert (H : pending (o_w (collect_cleanup by_scope n s o)) n = pending (cleanup_inputs (o_w o) n s) n)
      by (destruct by_scope; reflexivity).
    rewrite H, (cleanup_clears (o_w o) n s n s), !Nat.eqb_refl. reflexivity.
  - unfold progress, collect_cleanup. cbn. rewrite Nat.eqb_refl. unfold emap_set.
    rewrite Nat.eqb_refl. reflexivity.
Qed.

(** * Split *)

Lemma skey_eqb_spec a b : reflect (a = b) (skey_eqb a b).
Proof.
  destruct a, b; cbn; try (constructor; congruence).
  - destruct (Nat.eqb_spec k k0); constructor; congruence.
  - destruct (Nat.eqb_spec i i0); constructor; congruence.
Qed.
Lemma skey_eqb_refl a : skey_eqb a a = true.
Proof. destruct (skey_eqb_spec a a); congruence. Qed.
Lemma skey_eqb_sym a b : skey_eqb a b = skey_eqb b a.
Proof. destruct (skey_eqb_spec a b), (skey_eqb_spec b a); congruence. Qed.

Lemma connected_in ks k : connected ks k = true <-> In k ks.
Proof.
  unfold connected. rewrite existsb_exists. split.
  - intros [x [H1 H2]]. destruct (skey_eqb_spec k x); congruence.
  - intros H. exists k. split; [exact H|apply skey_eqb_refl].
Qed.

(** The connections as a function. *)
Definition conn_ok (c : list (skey * nat)) (ks : list skey) : Prop :=
  NoDup ks /\ forall k i, In (k, i) c <-> nth_error ks i = Some k.

Lemma lookup_some c ks k i : conn_ok c ks -> nth_error ks i = Some k -> sp_lookup c k = Some i.
Proof.
  intros [Hnd Hc] Hi. apply Hc in Hi.
  assert (Huniq : forall j, In (k, j) c -> j = i).
  { intros j Hj. apply Hc in Hj. apply Hc in Hi.
    assert (Hli : i < length ks) by (apply nth_error_Some; congruence).
    rewrite NoDup_nth_error in Hnd. symmetry. apply Hnd; [exact Hli|congruence]. }
  clear Hc Hnd. induction c as [|[k' j] c IH]; [destruct Hi|]. cbn [sp_lookup].
  destruct (skey_eqb_spec k k') as [->|Hne].
  - rewrite (Huniq j); [reflexivity|left; reflexivity].
  - apply IH.
    + destruct Hi as [Hi|Hi]; [congruence|exact Hi].
    + intros j' Hj'. apply Huniq. right. exact Hj'.
Qed.

Lemma lookup_none c ks k : conn_ok c ks -> ~ In k ks -> sp_lookup c k = None.
Proof.
  intros [Hnd Hc] Hk. assert (Hno : forall j, ~ In (k, j) c).
  { intros j Hj. apply Hc in Hj. apply nth_error_In in Hj. auto. }
  clear Hc Hnd. induction c as [|[k' j] c IH]; [reflexivity|]. cbn [sp_lookup].
  destruct (skey_eqb_spec k k') as [->|Hne].
  - exfalso. apply (Hno j). left. reflexivity.
  - apply IH. intros j' Hj'. apply (Hno j'). right. exact Hj'.
Qed.

(** Output lists after adding a plan. *)
Definition fill (ks : list skey) (outs : list (list val)) (p : list (option skey * val)) : list (list val) :=
  map (fun ko => snd ko ++ planned (fst ko) p) (combine ks outs).

Lemma fill_length ks outs p : length outs = length ks -> length (fill ks outs p) = length ks.
Proof. intros H. unfold fill. rewrite map_length, combine_length. lia. Qed.

Lemma planned_app k p q : planned k (p ++ q) = planned k p ++ planned k q.
Proof. unfold planned. rewrite filter_app, map_app. reflexivity. Qed.

Lemma fill_fill ks : forall outs p q, length outs = length ks ->
  fill ks (fill ks outs p) q = fill ks outs (p ++ q).
Proof.
  unfold fill. induction ks as [|k ks IH]; intros [|o outs] p q H; cbn in *; try reflexivity; try lia.
  rewrite planned_app, app_assoc. f_equal. apply IH. lia.
Qed.

Lemma fill_nil ks : forall outs p, length outs = length ks ->
  (forall k, In k ks -> planned k p = []) -> fill ks outs p = outs.
Proof.
  unfold fill. induction ks as [|k ks IH]; intros [|o outs] p H Hn; cbn in *; try reflexivity; try lia.
  rewrite (Hn k (or_introl eq_refl)), app_nil_r. f_equal. apply IH; [lia|auto].
Qed.

Lemma update_fill ks : forall outs i k v, length outs = length ks -> NoDup ks ->
  nth_error ks i = Some k ->
  update_nth i (fun l => l ++ [v]) outs = fill ks outs [(Some k, v)].
Proof.
  induction ks as [|k0 ks IH]; intros [|o outs] i k v Hlen Hnd Hi; cbn in Hlen; try lia.
  - destruct i; discriminate.
  - inversion Hnd as [|x l Hn1 Hn2]; subst. destruct i as [|i]; cbn in Hi.
    + injection Hi as <-. cbn [update_nth]. unfold fill. cbn [combine map fst snd].
      assert (E : planned k0 [(Some k0, v)] = [v]) by (unfold planned; cbn; rewrite skey_eqb_refl; reflexivity).
      rewrite E. f_equal. symmetry. apply (fill_nil ks outs [(Some k0, v)]); [lia|]. intros k Hk. unfold planned. cbn.
      destruct (skey_eqb_spec k k0); [subst; contradiction|reflexivity].
    + cbn [update_nth]. unfold fill. cbn [combine map fst snd]. f_equal.
      * unfold planned. cbn. destruct (skey_eqb_spec k0 k) as [->|]; cbn; [|rewrite app_nil_r; reflexivity].
        apply nth_error_In in Hi. contradiction.
      * apply IH; auto.
Qed.

Lemma push_some c ks outs k v : conn_ok c ks -> length outs = length ks -> In k ks ->
  sp_push c outs k v = Some (fill ks outs [(Some k, v)]).
Proof.
  intros Hc Hlen Hk. apply In_nth_error in Hk. destruct Hk as [i Hi].
  unfold sp_push. rewrite (lookup_some c ks k i Hc Hi).
  assert (i < length ks) by (apply nth_error_Some; congruence).
  destruct (Nat.leb_spec (length outs) i); [lia|].
  rewrite (update_fill ks outs i k v); [reflexivity|exact Hlen|apply Hc|exact Hi].
Qed.

Lemma push_none c ks outs k v : conn_ok c ks -> ~ In k ks -> sp_push c outs k v = None.
Proof. intros Hc Hk. unfold sp_push. rewrite (lookup_none c ks k Hc Hk). reflexivity. Qed.

Lemma fill_None ks outs v : length outs = length ks -> fill ks outs [(None, v)] = outs.
Proof. intros H. apply fill_nil; [exact H|]. intros. reflexivity. Qed.

(** The plan from position [i] on. *)
Definition list_plan_from (conn : skey -> bool) (i : nat) (l : list val) : list (option skey * val) :=
  map (fun j => (list_dest conn (i + j), VTuple [VAtom (i + j); nth j l VUnit])) (seq 0 (length l)).

Lemma list_plan_from_cons conn i v l :
  list_plan_from conn i (v :: l)
  = (list_dest conn i, VTuple [VAtom i; v]) :: list_plan_from conn (S i) l.
Proof.
  unfold list_plan_from. cbn [length seq map]. rewrite Nat.add_0_r. cbn [nth]. f_equal.
  rewrite <- seq_shift, map_map. apply map_ext. intros j. rewrite Nat.add_succ_r. reflexivity.
Qed.

Lemma connected_false ks k : connected ks k = false -> ~ In k ks.
Proof. intros H Hin. apply connected_in in Hin. congruence. Qed.

Lemma split_list_fill c ks : conn_ok c ks -> forall l i outs, length outs = length ks ->
  split_list c outs i l = fill ks outs (list_plan_from (connected ks) i l).
Proof.
  intros Hc. induction l as [|v l IH]; intros i outs Hlen.
  - cbn [split_list]. symmetry. apply fill_nil; [exact Hlen|]. intros. reflexivity.
  - cbn [split_list]. rewrite list_plan_from_cons.
    change ((list_dest (connected ks) i, VTuple [VAtom i; v]) :: list_plan_from (connected ks) (S i) l)
      with ([(list_dest (connected ks) i, VTuple [VAtom i; v])] ++ list_plan_from (connected ks) (S i) l).
    rewrite <- fill_fill by exact Hlen. unfold list_dest.
    destruct (connected ks (KSequential i)) eqn:E1.
    + apply connected_in in E1. rewrite (push_some c ks outs _ _ Hc Hlen E1).
      apply IH. apply fill_length, Hlen.
    + rewrite (push_none c ks outs _ _ Hc (connected_false _ _ E1)).
      destruct (connected ks KRemaining) eqn:E2.
      * apply connected_in in E2. rewrite (push_some c ks outs _ _ Hc Hlen E2).
        apply IH. apply fill_length, Hlen.
      * rewrite (push_none c ks outs _ _ Hc (connected_false _ _ E2)).
        rewrite fill_None by exact Hlen. apply IH, Hlen.
Qed.

Definition map_plan_from (conn : skey -> bool) (j : nat) (es : list (nat * val)) : list (option skey * val) :=
  map (fun i =>
         let e := nth i es (0, VUnit) in
         (map_dest conn (fst e) (j + anonymous conn (firstn i es)), VTuple [VAtom (fst e); snd e]))
    (seq 0 (length es)).

Lemma map_plan_from_cons conn j k v es :
  map_plan_from conn j ((k, v) :: es)
  = (map_dest conn k j, VTuple [VAtom k; v])
    :: map_plan_from conn (j + if conn (KSpecific k) then 0 else 1) es.
Proof.
  unfold map_plan_from. cbn [length seq map nth firstn fst snd].
  unfold anonymous at 1. cbn [filter length]. rewrite Nat.add_0_r. f_equal.
  rewrite <- seq_shift, map_map. apply map_ext. intros i. cbn [nth firstn].
  unfold anonymous. cbn [filter fst]. destruct (conn (KSpecific k)); cbn [negb length].
  - rewrite Nat.add_0_r. reflexivity.
  - rewrite <- Nat.add_assoc. reflexivity.
Qed.

Lemma split_map_fill c ks : conn_ok c ks -> forall es j outs, length outs = length ks ->
  split_map c outs j es = fill ks outs (map_plan_from (connected ks) j es).
Proof.
  intros Hc. induction es as [|[k v] es IH]; intros j outs Hlen.
  - cbn [split_map]. symmetry. apply fill_nil; [exact Hlen|]. intros. reflexivity.
  - cbn [split_map]. rewrite map_plan_from_cons.
    change (?a :: ?b) with ([a] ++ b).
    rewrite <- fill_fill by exact Hlen. unfold map_dest.
    destruct (connected ks (KSpecific k)) eqn:E0.
    { apply connected_in in E0. rewrite (push_some c ks outs _ _ Hc Hlen E0), Nat.add_0_r.
      apply IH. apply fill_length, Hlen. }
    rewrite (push_none c ks outs _ _ Hc (connected_false _ _ E0)), Nat.add_1_r.
    destruct (connected ks (KSequential j)) eqn:E1.
    + apply connected_in in E1. rewrite (push_some c ks outs _ _ Hc Hlen E1).
      apply IH. apply fill_length, Hlen.
    + rewrite (push_none c ks outs _ _ Hc (connected_false _ _ E1)).
      destruct (connected ks KRemaining) eqn:E2.
      * apply connected_in in E2. rewrite (push_some c ks outs _ _ Hc Hlen E2).
        apply IH. apply fill_length, Hlen.
      * rewrite (push_none c ks outs _ _ Hc (connected_false _ _ E2)).
        rewrite fill_None by exact Hlen. apply IH, Hlen.
Qed.

(** Sending. *)
Definition deliveries (outs : list (list val)) (ts : list entity) : list (entity * val) :=
  concat (map (fun ot => map (fun x => (snd ot, x)) (fst ot)) (combine outs ts)).

Fixpoint empties (i : nat) (outs : list (list val)) : list nat :=
  match outs with
  | [] => []
  | [] :: r => i :: empties (S i) r
  | _ :: r => empties (S i) r
  end.

Lemma split_send_ok s outs : forall ts o i,
  length outs = length ts -> w_status (o_w o) s = Some Active -> Forall (accepts (o_w o)) ts ->
  exists o', split_send o s i outs ts = (o', Some (empties i outs)) /\ sends o o' s (deliveries outs ts).
Proof.
  induction outs as [|items outs IH]; intros [|t ts] o i Hlen Hs Ha; cbn in Hlen; try lia.
  - exists o. split; [reflexivity|apply sends_nil].
  - inversion Ha as [|x l Ht Hts]; subst. cbn [split_send].
    destruct (o_give_all_ok (map (fun x => (t, x)) items) o s Hs) as [o1 [E1 S1]].
    { rewrite Forall_map. apply Forall_forall. intros; exact Ht. }
    rewrite E1. destruct (IH ts o1 (S i)) as [o2 [E2 S2]].
    { lia. } { rewrite (sends_status _ _ _ _ S1). exact Hs. } { exact (sends_accepts _ _ _ _ _ S1 Hts). }
    rewrite E2. exists o2. split.
    + destruct items; reflexivity.
    + exact (sends_trans _ _ _ _ _ _ S1 S2).
Qed.

Lemma deliveries_sent ks : forall ts p m, length ks = length ts ->
  sent_to m (deliveries (fill ks (repeat [] (length ts)) p) ts) = branch_items ks ts p m.
Proof.
  induction ks as [|k ks IH]; intros [|t ts] p m Hlen; cbn in Hlen; try lia; [reflexivity|].
  cbn [length repeat]. unfold fill, deliveries, branch_items. cbn [combine map fst snd concat app].
  rewrite sent_to_app, sent_to_const, (Nat.eqb_sym m t). f_equal. apply IH. lia.
Qed.

Lemma deliveries_fst ks : forall ts p, length ks = length ts ->
  map fst (deliveries (fill ks (repeat [] (length ts)) p) ts)
  = concat (map (fun kt => repeat (snd kt) (length (planned (fst kt) p))) (combine ks ts)).
Proof.
  induction ks as [|k ks IH]; intros [|t ts] p Hlen; cbn in Hlen; try lia; [reflexivity|].
  cbn [length repeat]. unfold fill, deliveries. cbn [combine map fst snd concat app].
  rewrite map_app, map_map. cbn [fst]. f_equal.
  - clear. induction (planned k p) as [|x l IH]; [reflexivity|]. cbn. rewrite IH. reflexivity.
  - apply IH. lia.
Qed.

Lemma empties_fill ks : forall pre p m, m = length ks ->
  map (nth_error (pre ++ ks)) (empties (length pre) (fill ks (repeat [] m) p))
  = map Some (filter (no_items p) ks).
Proof.
  induction ks as [|k ks IH]; intros pre p m ->; [reflexivity|].
  cbn [length repeat]. unfold fill. cbn [combine map fst snd app filter].
  pose proof (IH (pre ++ [k]) p (length ks) eq_refl) as H. rewrite <- app_assoc, app_length in H.
  cbn [app length] in H. rewrite Nat.add_1_r in H. unfold fill in H.
  unfold no_items at 1. destruct (planned k p) as [|x l]; cbn [empties map].
  - rewrite nth_error_app2 by lia. rewrite Nat.sub_diag. cbn [nth_error]. f_equal. exact H.
  - exact H.
Qed.

Lemma empties_nil ks : forall i m p, m = length ks ->
  empties i (fill ks (repeat [] m) p) = [] <-> filter (no_items p) ks = [].
Proof.
  induction ks as [|k ks IH]; intros i m p ->; [tauto|].
  cbn [length repeat]. unfold fill. cbn [combine map fst snd app filter].
  unfold no_items at 1. destruct (planned k p) as [|x l]; cbn [empties].
  - split; discriminate.
  - apply IH. reflexivity.
Qed.

Lemma o_split_emit o n s d : o_split (emit_disposal o n s d) = o_split o.
Proof.
  unfold emit_disposal. destruct (w_nodes (o_w o) n) as [nd|]; [|reflexivity].
  destruct (o_scope o n); [reflexivity|]. destruct (o_series o n).
  - destruct d; reflexivity.
  - destruct (n_unused nd); reflexivity.
Qed.

Lemma split_ok is_map n o s v rest sc sp ks ts p :
  o_split o n = Some sp -> split_wf sp ks ts ->
  pending (o_w o) n = (s, v) :: rest -> w_status (o_w o) s = Some Active ->
  Forall (accepts (o_w o)) ts -> o_scope o n = Some sc ->
  plan_of is_map ks v = Some p ->
  let o' := fst (split_execute is_map n o) in
  let missed := filter (no_items p) ks in
  snd (split_execute is_map n o) = OpOk /\
  (forall m, receives (o_w o) m ->
     pending (o_w o') m
     = (if Nat.eqb m n then rest else pending (o_w o) m)
       ++ map (fun x => (s, x)) (branch_items ks ts p m)) /\
  queued o' = queued o ++ concat (map (fun kt => repeat (snd kt) (length (planned (fst kt) p))) (combine ks ts)) /\
  (exists sp', o_split o' n = Some sp' /\ split_wf sp' ks ts) /\
  (forall n' s', o_disp o' n' s'
     = o_disp o n' s' ++ match missed with
                         | [] => []
                         | _ => if Nat.eqb n' n && Nat.eqb s' s
                                then [DIncompleteSplit n (map Some missed)] else []
                         end) /\
  notices o' = notices o ++ (match missed with [] => [] | _ => [mk_disposal sc n s] end).
Proof.
  intros Hsp Hwf Hp Hs Ha Hsc Hplan o' missed.
  destruct Hwf as (Hnd & Hlen & Hts & Hik & Hco & Hca).
  assert (Hc : conn_ok (sp_connections sp) ks) by (split; assumption).
  destruct (o_take_ok o n s v rest Hp) as [o1 [E1 T1]].
  pose proof T1 as (TR & TA & TP & TN & _ & TE).
  assert (Hsp1 : o_split o1 n = Some sp) by (rewrite TE; exact Hsp).
  set (o2 := set_split o1 n (mk_split (sp_connections sp) (sp_index_to_key sp) None (sp_targets sp))).
  assert (Hrl : length (repeat (@nil val) (length ts)) = length ks) by (rewrite repeat_length; lia).
  set (outs := fill ks (repeat [] (length ts)) p).
  assert (Hfill : match v with
          | VList l =>
              if is_map then
                match map_entries l with
                | Some es => Some (split_map (sp_connections sp) (repeat [] (length ts)) 0 es)
                | None => None
                end
              else Some (split_list (sp_connections sp) (repeat [] (length ts)) 0 l)
          | _ => None
          end = Some outs).
  { unfold plan_of in Hplan. destruct v; try discriminate. destruct is_map.
    - destruct (map_entries l) as [es|]; [|discriminate]. injection Hplan as <-.
      rewrite (split_map_fill _ ks Hc); [reflexivity|exact Hrl].
    - injection Hplan as <-. rewrite (split_list_fill _ ks Hc); [reflexivity|exact Hrl]. }
  assert (Houts : length outs = length ts) by (unfold outs; rewrite fill_length; lia).
  destruct (split_send_ok s outs ts o2 0) as [o3 [E3 S3]].
  { exact Houts. } { cbn. rewrite TE. exact Hs. } { exact (Forall_takes _ _ _ _ T1 Ha). }
  assert (Hkeys : map (nth_error ks) (empties 0 outs) = map Some missed).
  { unfold outs, missed. apply (empties_fill ks [] p). lia. }
  assert (Hmiss : empties 0 outs = [] <-> missed = []).
  { unfold outs, missed. apply empties_nil. lia. }
  set (o4 := match empties 0 outs with
             | [] => o3
             | _ => emit_disposal o3 n s (DIncompleteSplit n (map Some missed))
             end).
  set (sp' := mk_split (sp_connections sp) (sp_index_to_key sp) (Some (map (fun _ => []) outs)) (sp_targets sp)).
  assert (HE : split_execute is_map n o = (set_split o4 n sp', OpOk)).
  { unfold split_execute, with_input. rewrite E1, Hsp1, Hca. rewrite Hfill. fold o2. rewrite Hts, E3.
    rewrite Hik, Hkeys. unfold o4, sp'. rewrite Hts, Hik. f_equal. f_equal.
    rewrite (firstn_all2 outs) by lia. rewrite (skipn_all2 outs) by lia. rewrite app_nil_r. reflexivity. }
  assert (HR : forall m, receives (o_w o) m -> pending (o_w o3) m
     = (if Nat.eqb m n then rest else pending (o_w o) m) ++ map (fun x => (s, x)) (branch_items ks ts p m)).
  { intros m Hm. destruct S3 as (R & _). destruct (R m) as [_ ->]; [apply TR, Hm|].
    change (o_w o2) with (o_w o1). rewrite TP, (after_take_alt _ _ _ _ _ _ Hp).
    unfold outs. rewrite deliveries_sent by exact Hlen. reflexivity. }
  assert (Hq : queued o3 = queued o ++ concat (map (fun kt => repeat (snd kt) (length (planned (fst kt) p))) (combine ks ts))).
  { destruct S3 as (_ & _ & _ & E). unfold queued. rewrite E. cbn. rewrite TE. cbn. f_equal.
    unfold outs. apply deliveries_fst, Hlen. }
  assert (Hd : o_disp o3 = o_disp o).
  { destruct S3 as (_ & _ & _ & E). rewrite E. cbn. rewrite TE. reflexivity. }
  assert (Hno : notices o3 = notices o).
  { destruct S3 as (_ & _ & _ & E). unfold notices. rewrite E. cbn. rewrite TE. reflexivity. }
  assert (Hsc3 : o_scope o3 n = Some sc).
  { destruct S3 as (_ & _ & _ & E). rewrite E. cbn. rewrite TE. exact Hsc. }
  assert (Hn3 : w_nodes (o_w o3) n <> None).
  { destruct S3 as (_ & _ & N & _). rewrite N. change (o_w o2) with (o_w o1). rewrite TN.
    apply receives_node. eapply pending_nonnil_receives; eassumption. }
  unfold o'. rewrite HE. cbn [fst snd]. split; [reflexivity|].
  split; [|split; [|split; [|split]]].
  - intros m Hm. cbn. unfold o4. destruct (empties 0 outs); [exact (HR m Hm)|].
    rewrite pending_emit. exact (HR m Hm).
  - unfold queued. cbn. unfold o4. destruct (empties 0 outs); [exact Hq|].
    destruct (emit_ok o3 n s (DIncompleteSplit n (map Some missed)) sc Hn3 Hsc3) as (_ & W & _).
    rewrite W. exact Hq.
  - exists sp'. split; [apply emap_set_eq|]. unfold sp'. split; [exact Hnd|]. split; [exact Hlen|].
    cbn. split; [exact Hts|]. split; [exact Hik|]. split; [exact Hco|].
    f_equal. rewrite <- Houts. clear. induction outs as [|x l IH]; [reflexivity|]. cbn. rewrite IH. reflexivity.
  - intros n' s'. cbn. unfold o4.
    destruct (empties 0 outs) as [|e es] eqn:Ee.
    + replace missed with (@nil skey) by (symmetry; apply Hmiss; reflexivity). rewrite Hd, app_nil_r. reflexivity.
    + destruct missed as [|k0 ks0] eqn:Em; [destruct Hmiss as [_ Hm]; specialize (Hm eq_refl); discriminate|].
      destruct (emit_ok o3 n s (DIncompleteSplit n (map Some (k0 :: ks0))) sc Hn3 Hsc3) as (D & _).
      rewrite D, Hd. unfold set2.
      destruct (Nat.eqb_spec n' n), (Nat.eqb_spec s' s); cbn; subst; rewrite ?app_nil_r; reflexivity.
  - unfold notices. cbn. unfold o4.
    destruct (empties 0 outs) as [|e es] eqn:Ee.
    + replace missed with (@nil skey) by (symmetry; apply Hmiss; reflexivity). rewrite app_nil_r. exact Hno.
    + destruct missed as [|k0 ks0] eqn:Em; [destruct Hmiss as [_ Hm]; specialize (Hm eq_refl); discriminate|].
      destruct (emit_ok o3 n s (DIncompleteSplit n (map Some (k0 :: ks0))) sc Hn3 Hsc3) as (_ & W & _).
      rewrite W. unfold notices in Hno. cbn. rewrite Hno. reflexivity.
Qed.

(** With a target of its own, a branch gets exactly the items planned for it. *)
Lemma branch_items_own ks : forall ts p i k t, length ks = length ts -> NoDup ts ->
  nth_error ks i = Some k -> nth_error ts i = Some t -> branch_items ks ts p t = planned k p.
Proof.
  induction ks as [|k0 ks IH]; intros [|t0 ts] p i k t Hlen Hnd Hk Ht; cbn in Hlen; try lia.
  - destruct i; discriminate.
  - inversion Hnd as [|x l Hn1 Hn2]; subst. unfold branch_items. cbn [combine map fst snd concat].
    destruct i as [|i]; cbn in Hk, Ht.
    + injection Hk as ->. injection Ht as ->. rewrite Nat.eqb_refl.
      assert (Hz : forall (ks' : list skey) ts', ~ In t ts' ->
                concat (map (fun kt : skey * entity => if Nat.eqb (snd kt) t then planned (fst kt) p else [])
                  (combine ks' ts')) = []).
      { clear. induction ks' as [|a ks' IH]; intros [|b ts'] H; try reflexivity. cbn.
        destruct (Nat.eqb_spec b t) as [->|]; [exfalso; apply H; left; reflexivity|]. cbn. apply IH.
        intros Hin. apply H. right. exact Hin. }
      rewrite Hz by exact Hn1. apply app_nil_r.
    + destruct (Nat.eqb_spec t0 t) as [->|Hne].
      * apply nth_error_In in Ht. contradiction.
      * cbn [app]. eapply IH; eauto.
Qed.

(** ** Building a split *)

Lemma resize_repeat (n m : nat) : n <= m -> resize_to (repeat [] n) m = repeat [] m.
Proof.
  intros H. unfold resize_to. rewrite repeat_length, <- repeat_app. f_equal. lia.
Qed.

Lemma firstn_repeat {A} (x : A) n m : m <= n -> firstn m (repeat x n) = repeat x m.
Proof.
  revert m. induction n as [|n IH]; intros [|m] H; cbn; try reflexivity; try lia. rewrite IH by lia. reflexivity.
Qed.

Lemma split_connect_wf sp ks ts k t :
  split_wf sp ks ts -> ~ In k ks -> split_wf (split_connect sp k t) (ks ++ [k]) (ts ++ [t]).
Proof.
  intros (Hnd & Hlen & Hts & Hik & Hco & Hca) Hk. unfold split_wf, split_connect. cbn.
  rewrite Hts, Hik, Hca, Hlen, Nat.eqb_refl, !app_length. cbn.
  split; [apply NoDup_app_comm_snoc; assumption|].
  split; [lia|]. split; [reflexivity|]. split; [reflexivity|]. split.
  - intros k' i. split.
    + intros [H|H].
      * injection H as <- <-. rewrite <- Hlen, nth_error_app2, Nat.sub_diag by lia. reflexivity.
      * apply filter_In in H. destruct H as [H _]. apply Hco in H.
        rewrite nth_error_app1; [exact H|]. apply nth_error_Some. congruence.
    + intros H. destruct (Nat.lt_ge_cases i (length ks)) as [Hi|Hi].
      * rewrite nth_error_app1 in H by exact Hi. right. apply filter_In. split; [apply Hco, H|].
        cbn. destruct (skey_eqb_spec k k') as [->|]; [|reflexivity].
        apply nth_error_In in H. contradiction.
      * rewrite nth_error_app2 in H by exact Hi.
        destruct (i - length ks) as [|j] eqn:Ej; cbn in H.
        -- injection H as <-. left. f_equal. lia.
        -- destruct j; discriminate.
  - f_equal. rewrite firstn_all2 by (rewrite repeat_length; lia). apply resize_repeat. lia.
Qed.

(** The keys of a builder are those connected so far. *)
Definition built (st : split_builder * split_state) : Prop :=
  exists ts, split_wf (snd st) (sb_used (fst st)) ts.

Lemma output_for_ok ty sb sp k t ts :
  split_wf sp (sb_used sb) ts ->
  let '(sb', sp', e) := output_for ty sb sp k t in
  match e with
  | None => validate ty k = true /\ ~ In k (sb_used sb) /\ sb_last sb' = sb_last sb /\
            sb_used sb' = sb_used sb ++ [k] /\ split_wf sp' (sb_used sb') (ts ++ [t])
  | Some KeyOutOfBounds => validate ty k = false /\ sb' = sb /\ sp' = sp
  | Some KeyAlreadyUsed => In k (sb_used sb) /\ sb' = sb /\ sp' = sp
  end.
Proof.
  intros Hwf. unfold output_for. destruct (validate ty k) eqn:Ev; cbn [negb]; [|auto].
  destruct (existsb (skey_eqb k) (sb_used sb)) eqn:Eu.
  - split; [apply connected_in; exact Eu|auto].
  - assert (Hk : ~ In k (sb_used sb)) by (apply connected_false; exact Eu).
    cbn. split; [reflexivity|]. split; [exact Hk|]. split; [reflexivity|]. split; [reflexivity|].
    apply split_connect_wf; assumption.
Qed.

Lemma builder_next_ok ty fuel : forall sb sp t ts,
  split_wf sp (sb_used sb) ts ->
  let '(sb', sp', r) := builder_next fuel ty sb sp t in
  match r with
  | Some k => ~ In k (sb_used sb) /\ validate ty k = true /\ sb_used sb' = sb_used sb ++ [k] /\
              split_wf sp' (sb_used sb') (ts ++ [t])
  | None => sb_used sb' = sb_used sb /\ sp' = sp
  end.
Proof.
  induction fuel as [|fuel IH]; intros sb sp t ts Hwf; cbn [builder_next]; [auto|].
  destruct (next_key ty (sb_last sb)) as [k|]; [|auto].
  pose proof (output_for_ok ty (mk_sb (Some k) (sb_used sb)) sp k t ts Hwf) as H.
  destruct (output_for ty (mk_sb (Some k) (sb_used sb)) sp k t) as [[sb2 sp2] [[|]|]].
  - destruct H as (_ & -> & ->). apply (IH (mk_sb (Some k) (sb_used sb))). exact Hwf.
  - destruct H as (_ & -> & ->). auto.
  - destruct H as (H1 & H2 & _ & H3 & H4). cbn in *. auto.
Qed.

Lemma brun_wf ty ops : built (brun ty ops).
Proof.
  unfold brun. assert (H0 : built (mk_sb None [], split_new)).
  { exists []. unfold split_wf. cbn. split; [constructor|]. repeat split; intros; try tauto.
    destruct i; discriminate. }
  revert H0. generalize (mk_sb None [], split_new). induction ops as [|b ops IH]; intros st H; [exact H|].
  cbn [fold_left]. apply IH. destruct st as [sb sp]. destruct H as [ts Hts]. cbn [fst snd] in Hts.
  destruct b as [k t|t]; cbn [bstep].
  - pose proof (output_for_ok ty sb sp k t ts Hts) as H.
    destruct (output_for ty sb sp k t) as [[sb2 sp2] [[|]|]]; cbn [fst].
    + destruct H as (_ & -> & ->). exists ts. exact Hts.
    + destruct H as (_ & -> & ->). exists ts. exact Hts.
    + destruct H as (_ & _ & _ & _ & H). exists (ts ++ [t]). exact H.
  - pose proof (builder_next_ok ty (S (S (length (sb_used sb)))) sb sp t ts Hts) as H.
    destruct (builder_next (S (S (length (sb_used sb)))) ty sb sp t) as [[sb2 sp2] [k|]]; cbn [fst].
    + destruct H as (_ & _ & _ & H). exists (ts ++ [t]). exact H.
    + destruct H as (H & ->). exists ts. cbn. rewrite H. exact Hts.
Qed.

(** The iteration never stops for lack of turns: with [fuel] larger than the number of
    used keys, more fuel gives the same answer. *)
Lemma next_key_seq ty l k : next_key ty l = Some k -> exists j, seq_from l = Some j /\ k = KSequential j.
Proof.
  unfold next_key, seq_from. destruct l as [[?|i|]|].
  - destruct ty; discriminate.
  - destruct ty as [|m|]; intros H; try (injection H as <-; eauto).
    destruct (validate (SplitArray m) (KSequential (S i))); [injection H as <-; eauto|discriminate].
  - destruct ty; discriminate.
  - destruct ty as [|m|]; intros H; try (injection H as <-; eauto).
    destruct (validate (SplitArray m) (KSequential 0)); [injection H as <-; eauto|discriminate].
Qed.

Definition above (j : nat) (k : skey) : bool := match k with KSequential i => j <=? i | _ => false end.

Lemma filter_above_lt (l : list skey) j : In (KSequential j) l ->
  length (filter (above (S j)) l) < length (filter (above j) l).
Proof.
  assert (Hle : forall l : list skey, length (filter (above (S j)) l) <= length (filter (above j) l)).
  { induction l0 as [|k l0 IH]; [reflexivity|]. cbn [filter]. destruct k; cbn [above]; try exact IH.
    destruct (Nat.leb_spec (S j) i), (Nat.leb_spec j i); cbn [length]; lia. }
  induction l as [|k l IH]; intros H; [destruct H|]. cbn [filter]. destruct H as [->|H].
  - cbn [above]. destruct (Nat.leb_spec (S j) j); [lia|]. destruct (Nat.leb_spec j j); [|lia].
    cbn [length]. specialize (Hle l). lia.
  - specialize (IH H). destruct k; cbn [above]; try exact IH.
    destruct (Nat.leb_spec (S j) i), (Nat.leb_spec j i); cbn [length]; lia.
Qed.

Lemma builder_next_fuel ty fuel : forall sb sp t ts j,
  split_wf sp (sb_used sb) ts -> seq_from (sb_last sb) = Some j ->
  length (filter (above j) (sb_used sb)) < fuel ->
  forall more, builder_next (fuel + more) ty sb sp t = builder_next fuel ty sb sp t.
Proof.
  induction fuel as [|fuel IH]; intros sb sp t ts j Hwf Hj Hlt more; [lia|].
  cbn [Nat.add builder_next]. destruct (next_key ty (sb_last sb)) as [k|] eqn:Ek; [|reflexivity].
  destruct (next_key_seq _ _ _ Ek) as [j' [Hj' ->]]. assert (j' = j) as -> by congruence.
  pose proof (output_for_ok ty (mk_sb (Some (KSequential j)) (sb_used sb)) sp (KSequential j) t ts Hwf) as H.
  destruct (output_for ty (mk_sb (Some (KSequential j)) (sb_used sb)) sp (KSequential j) t) as [[sb2 sp2] [[|]|]];
    try reflexivity.
  destruct H as (Hin & -> & ->). cbn in Hin.
  eapply (IH (mk_sb (Some (KSequential j)) (sb_used sb)) sp t ts (S j)); [exact Hwf|reflexivity|].
  cbn [sb_used]. pose proof (filter_above_lt _ _ Hin). lia.
Qed.

Lemma builder_next_enough ty sb sp t ts more :
  split_wf sp (sb_used sb) ts ->
  builder_next (S (S (length (sb_used sb))) + more) ty sb sp t
  = builder_next (S (S (length (sb_used sb)))) ty sb sp t.
Proof.
  intros Hwf. destruct (seq_from (sb_last sb)) as [j|] eqn:Ej.
  - eapply builder_next_fuel; [exact Hwf|exact Ej|].
    pose proof (filter_length_le (above j) (sb_used sb)). lia.
  - cbn [Nat.add builder_next]. destruct (next_key ty (sb_last sb)) as [k|] eqn:Ek; [|reflexivity].
    destruct (next_key_seq _ _ _ Ek) as [j [Hj _]]. congruence.
Qed.

(** The iteration returns the least unused sequential key not yet passed. *)
Lemma builder_next_least ty fuel : forall sb sp t ts j sb' sp' k,
  split_wf sp (sb_used sb) ts -> seq_from (sb_last sb) = Some j ->
  builder_next fuel ty sb sp t = (sb', sp', Some k) ->
  exists i, k = KSequential i /\ j <= i /\ forall i', j <= i' < i -> In (KSequential i') (sb_used sb).
Proof.
  induction fuel as [|fuel IH]; intros sb sp t ts j sb' sp' k Hwf Hj H; cbn [builder_next] in H; [discriminate|].
  destruct (next_key ty (sb_last sb)) as [k0|] eqn:Ek; [|discriminate].
  destruct (next_key_seq _ _ _ Ek) as [j' [Hj' ->]]. assert (j' = j) as -> by congruence.
  pose proof (output_for_ok ty (mk_sb (Some (KSequential j)) (sb_used sb)) sp (KSequential j) t ts Hwf) as Ho.
  destruct (output_for ty (mk_sb (Some (KSequential j)) (sb_used sb)) sp (KSequential j) t) as [[sb2 sp2] [[|]|]].
  - destruct Ho as (Hin & -> & ->). cbn in Hin.
    destruct (IH (mk_sb (Some (KSequential j)) (sb_used sb)) sp t ts (S j) sb' sp' k Hwf eq_refl H) as [i [-> [Hle Hall]]].
    exists i. split; [reflexivity|]. split; [lia|]. intros i' Hi'.
    destruct (Nat.eq_dec i' j) as [->|]; [exact Hin|]. apply Hall. lia.
  - discriminate.
  - injection H as <- <- <-. exists j. split; [reflexivity|]. split; [lia|]. intros; lia.
Qed.

(** The same when the stop is noticed through a disposal elsewhere. *)
Lemma collect_notice min max t n o origin s sc :
  w_status (o_w o) s = Some Active -> receives (o_w o) t -> receives (o_w o) n ->
  o_scope o n = Some sc -> origin <> n ->
  let l := progress o n s in
  let o' := cstep min max t n o (CNotice origin s true (Some false)) in
  (min <= length l /\ batches o' t s = batches o t s ++ [l] /\ progress o' n s = [] /\
   notices o' = notices o /\ o_disp o' = o_disp o)
  \/ (length l < min /\ batches o' t s = batches o t s /\ progress o' n s = l /\
      notices o' = notices o ++ [mk_disposal sc n s] /\
      disposals o' n s = disposals o n s ++ [DDeficient n min (length l)]).
Proof.
  intros Hs Hrt Hrn Hsc Hne l o'.
  assert (HE : o' = fst (on_unreachable o n s t min (length l))).
  { unfold o', cstep, collect_disposal. destruct (Nat.eqb_spec n origin); [congruence|]. reflexivity. }
  rewrite HE. unfold on_unreachable.
  destruct (Nat.ltb_spec (length l) min) as [Hd|Hd].
  - right. split; [exact Hd|]. cbn [fst].
    destruct (emit_ok o n s (DDeficient n min (length l)) sc (receives_node _ _ Hrn) Hsc) as (D & W & _).
    split; [|split; [|split]].
    + unfold batches. rewrite pending_emit. reflexivity.
    + unfold progress at 1. rewrite coll_emit. reflexivity.
    + unfold notices. rewrite W. reflexivity.
    + unfold disposals. rewrite D, set2_eq. reflexivity.
  - left. split; [exact Hd|]. unfold res. cbn [fst].
    destruct (o_give_ok (set_progress o n s []) t s (VList l)) as [o3 [E3 (R & _ & _ & E)]];
      [exact Hs|left; exact Hrt|].
    fold l. rewrite E3. cbn [fst].
    assert (Pt3 : pending (o_w o3) t = pending (o_w o) t ++ [(s, VList l)]).
    { destruct (R t Hrt) as [_ ->]. unfold sent_to. cbn. rewrite Nat.eqb_refl. reflexivity. }
    split; [|split; [|split]].
    + rewrite (batches_app o o3 t s s l Pt3), Nat.eqb_refl. reflexivity.
    + unfold progress. rewrite E. cbn. rewrite Nat.eqb_refl. unfold emap_set. rewrite Nat.eqb_refl. reflexivity.
    + unfold notices. rewrite E. reflexivity.
    + rewrite E. reflexivity.
Qed.

Lemma validate_bounds ty k : validate ty k = true <-> in_bounds ty k.
Proof. destruct ty as [|n|], k as [k|i|]; cbn; try tauto. apply Nat.ltb_lt. Qed.

Lemma split_builder_calls ty sb sp k t ts :
  split_wf sp (sb_used sb) ts ->
  match output_for ty sb sp k t with
  | (sb', sp', None) => in_bounds ty k /\ ~ In k (sb_used sb) /\ split_wf sp' (sb_used sb ++ [k]) (ts ++ [t])
  | (sb', sp', Some KeyOutOfBounds) => ~ in_bounds ty k /\ sb' = sb /\ sp' = sp
  | (sb', sp', Some KeyAlreadyUsed) => In k (sb_used sb) /\ sb' = sb /\ sp' = sp
  end.
Proof.
  intros Hwf. pose proof (output_for_ok ty sb sp k t ts Hwf) as H.
  destruct (output_for ty sb sp k t) as [[sb' sp'] [[|]|]]; try exact H.
  - destruct H as (H1 & H2 & H3). split; [|auto]. rewrite <- validate_bounds. congruence.
  - destruct H as (H1 & H2 & _ & H3 & H4). rewrite H3 in H4. apply validate_bounds in H1. auto.
Qed.

(** Every element with a destination is planned for exactly one key. *)
Lemma plan_once (ks : list skey) p : NoDup ks ->
  (forall k v, In (Some k, v) p -> In k ks) ->
  Permutation (concat (map (fun k => planned k p) ks))
    (map snd (filter (fun e : option skey * val => match fst e with Some _ => true | None => false end) p)).
Proof.
  intros Hnd. induction p as [|[[k|] v] p IH]; intros Hin.
  - cbn. clear. induction ks as [|k ks IH]; [constructor|exact IH].
  - cbn [filter fst map snd].
    rewrite <- IH by (intros; eapply Hin; right; eassumption).
    assert (Hk : In k ks) by (eapply Hin; left; reflexivity).
    clear IH Hin. induction ks as [|k0 ks IHk]; [destruct Hk|].
    inversion Hnd as [|x l Hn1 Hn2]; subst. cbn [map concat].
    destruct (skey_eqb_spec k0 k) as [->|Hne].
    + assert (E1 : planned k ((Some k, v) :: p) = v :: planned k p)
        by (unfold planned; cbn [filter fst]; rewrite skey_eqb_refl; reflexivity).
      rewrite E1. cbn [app]. constructor. apply Permutation_app_head.
      erewrite map_ext_in; [reflexivity|]. intros k' Hk'. unfold planned. cbn [filter fst].
      destruct (skey_eqb_spec k' k) as [->|]; [contradiction|reflexivity].
    + destruct Hk as [Hk|Hk]; [congruence|].
      assert (E1 : planned k0 ((Some k, v) :: p) = planned k0 p).
      { unfold planned. cbn [filter fst]. destruct (skey_eqb_spec k0 k); [congruence|reflexivity]. }
      rewrite E1, (IHk Hn2 Hk). rewrite <- Permutation_middle. reflexivity.
  - cbn [filter fst]. rewrite <- IH by (intros; eapply Hin; right; eassumption). reflexivity.
Qed.

Lemma list_plan_once ks l : NoDup ks ->
  Permutation (concat (map (fun k => planned k (list_plan (connected ks) l)) ks))
    (map snd (filter (fun e : option skey * val => match fst e with Some _ => true | None => false end)
                (list_plan (connected ks) l))).
Proof.
  intros Hnd. apply plan_once; [exact Hnd|]. intros k v H. unfold list_plan in H.
  apply in_map_iff in H. destruct H as [i [H _]]. injection H as H _. unfold list_dest in H.
  destruct (connected ks (KSequential i)) eqn:E1; [injection H as <-; apply connected_in; exact E1|].
  destruct (connected ks KRemaining) eqn:E2; [injection H as <-; apply connected_in; exact E2|discriminate].
Qed.

Lemma map_plan_once ks es : NoDup ks ->
  Permutation (concat (map (fun k => planned k (map_plan (connected ks) es)) ks))
    (map snd (filter (fun e : option skey * val => match fst e with Some _ => true | None => false end)
                (map_plan (connected ks) es))).
Proof.
  intros Hnd. apply plan_once; [exact Hnd|]. intros k v H. unfold map_plan in H.
  apply in_map_iff in H. destruct H as [i [H _]]. injection H as H _. unfold map_dest in H.
  destruct (connected ks (KSpecific _)) eqn:E0; [injection H as <-; apply connected_in; exact E0|].
  destruct (connected ks (KSequential _)) eqn:E1; [injection H as <-; apply connected_in; exact E1|].
  destruct (connected ks KRemaining) eqn:E2; [injection H as <-; apply connected_in; exact E2|discriminate].
Qed.

Lemma fork_clone_none n o s v rest :
  pending (o_w o) n = (s, v) :: rest -> snd (fork_clone_execute [] n o) = OpPanic.
Proof.
  intros Hp. unfold fork_clone_execute, with_input.
  destruct (o_take_ok o n s v rest Hp) as [o1 [E1 _]]. rewrite E1. reflexivity.
Qed.

Lemma branch_ok n o s v ta tb rest sc act x used unused :
  pending (o_w o) n = (s, v) :: rest -> w_status (o_w o) s = Some Active ->
  accepts (o_w o) ta -> accepts (o_w o) tb -> o_scope o n = Some sc ->
  (act = branch_result /\ ((v = VOk x /\ used = ta /\ unused = tb) \/ (v = VErr x /\ used = tb /\ unused = ta))
   \/ act = branch_option /\ ((v = VSome x /\ used = ta /\ unused = tb)
                              \/ (v = VNone /\ x = VUnit /\ used = tb /\ unused = ta))) ->
  let o' := fst (branching_execute act [ta; tb] n o) in
  snd (branching_execute act [ta; tb] n o) = OpOk /\
  (forall m, receives (o_w o) m ->
     pending (o_w o') m
     = (if Nat.eqb m n then rest else pending (o_w o) m) ++ (if Nat.eqb m used then [(s, x)] else [])) /\
  queued o' = queued o ++ [used] /\ notices o' = notices o ++ [mk_disposal sc n s] /\
  (forall n' s', o_disp o' n' s'
     = o_disp o n' s' ++ if Nat.eqb n' n && Nat.eqb s' s then [DBranching n unused] else []).
Proof.
  intros Hp Hs Ha Hb Hsc [[-> [(-> & -> & ->)|(-> & -> & ->)]]|[-> [(-> & -> & ->)|(-> & -> & -> & ->)]]].
  - eapply branching_first; eauto.
  - eapply branching_second; eauto.
  - eapply branching_first; eauto.
  - eapply branching_second; eauto.
Qed.

Lemma split_next_ok ty sb sp t ts j :
  split_wf sp (sb_used sb) ts -> seq_from (sb_last sb) = Some j ->
  (forall more, builder_next (S (S (length (sb_used sb))) + more) ty sb sp t
                = builder_next (S (S (length (sb_used sb)))) ty sb sp t) /\
  (forall sb' sp' k, builder_next (S (S (length (sb_used sb)))) ty sb sp t = (sb', sp', Some k) ->
     exists i, k = KSequential i /\ j <= i /\ ~ In k (sb_used sb) /\
               forall i', j <= i' < i -> In (KSequential i') (sb_used sb)).
Proof.
  intros Hwf Hj. split.
  - intros more. eapply builder_next_enough; eassumption.
  - intros sb' sp' k H. pose proof (builder_next_ok ty (S (S (length (sb_used sb)))) sb sp t ts Hwf) as H1.
    rewrite H in H1. destruct H1 as [H1 _].
    destruct (builder_next_least _ _ _ _ _ _ _ _ _ _ Hwf Hj H) as (i & H2 & H3 & H4).
    exists i. auto.
Qed.

Lemma plans_once ks l es : NoDup ks ->
  Permutation (concat (map (fun k => planned k (list_plan (connected ks) l)) ks))
    (map snd (filter (fun e : option skey * val => match fst e with Some _ => true | None => false end)
                (list_plan (connected ks) l))) /\
  Permutation (concat (map (fun k => planned k (map_plan (connected ks) es)) ks))
    (map snd (filter (fun e : option skey * val => match fst e with Some _ => true | None => false end)
                (map_plan (connected ks) es))).
Proof. intros H. split; [apply list_plan_once|apply map_plan_once]; exact H. Qed.
