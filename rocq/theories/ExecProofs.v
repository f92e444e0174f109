(** What the single steps of ExecModel do to the messages, the queue, the notices and the
    cancellations. *)
From Verif Require Import Base RosterModel BufferModel InputModel InputSpec InputProofs GateModel
  OpsModel OpsSpec OpsProofs ReachModel ExecModel ExecSpec.

Notation queue o := (r_queue (w_roster (o_w o))) (only parsing).
Notation told o := (r_disposed (w_roster (o_w o))) (only parsing).
Notation asked o := (r_cancel (w_roster (o_w o))) (only parsing).

Definition unused (f : workflow) (t : entity) : bool :=
  match f_kind f t with Some OUnused => true | _ => false end.

(** The components of the nodes are those their kinds have. *)
Definition shaped (f : workflow) (o : oworld) : Prop :=
  (forall n, match f_kind f n with
             | None => w_nodes (o_w o) n = None
             | Some OUnused => exists nd, w_nodes (o_w o) n = Some nd /\ n_inputs nd = None /\ n_unused nd = true
             | Some _ => exists nd q, w_nodes (o_w o) n = Some nd /\ n_inputs nd = Some q /\ n_buffer nd = None
             end) /\
  (forall n, o_scope o n = match f_kind f n with Some OUnused | None => None | Some _ => Some (f_scope f) end).

(** The messages which do not go to an unconnected output. *)
Definition live (f : workflow) (ms : list (entity * val)) : list (entity * val) :=
  filter (fun p => negb (unused f (fst p))) ms.

(** From [o] to [o'], messages [ms] of session [s] were sent, notices [ns] and cancellations
    [cs] were issued, and [n] (if given) took its first message. *)
Record change (f : workflow) (o o' : oworld) (s : entity) (ms : list (entity * val))
    (ns : list disposal_notice) (cs : list cancel_req) : Prop := mk_change {
  ch_pending : forall m, pending (o_w o') m = pending (o_w o) m ++ map (pair s) (sent_to m (live f ms));
  ch_status : w_status (o_w o') = w_status (o_w o);
  ch_queue : queue o' = queue o ++ map fst ms;
  ch_told : told o' = told o ++ ns;
  ch_asked : asked o' = asked o ++ cs;
  ch_shaped : shaped f o'
}.

Lemma live_app f a b : live f (a ++ b) = live f a ++ live f b.
Proof. apply filter_app. Qed.

Lemma change_refl f o s : shaped f o -> change f o o s [] [] [].
Proof. intros H. split; cbn; intros; rewrite ?app_nil_r; auto. Qed.

Lemma change_trans f o1 o2 o3 s m1 m2 n1 n2 c1 c2 :
  change f o1 o2 s m1 n1 c1 -> change f o2 o3 s m2 n2 c2 ->
  change f o1 o3 s (m1 ++ m2) (n1 ++ n2) (c1 ++ c2).
Proof.
  intros [P1 S1 Q1 T1 A1 H1] [P2 S2 Q2 T2 A2 H2]. split.
  - intros m. rewrite P2, P1, live_app, sent_to_app, map_app, app_assoc. reflexivity.
  - congruence.
  - rewrite Q2, Q1, map_app, app_assoc. reflexivity.
  - rewrite T2, T1, app_assoc. reflexivity.
  - rewrite A2, A1, app_assoc. reflexivity.
  - exact H2.
Qed.

Lemma give_change f o t s v :
  shaped f o -> w_status (o_w o) s = Some Active -> f_kind f t <> None ->
  exists o', o_give o t s v = (o', true) /\ change f o o' s [(t, v)] [] [] /\ o_coll o' = o_coll o.
Proof.
  intros [Hn Hsc] Hs Ht. pose proof (Hn t) as Hk. unfold o_give, give_input, sneak_input.
  rewrite Hs. cbn [andb negb].
  destruct (f_kind f t) as [k|] eqn:Ek; [|congruence].
  destruct (unused f t) eqn:Eu; unfold unused in Eu; rewrite Ek in Eu.
  - destruct k; try discriminate. destruct Hk as [nd [-> [-> ->]]].
    eexists. split; [reflexivity|]. split; [|reflexivity]. split; cbn.
    + intros m. unfold unused. rewrite Ek. cbn. rewrite app_nil_r. reflexivity.
    + reflexivity.
    + reflexivity.
    + rewrite app_nil_r. reflexivity.
    + rewrite app_nil_r. reflexivity.
    + split; assumption.
  - assert (Hk' : exists nd q, w_nodes (o_w o) t = Some nd /\ n_inputs nd = Some q /\ n_buffer nd = None)
      by (destruct k; try discriminate; exact Hk).
    destruct Hk' as [nd [q [En [Eq Eb]]]]. rewrite En, Eq.
    eexists. split; [reflexivity|]. split; [|reflexivity].
    assert (Eu' : unused f t = false) by (unfold unused; rewrite Ek; exact Eu).
    split; cbn -[emap_set].
    + intros m. rewrite Eu'. cbn -[emap_set]. unfold sent_to. cbn [filter fst].
      rewrite !pending_node. cbn -[emap_set].
      destruct (Nat.eq_dec m t) as [->|Hne].
      * rewrite emap_set_eq, En, Eq, Nat.eqb_refl. reflexivity.
      * rewrite emap_set_neq by assumption. destruct (Nat.eqb_spec t m); [congruence|].
        cbn. rewrite app_nil_r. reflexivity.
    + reflexivity.
    + reflexivity.
    + rewrite app_nil_r. reflexivity.
    + rewrite app_nil_r. reflexivity.
    + split; [|exact Hsc]. intros n. cbn -[emap_set]. destruct (Nat.eq_dec n t) as [->|Hne].
      * rewrite emap_set_eq, Ek. destruct k; try discriminate Eu; (eexists _, _; split; [reflexivity|split; [reflexivity|cbn; exact Eb]]).
      * rewrite emap_set_neq by assumption. apply Hn.
Qed.

(** A session which is not running receives nothing. *)
Lemma give_dead f o t s v :
  shaped f o -> w_status (o_w o) s <> Some Active -> f_kind f t <> None ->
  o_give o t s v = (o, true).
Proof.
  intros [Hn _] Hs Ht. pose proof (Hn t) as Hk. unfold o_give, give_input, sneak_input.
  assert (E : (match w_status (o_w o) s with Some Active => true | _ => false end) = false)
    by (destruct (w_status (o_w o) s) as [[|]|]; congruence).
  assert (En : w_nodes (o_w o) t <> None).
  { destruct (f_kind f t) as [k|]; [|congruence].
    destruct k; (destruct Hk as [nd [q [-> _]]]; discriminate) || (destruct Hk as [nd [-> _]]; discriminate). }
  destruct (w_nodes (o_w o) t) as [nd|]; [|congruence]. rewrite E. cbn. rewrite with_w_id. reflexivity.
Qed.

Lemma give_all_change f s : forall l o,
  shaped f o -> w_status (o_w o) s = Some Active -> (forall t, In t (map fst l) -> f_kind f t <> None) ->
  exists o', o_give_all o s l = (o', true) /\ change f o o' s l [] [] /\ o_coll o' = o_coll o.
Proof.
  induction l as [|[t v] l IH]; intros o Ho Hs Hl; cbn [o_give_all].
  - exists o. split; [reflexivity|]. split; [apply change_refl, Ho|reflexivity].
  - destruct (give_change f o t s v Ho Hs (Hl t (or_introl eq_refl))) as [o1 [-> [C1 K1]]].
    destruct (IH o1 (ch_shaped _ _ _ _ _ _ _ C1)) as [o2 [-> [C2 K2]]].
    { rewrite (ch_status _ _ _ _ _ _ _ C1). exact Hs. }
    { intros t' Ht'. apply Hl. right. exact Ht'. }
    exists o2. split; [reflexivity|]. split; [|congruence].
    exact (change_trans f _ _ _ s [(t, v)] l [] [] [] [] C1 C2).
Qed.

Lemma unzip_as_all f s : forall l o,
  shaped f o -> w_status (o_w o) s = Some Active -> (forall t, In t (map fst l) -> f_kind f t <> None) ->
  unzip_distribute o s l = o_give_all o s l.
Proof.
  induction l as [|[t v] l IH]; intros o Ho Hs Hl; cbn [o_give_all unzip_distribute]; [reflexivity|].
  destruct (give_change f o t s v Ho Hs (Hl t (or_introl eq_refl))) as [o1 [-> [C1 K1]]].
  assert (En : w_nodes (o_w o) t <> None).
  { pose proof (proj1 Ho t) as Hk. specialize (Hl t (or_introl eq_refl)).
    destruct (f_kind f t) as [k|]; [|congruence].
    destruct k; (destruct Hk as [nd [q [-> _]]]; discriminate) || (destruct Hk as [nd [-> _]]; discriminate). }
  destruct (w_nodes (o_w o) t); [|congruence]. apply IH.
  - exact (ch_shaped _ _ _ _ _ _ _ C1).
  - rewrite (ch_status _ _ _ _ _ _ _ C1). exact Hs.
  - intros t' Ht'. apply Hl. right. exact Ht'.
Qed.

(** A node with a kind of its own. *)
Definition working (f : workflow) (n : entity) : Prop := f_kind f n <> None /\ f_kind f n <> Some OUnused.

Lemma working_node f o n : shaped f o -> working f n ->
  exists nd q, w_nodes (o_w o) n = Some nd /\ n_inputs nd = Some q /\ n_buffer nd = None.
Proof.
  intros [Hn _] [H1 H2]. specialize (Hn n). destruct (f_kind f n) as [k|]; [|congruence].
  destruct k; try exact Hn. congruence.
Qed.

Lemma emit_change f o n s d : shaped f o -> working f n ->
  change f o (emit_disposal o n s d) s [] [mk_disposal (f_scope f) n s] [] /\
  o_coll (emit_disposal o n s d) = o_coll o.
Proof.
  intros Ho Hw. destruct (working_node f o n Ho Hw) as [nd [q [En _]]]. pose proof Ho as [Hn Hsc].
  assert (Es : o_scope o n = Some (f_scope f)).
  { rewrite Hsc. destruct Hw as [H1 H2]. destruct (f_kind f n) as [k|]; [|congruence]. destruct k; congruence. }
  unfold emit_disposal. rewrite En, Es. split; [|reflexivity]. split; cbn.
  - intros m. rewrite app_nil_r. reflexivity.
  - reflexivity.
  - rewrite app_nil_r. reflexivity.
  - reflexivity.
  - rewrite app_nil_r. reflexivity.
  - split; assumption.
Qed.

Lemma ask_change f o n s s' c : shaped f o ->
  change f o (ask_cancel f o n s c) s' [] [] [mk_cancel n (f_scope f) s c].
Proof.
  intros Ho. split; cbn; intros; rewrite ?app_nil_r; try reflexivity. exact Ho.
Qed.

(** [o'] is [o] after [n] took its first message, if there is one. *)
Record pulled (f : workflow) (o o' : oworld) (n : entity) : Prop := mk_pulled {
  pu_pending : forall m, pending (o_w o') m = after_take (o_w o) n m;
  pu_status : w_status (o_w o') = w_status (o_w o);
  pu_roster : w_roster (o_w o') = w_roster (o_w o);
  pu_coll : o_coll o' = o_coll o;
  pu_shaped : shaped f o'
}.

Lemma take_pulled f o n : shaped f o -> working f n ->
  exists o', pulled f o o' n /\
    o_take o n = (o', match pending (o_w o) n with [] => NotReady | i :: _ => Took i end).
Proof.
  intros Ho Hw. destruct (working_node f o n Ho Hw) as [nd [q [En [Eq Eb]]]]. pose proof Ho as [Hn Hsc].
  rewrite pending_node, En, Eq. unfold o_take, take_input. rewrite En, Eq.
  destruct (rev_case q) as [->|[q' [i ->]]].
  - cbn [pop_last rev]. eexists. split; [|reflexivity]. split; cbn -[emap_set].
    + intros m. unfold after_take. rewrite !pending_node. cbn -[emap_set].
      destruct (Nat.eqb_spec m n) as [->|Hne].
      * rewrite emap_set_eq, En, Eq. reflexivity.
      * rewrite emap_set_neq by assumption. reflexivity.
    + reflexivity.
    + reflexivity.
    + reflexivity.
    + split; [|exact Hsc]. intros m. cbn -[emap_set]. destruct (Nat.eq_dec m n) as [->|Hne].
      * rewrite emap_set_eq. destruct Hw as [H1 H2]. destruct (f_kind f n) as [k|]; [|congruence].
        destruct k; try congruence; (eexists _, _; split; [reflexivity|split; [reflexivity|cbn; exact Eb]]).
      * rewrite emap_set_neq by assumption. apply Hn.
  - rewrite pop_last_app, rev_app_distr. cbn [rev app]. eexists. split; [|reflexivity].
    split; cbn -[emap_set].
    + intros m. unfold after_take. rewrite !pending_node. cbn -[emap_set].
      destruct (Nat.eqb_spec m n) as [->|Hne].
      * rewrite emap_set_eq, En, Eq. cbn [n_inputs]. rewrite rev_app_distr. reflexivity.
      * rewrite emap_set_neq by assumption. reflexivity.
    + reflexivity.
    + reflexivity.
    + reflexivity.
    + split; [|exact Hsc]. intros m. cbn -[emap_set]. destruct (Nat.eq_dec m n) as [->|Hne].
      * rewrite emap_set_eq. destruct Hw as [H1 H2]. destruct (f_kind f n) as [k|]; [|congruence].
        destruct k; try congruence; (eexists _, _; split; [reflexivity|split; [reflexivity|cbn; exact Eb]]).
      * rewrite emap_set_neq by assumption. apply Hn.
Qed.

(** [n] took a message of session [s] and sent [ms], with notices and cancellations. *)
Record did (f : workflow) (o o' : oworld) (n s : entity) (ms : list (entity * val))
    (ns : list disposal_notice) (cs : list cancel_req) : Prop := mk_did {
  di_pending : forall m, pending (o_w o') m = after_take (o_w o) n m ++ map (pair s) (sent_to m (live f ms));
  di_status : w_status (o_w o') = w_status (o_w o);
  di_queue : queue o' = queue o ++ map fst ms;
  di_told : told o' = told o ++ ns;
  di_asked : asked o' = asked o ++ cs;
  di_shaped : shaped f o'
}.

Lemma pulled_change f o o1 o' n s ms ns cs :
  pulled f o o1 n -> change f o1 o' s ms ns cs -> did f o o' n s ms ns cs.
Proof.
  intros [P1 S1 R1 K1 H1] [P S Q T A H]. split.
  - intros m. rewrite P, P1. reflexivity.
  - congruence.
  - rewrite Q, R1. reflexivity.
  - rewrite T, R1. reflexivity.
  - rewrite A, R1. reflexivity.
  - exact H.
Qed.

Definition notice_of (f : workflow) (n s : entity) := mk_disposal (f_scope f) n s.

Lemma reacts_working k v r : reacts k v = Some r -> k <> OUnused /\ k <> OTerminate.
Proof. intros H. split; intros ->; discriminate. Qed.

(** The effect of the nodes which react to one message. *)
Definition reacted (f : workflow) (k : okind) (n s : entity) (o : oworld) (r : reaction) : Prop :=
  match r with
  | Sends ms dropped =>
      exists o' ns, op_execute f k n o = (o', OpOk) /\ did f o o' n s ms ns [] /\
        Forall (eq (notice_of f n s)) ns /\ (dropped = true <-> ns <> []) /\ o_coll o' = o_coll o
  | Cancels =>
      exists o' c, op_execute f k n o = (o', OpOk) /\
        did f o o' n s [] [] [mk_cancel n (f_scope f) (Some s) c] /\
        (c = cause_triggered \/ c = cause_filtered) /\ o_coll o' = o_coll o
  | Breaks =>
      exists o', op_execute f k n o = (o', OpBroken) /\ did f o o' n s [] [] [] /\ o_coll o' = o_coll o
  end.

Lemma branch_to_change f o n s t a :
  shaped f o -> working f n -> w_status (o_w o) s = Some Active -> f_kind f t <> None ->
  exists o' ns, branch_to o n s t a = (o', true) /\ change f o o' s (to_target t a) ns [] /\
    Forall (eq (notice_of f n s)) ns /\ (none a = true <-> ns <> []) /\ o_coll o' = o_coll o.
Proof.
  intros Ho Hw Hs Ht. unfold branch_to.
  assert (En : w_nodes (o_w o) t <> None).
  { pose proof (proj1 Ho t) as Hk.
    destruct (f_kind f t) as [k|]; [|congruence].
    destruct k; (destruct Hk as [nd [q [-> _]]]; discriminate) || (destruct Hk as [nd [-> _]]; discriminate). }
  destruct (w_nodes (o_w o) t); [|congruence]. destruct a as [v|].
  - destruct (give_change f o t s v Ho Hs Ht) as [o' [-> [C K]]]. exists o', [].
    repeat split; auto; try apply C; try (intros; discriminate).
  - destruct (emit_change f o n s (DBranching n t) Ho Hw) as [C K].
    eexists _, _. split; [reflexivity|]. split; [exact C|]. split; [repeat constructor|].
    split; [|exact K]. split; [discriminate|reflexivity].
Qed.

Lemma fork_clone_react f ts n o s v rest :
  shaped f o -> working f n -> ts <> [] -> (forall t, In t ts -> f_kind f t <> None) ->
  pending (o_w o) n = (s, v) :: rest -> w_status (o_w o) s = Some Active ->
  exists o', fork_clone_execute ts n o = (o', OpOk) /\ did f o o' n s (map (fun t => (t, v)) ts) [] [] /\
    o_coll o' = o_coll o.
Proof.
  intros Ho Hw Hne Hts Hp Hs. unfold fork_clone_execute, with_input.
  destruct (take_pulled f o n Ho Hw) as [o1 [P E]]. rewrite E, Hp. cbn [fst snd].
  assert (Hs1 : w_status (o_w o1) s = Some Active) by (rewrite (pu_status _ _ _ _ P); exact Hs).
  destruct (removelast_last ts Hne) as [x [El Ets]]. rewrite El.
  destruct (give_all_change f s (map (fun t => (t, v)) (removelast ts)) o1 (pu_shaped _ _ _ _ P) Hs1)
    as [o2 [-> [C2 K2]]].
  { intros t Ht. rewrite map_map in Ht. cbn in Ht. rewrite map_id in Ht. apply Hts. rewrite Ets.
    apply in_or_app. auto. }
  destruct (give_change f o2 x s v (ch_shaped _ _ _ _ _ _ _ C2)) as [o3 [-> [C3 K3]]].
  { rewrite (ch_status _ _ _ _ _ _ _ C2). exact Hs1. }
  { apply Hts. rewrite Ets. apply in_or_app. right. left. reflexivity. }
  destruct ts as [|t0 ts0]; [congruence|]. exists o3. split; [reflexivity|]. split.
  - rewrite Ets, map_app. cbn [map].
    exact (pulled_change _ _ _ _ _ _ _ _ _ P (change_trans f _ _ _ s _ _ [] [] [] [] C2 C3)).
  - rewrite K3, K2. exact (pu_coll _ _ _ _ P).
Qed.

Lemma react_ok f k n o s v rest r :
  built f -> shaped f o -> f_kind f n = Some k -> reacts k v = Some r ->
  pending (o_w o) n = (s, v) :: rest -> w_status (o_w o) s = Some Active ->
  reacted f k n s o r.
Proof.
  intros (_ & Hnodes & Htgt & _ & _ & Hfork & _) Ho Hk Hr Hp Hs.
  assert (Hw : working f n).
  { destruct (reacts_working _ _ _ Hr). split; rewrite Hk; congruence. }
  assert (Ht : forall t, In t (targets_of k) -> f_kind f t <> None).
  { intros t Ht. apply Hnodes. apply (Htgt n). unfold node_targets. rewrite Hk. exact Ht. }
  destruct (take_pulled f o n Ho Hw) as [o1 [P E]]. rewrite Hp in E.
  assert (Hs1 : w_status (o_w o1) s = Some Active) by (rewrite (pu_status _ _ _ _ P); exact Hs).
  pose proof (pu_shaped _ _ _ _ P) as Ho1. pose proof (pu_coll _ _ _ _ P) as K1.
  destruct k as [g t|ts|ts|act ta tb|t|g t|g t|min max t| | |]; cbn [reacts] in Hr; cbn [targets_of] in Ht.
  - injection Hr as <-. destruct (give_change f o1 t s (g v) Ho1 Hs1 (Ht t (or_introl eq_refl))) as [o2 [E2 [C2 K2]]].
    exists o2, []. cbn [op_execute]. unfold map_execute, with_input. rewrite E, E2. cbn [res fst snd].
    split; [reflexivity|]. split; [exact (pulled_change _ _ _ _ _ _ _ _ _ P C2)|]. split; [constructor|].
    split; [split; [discriminate|congruence]|congruence].
  - injection Hr as <-.
    destruct (fork_clone_react f ts n o s v rest Ho Hw) as [o2 [E2 [D K2]]]; auto.
    { intros ->. exact (Hfork n Hk). }
    exists o2, []. cbn [op_execute]. split; [exact E2|]. split; [exact D|]. split; [constructor|].
    split; [split; [discriminate|congruence]|exact K2].
  - cbn [op_execute]. unfold reacted. cbn [op_execute].
    destruct v as [|a|vs|v'|v'|v'| |l]; try (injection Hr as <-; unfold unzip_execute, with_input, fits;
      rewrite Hp, E; exists o1; split; [reflexivity|]; split;
      [exact (pulled_change _ _ _ _ _ _ _ _ _ P (change_refl _ _ s Ho1))|exact K1]).
    unfold fits. rewrite Hp. destruct (Nat.eqb_spec (length vs) (length ts)) as [Hl|Hl].
    + injection Hr as <-. unfold unzip_execute, with_input. rewrite E.
      destruct (Nat.ltb_spec (length ts) (length vs)); [lia|].
      assert (Hc : forall t, In t (map fst (combine ts vs)) -> f_kind f t <> None).
      { intros t Hin. apply in_map_iff in Hin. destruct Hin as [[t' v'] [<- Hin]]. cbn.
        apply Ht. eapply in_combine_l. exact Hin. }
      rewrite (unzip_as_all f s (combine ts vs) o1 Ho1 Hs1 Hc).
      destruct (give_all_change f s (combine ts vs) o1 Ho1 Hs1 Hc) as [o2 [-> [C2 K2]]].
      exists o2, []. split; [reflexivity|]. split; [exact (pulled_change _ _ _ _ _ _ _ _ _ P C2)|].
      split; [constructor|]. split; [split; [discriminate|congruence]|congruence].
    + injection Hr as <-. rewrite E. exists o1. split; [reflexivity|]. split;
      [exact (pulled_change _ _ _ _ _ _ _ _ _ P (change_refl _ _ s Ho1))|exact K1].
  - destruct (act v) as [[a b]|] eqn:Ea; injection Hr as <-; unfold reacted; cbn [op_execute];
      unfold branching_execute, with_input; rewrite E, Ea; cbn [nth_error].
    + destruct (branch_to_change f o1 n s ta a Ho1 Hw Hs1 (Ht ta (or_introl eq_refl)))
        as [o2 [ns1 [-> [C1 [F1 [D1 K2]]]]]].
      destruct (branch_to_change f o2 n s tb b (ch_shaped _ _ _ _ _ _ _ C1) Hw)
        as [o3 [ns2 [-> [C2 [F2 [D2 K3]]]]]].
      { rewrite (ch_status _ _ _ _ _ _ _ C1). exact Hs1. }
      { apply Ht. right. left. reflexivity. }
      exists o3, (ns1 ++ ns2). split; [reflexivity|]. split.
      { exact (pulled_change _ _ _ _ _ _ _ _ _ P (change_trans f _ _ _ s _ _ _ _ [] [] C1 C2)). }
      split; [apply Forall_app; auto|]. split; [|congruence].
      rewrite Bool.orb_true_iff, D1, D2. destruct ns1, ns2; cbn; intuition congruence.
    + exists o1. split; [reflexivity|]. split;
      [exact (pulled_change _ _ _ _ _ _ _ _ _ P (change_refl _ _ s Ho1))|exact K1].
  - unfold reacted. destruct v as [|a|vs|v'|v'|v'| |l]; try (injection Hr as <-; cbn [op_execute];
      unfold spread_execute, with_input;
      rewrite E; exists o1; split; [reflexivity|]; split;
      [exact (pulled_change _ _ _ _ _ _ _ _ _ P (change_refl _ _ s Ho1))|exact K1]).
    injection Hr as <-. cbn [op_execute]. unfold spread_execute, with_input. rewrite E.
    assert (En : w_nodes (o_w o1) t <> None).
    { pose proof (proj1 Ho1 t) as Hkt. specialize (Ht t (or_introl eq_refl)).
      destruct (f_kind f t) as [kt|]; [|congruence].
      destruct kt; (destruct Hkt as [nd [q [-> _]]]; discriminate) || (destruct Hkt as [nd [-> _]]; discriminate). }
    destruct (w_nodes (o_w o1) t); [|congruence].
    destruct (give_all_change f s (map (fun x => (t, x)) l) o1 Ho1 Hs1) as [o2 [-> [C2 K2]]].
    { intros t' Hin. rewrite map_map in Hin. apply in_map_iff in Hin. destruct Hin as [x [<- _]]. apply Ht.
      left. reflexivity. }
    destruct l as [|x l].
    + destruct (emit_change f o2 n s (DEmptySpread n) (ch_shaped _ _ _ _ _ _ _ C2) Hw) as [C3 K3].
      eexists _, _. split; [reflexivity|]. split.
      { exact (pulled_change _ _ _ _ _ _ _ _ _ P (change_trans f _ _ _ s _ _ _ _ [] [] C2 C3)). }
      split; [repeat constructor|]. split; [split; [discriminate|reflexivity]|congruence].
    + exists o2, []. split; [reflexivity|]. split; [exact (pulled_change _ _ _ _ _ _ _ _ _ P C2)|].
      split; [constructor|]. split; [split; [discriminate|congruence]|congruence].
  - destruct (g v) as [y|] eqn:Eg; injection Hr as <-; unfold reacted; cbn [op_execute];
      unfold filter_execute, with_input; rewrite E, Eg.
    + destruct (give_change f o1 t s y Ho1 Hs1 (Ht t (or_introl eq_refl))) as [o2 [-> [C2 K2]]].
      exists o2, []. split; [reflexivity|]. split; [exact (pulled_change _ _ _ _ _ _ _ _ _ P C2)|].
      split; [constructor|]. split; [split; [discriminate|congruence]|congruence].
    + destruct (emit_change f o1 n s (DFiltered n) Ho1 Hw) as [C3 K3].
      eexists _, _. split; [reflexivity|]. split; [exact (pulled_change _ _ _ _ _ _ _ _ _ P C3)|].
      split; [repeat constructor|]. split; [split; [discriminate|reflexivity]|congruence].
  - destruct (g v) as [y|] eqn:Eg; injection Hr as <-; unfold reacted; cbn [op_execute];
      unfold cancel_filter_execute, with_input; rewrite E, Eg.
    + destruct (give_change f o1 t s y Ho1 Hs1 (Ht t (or_introl eq_refl))) as [o2 [-> [C2 K2]]].
      exists o2, []. split; [reflexivity|]. split; [exact (pulled_change _ _ _ _ _ _ _ _ _ P C2)|].
      split; [constructor|]. split; [split; [discriminate|congruence]|congruence].
    + eexists _, _. split; [reflexivity|]. split.
      { exact (pulled_change _ _ _ _ _ _ _ _ _ P (ask_change f o1 n (Some s) s cause_filtered Ho1)). }
      split; [auto|]. exact K1.
  - discriminate.
  - injection Hr as <-. unfold reacted. cbn [op_execute]. unfold cancel_execute. rewrite E.
    eexists _, _. split; [reflexivity|]. split.
    { exact (pulled_change _ _ _ _ _ _ _ _ _ P (ask_change f o1 n (Some s) s cause_triggered Ho1)). }
    split; [auto|]. exact K1.
  - discriminate.
  - discriminate.
Qed.
