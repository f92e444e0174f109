(** Lemmas about building workflows. *)
From Verif Require Import Base ConnectModel ConnectSpec.

Lemma has_In l e : has l e = true <-> In e l.
Proof.
  unfold has. rewrite existsb_exists. split.
  - intros [x [H E]]. apply Nat.eqb_eq in E. subst. exact H.
  - intros H. exists e. split; [exact H|apply Nat.eqb_refl].
Qed.
Lemma without_In l e x : In x (without l e) <-> In x l /\ x <> e.
Proof.
  unfold without. rewrite filter_In. rewrite Bool.negb_true_iff, Nat.eqb_neq. tauto.
Qed.
Lemma without_NoDup l e : NoDup l -> NoDup (without l e).
Proof. apply NoDup_filter. Qed.

(** ** The loop of the connection *)
Definition add_all (l : list entity) (i : option (list entity)) : option (list entity) :=
  fold_left (fun i m => add_to m i) l i.

Definition members (i : option (list entity)) : list entity := match i with Some l => l | None => [] end.

Lemma add_input_In m l x : In x (add_input m l) <-> In x l \/ x = m.
Proof.
  unfold add_input. destruct (existsb (Nat.eqb m) l) eqn:E.
  - apply has_In in E. split; [auto|]. intros [H| ->]; auto.
  - rewrite in_app_iff. cbn. intuition.
Qed.
Lemma add_input_NoDup m l : NoDup l -> NoDup (add_input m l).
Proof.
  intros H. unfold add_input. destruct (existsb (Nat.eqb m) l) eqn:E; [exact H|].
  apply NoDup_app_comm_snoc; [exact H|]. intros Hin. apply has_In in Hin. unfold has in Hin. congruence.
Qed.
Lemma add_to_In m i x : In x (members (add_to m i)) <-> In x (members i) \/ x = m.
Proof. destruct i; cbn; [apply add_input_In|intuition]. Qed.
Lemma add_to_NoDup m i : NoDup (members i) -> NoDup (members (add_to m i)).
Proof. destruct i; cbn; [apply add_input_NoDup|]. intros _. repeat constructor. intros []. Qed.

Lemma add_all_In : forall l i x, In x (members (add_all l i)) <-> In x (members i) \/ In x l.
Proof.
  induction l as [|m l IH]; intros i x; cbn; [tauto|]. unfold add_all in IH. rewrite IH, add_to_In. intuition.
Qed.
Lemma add_all_NoDup : forall l i, NoDup (members i) -> NoDup (members (add_all l i)).
Proof. induction l as [|m l IH]; intros i H; cbn; [exact H|]. apply IH, add_to_NoDup, H. Qed.
Lemma add_all_some l i : (exists k, i = Some k) \/ l <> [] -> exists k, add_all l i = Some k.
Proof.
  assert (G : forall l k, exists k', add_all l (Some k) = Some k').
  { induction l0 as [|m l0 IH]; intros k; cbn; [eauto|]. apply IH. }
  destruct l as [|m l]; intros [[k ->]|H]; try (apply G); [contradiction|].
  destruct i; cbn; apply G.
Qed.

Lemma targets_set_inputs i c : targets (set_inputs i c) = targets c.
Proof. reflexivity. Qed.
Lemma targets_retarget o n c : targets (retarget o n c) = map (swap o n) (targets c).
Proof.
  unfold targets, retarget. cbn. rewrite !map_app, !map_map. f_equal; [destruct (c_single c); reflexivity|].
  f_equal. destruct (c_fork c); reflexivity.
Qed.

Definition rerouted (o n : entity) (l : list entity) (e : entity) (c : cnode) : cnode :=
  let c1 := if has l e then retarget o n c else c in
  if Nat.eqb e n then set_inputs (add_all l (c_inputs c)) c1 else c1.

Lemma reroute_ok o n : forall l w, NoDup l -> cw_node w n <> None ->
  (forall m, In m l -> exists c, cw_node w m = Some c /\ In o (targets c)) ->
  exists w', reroute o n l w = (w', true) /\ cw_next w' = cw_next w /\ cw_errors w' = cw_errors w /\
    forall e, cw_node w' e = option_map (rerouted o n l e) (cw_node w e).
Proof.
  induction l as [|m l IH]; intros w Hd Hn Hl.
  - exists w. cbn. repeat split. intros e. unfold rerouted. cbn. destruct (cw_node w e) as [c|]; [|reflexivity].
    cbn. destruct (Nat.eqb e n); [|reflexivity]. destruct c; reflexivity.
  - destruct (Hl m (or_introl eq_refl)) as [c [Ec Hc]]. cbn [reroute]. rewrite Ec.
    assert (Hh : happened o c = true) by (unfold happened; apply has_In, Hc). rewrite Hh.
    inversion Hd as [|? ? Hm Hd']; subst. destruct (cw_node w n) as [d|] eqn:En; [|contradiction].
    set (w2 := put w m (Some (retarget o n c))).
    assert (E2 : cw_node w2 n = Some (if Nat.eqb n m then retarget o n c else d)).
    { subst w2. cbn. unfold emap_set. destruct (Nat.eqb n m); [reflexivity|exact En]. }
    rewrite E2. set (d' := if Nat.eqb n m then retarget o n c else d) in *.
    set (w3 := put w2 n (Some (set_inputs (add_to m (c_inputs d')) d'))).
    assert (E3 : forall e, cw_node w3 e = if Nat.eqb e n then Some (set_inputs (add_to m (c_inputs d')) d')
                           else if Nat.eqb e m then Some (retarget o n c) else cw_node w e).
    { intros e. subst w3 w2. cbn. unfold emap_set. destruct (Nat.eqb e n), (Nat.eqb e m); reflexivity. }
    destruct (IH w3) as [w' [Er [Ex [Ee Ew]]]].
    + exact Hd'.
    + rewrite E3, Nat.eqb_refl. discriminate.
    + intros m' Hm'. destruct (Hl m' (or_intror Hm')) as [c' [Ec' Hc']].
      assert (Hne : m' <> m) by congruence. rewrite E3. destruct (Nat.eqb_spec m' n) as [E|_].
      * subst m'. exists (set_inputs (add_to m (c_inputs d')) d'). split; [reflexivity|].
        rewrite targets_set_inputs. subst d'. destruct (Nat.eqb_spec n m); [congruence|]. congruence.
      * destruct (Nat.eqb_spec m' m); [congruence|]. eauto.
    + exists w'. split; [exact Er|]. split; [rewrite Ex; reflexivity|]. split; [rewrite Ee; reflexivity|].
      intros e. rewrite Ew, E3. unfold rerouted.
      assert (Hhas : has (m :: l) e = Nat.eqb e m || has l e) by reflexivity. rewrite Hhas.
      assert (Hml : has l m = false).
      { destruct (has l m) eqn:E; [|reflexivity]. apply has_In in E. contradiction. }
      destruct (Nat.eqb_spec e n) as [E|Hen].
      * subst e. rewrite En. cbn [option_map]. f_equal. unfold d'. destruct (Nat.eqb_spec n m) as [E|Hnm].
        -- subst m. rewrite Hml. cbn [orb]. rewrite Ec in En. injection En as <-. reflexivity.
        -- cbn [orb]. destruct (has l n); reflexivity.
      * destruct (Nat.eqb_spec e m) as [E|Hem].
        -- subst e. rewrite Ec, Hml. reflexivity.
        -- reflexivity.
Qed.

(** ** New operations *)
Definition output_of (m : entity) : cnode := set_inputs (Some [m]) c_empty.

(** Operation [m] becomes [c] and has [k] new outputs. *)
Definition grown (m : entity) (c : cnode) (k : nat) (w w' : cworld) : Prop :=
  cw_next w' = cw_next w + k /\ cw_errors w' = cw_errors w /\
  forall e, cw_node w' e =
    if Nat.eqb e m then Some c
    else if andb (Nat.leb (cw_next w) e) (Nat.ltb e (cw_next w + k)) then Some (output_of m) else cw_node w e.

Lemma grown_refl m c w : cw_node w m = Some c -> grown m c 0 w w.
Proof.
  intros H. split; [lia|]. split; [reflexivity|]. intros e. destruct (Nat.eqb_spec e m) as [->|]; [exact H|].
  destruct (andb _ _) eqn:E; [|reflexivity]. apply andb_prop in E. destruct E as [A B].
  apply Nat.leb_le in A. apply Nat.ltb_lt in B. lia.
Qed.

Lemma grown_trans m c1 c2 k1 k2 w w1 w2 : m < cw_next w ->
  grown m c1 k1 w w1 -> grown m c2 k2 w1 w2 -> grown m c2 (k1 + k2) w w2.
Proof.
  intros Hm [N1 [E1 H1]] [N2 [E2 H2]]. split; [lia|]. split; [congruence|]. intros e. rewrite H2, H1, N1.
  destruct (Nat.eqb e m); [reflexivity|].
  destruct (Nat.leb_spec (cw_next w + k1) e), (Nat.ltb_spec e (cw_next w + k1 + k2)), (Nat.leb_spec (cw_next w) e),
    (Nat.ltb_spec e (cw_next w + k1)), (Nat.ltb_spec e (cw_next w + (k1 + k2))); cbn; try reflexivity; lia.
Qed.

Lemma grown_change m c k f w w' : grown m c k w w' -> grown m (f c) k w (change m f w').
Proof.
  intros [N [E H]]. unfold change. rewrite H, Nat.eqb_refl. split; [exact N|]. split; [exact E|]. intros e.
  cbn. unfold emap_set. destruct (Nat.eqb e m) eqn:Em; [reflexivity|]. rewrite H, Em. reflexivity.
Qed.

Lemma grown_node m c k w w' : grown m c k w w' -> cw_node w' m = Some c.
Proof. intros [_ [_ H]]. rewrite H, Nat.eqb_refl. reflexivity. Qed.

Lemma setup_single_grown m c w : m < cw_next w -> cw_node w m = Some c ->
  grown m (set_single (Some (cw_next w)) c) 1 w (setup_single m (cw_next w) (spawn w c_empty)).
Proof.
  intros Hm Hc. unfold setup_single, feed, spawn. cbn. unfold emap_set. rewrite Nat.eqb_refl.
  unfold change, put. cbn. unfold emap_set.
  destruct (Nat.eqb_spec m (cw_next w)); [lia|]. rewrite Hc. cbn. split; [cbn; lia|]. split; [reflexivity|].
  intros e. cbn [cw_node put spawn cw_next cw_errors]. unfold emap_set.
  destruct (Nat.eqb_spec e m); [reflexivity|].
  destruct (Nat.eqb_spec e (cw_next w)), (Nat.leb_spec (cw_next w) e), (Nat.ltb_spec e (cw_next w + 1)); cbn;
    try reflexivity; lia.
Qed.

Lemma spawn_outputs_ok : forall k w, cw_next (fst (spawn_outputs k w)) = cw_next w + k /\
  cw_errors (fst (spawn_outputs k w)) = cw_errors w /\ snd (spawn_outputs k w) = seq (cw_next w) k /\
  forall e, cw_node (fst (spawn_outputs k w)) e =
    if andb (Nat.leb (cw_next w) e) (Nat.ltb e (cw_next w + k)) then Some c_empty else cw_node w e.
Proof.
  induction k as [|k IH]; intros w; cbn [spawn_outputs].
  - repeat split; [cbn; lia|]. intros e. cbn [fst].
    destruct (Nat.leb_spec (cw_next w) e), (Nat.ltb_spec e (cw_next w + 0)); cbn; try reflexivity; lia.
  - destruct (IH (spawn w c_empty)) as [A [B [C D]]]. destruct (spawn_outputs k (spawn w c_empty)) as [w1 l].
    cbn [fst snd] in *. split; [rewrite A; cbn; lia|]. split; [rewrite B; reflexivity|].
    split; [rewrite C; reflexivity|]. intros e. rewrite D. cbn [cw_node put spawn cw_next cw_errors]. unfold emap_set.
    destruct (Nat.leb_spec (S (cw_next w)) e), (Nat.ltb_spec e (S (cw_next w) + k)), (Nat.leb_spec (cw_next w) e),
      (Nat.ltb_spec e (cw_next w + S k)), (Nat.eqb_spec e (cw_next w)); cbn; try reflexivity; try lia;
      destruct (Nat.ltb_spec e (S (cw_next w + k))); cbn; try reflexivity; lia.
Qed.

Lemma feed_all_ok m : forall ts w, (forall t, In t ts -> exists i, cw_node w t = Some (set_inputs i c_empty)) ->
  exists w', feed_all m ts w = (w', true) /\ cw_next w' = cw_next w /\ cw_errors w' = cw_errors w /\
    forall e, cw_node w' e = if has ts e then Some (output_of m) else cw_node w e.
Proof.
  induction ts as [|t ts IH]; intros w H; cbn [feed_all].
  - exists w. repeat split.
  - unfold feed. destruct (H t (or_introl eq_refl)) as [i Hi]. rewrite Hi.
    destruct (IH (put w t (Some (set_inputs (Some [m]) (set_inputs i c_empty))))) as [w' [E [A [B C]]]].
    + intros t' Ht'. cbn. unfold emap_set. destruct (Nat.eqb t' t); [exists (Some [m]); reflexivity|].
      apply H. right. exact Ht'.
    + exists w'. split; [exact E|]. split; [exact A|]. split; [exact B|]. intros e. rewrite C. cbn.
      unfold emap_set. fold (has ts e). destruct (has ts e); [rewrite Bool.orb_true_r; reflexivity|].
      rewrite Bool.orb_false_r. destruct (Nat.eqb e t); reflexivity.
Qed.

Lemma setup_fork_grown m c k w : m < cw_next w -> cw_node w m = Some c ->
  grown m (set_fork (Some (seq (cw_next w) k)) c) k w
    (setup_fork m (snd (spawn_outputs k w)) (fst (spawn_outputs k w))).
Proof.
  intros Hm Hc. destruct (spawn_outputs_ok k w) as [A [B [C D]]]. rewrite C.
  remember (fst (spawn_outputs k w)) as w1 eqn:E1. unfold setup_fork.
  destruct (feed_all_ok m (seq (cw_next w) k) w1) as [w2 [E [A2 [B2 C2]]]].
  { intros t Ht. apply in_seq in Ht. exists None. rewrite D.
    destruct (Nat.leb_spec (cw_next w) t), (Nat.ltb_spec t (cw_next w + k)); cbn; try reflexivity; lia. }
  rewrite E. unfold change. rewrite C2.
  assert (Hno : has (seq (cw_next w) k) m = false).
  { destruct (has _ m) eqn:Hh; [|reflexivity]. apply has_In, in_seq in Hh. lia. }
  rewrite Hno, D. destruct (Nat.leb_spec (cw_next w) m); [lia|]. cbn [andb]. rewrite Hc.
  split; [cbn; lia|]. split; [cbn; congruence|]. intros e. cbn [cw_node put spawn cw_next cw_errors]. unfold emap_set.
  destruct (Nat.eqb e m); [reflexivity|]. rewrite C2, D.
  destruct (has (seq (cw_next w) k) e) eqn:Hh.
  - apply has_In, in_seq in Hh. destruct (Nat.leb_spec (cw_next w) e), (Nat.ltb_spec e (cw_next w + k)); cbn;
      try reflexivity; lia.
  - destruct (Nat.leb_spec (cw_next w) e), (Nat.ltb_spec e (cw_next w + k)); cbn; try reflexivity.
    exfalso. assert (Hin : In e (seq (cw_next w) k)) by (apply in_seq; lia). apply has_In in Hin. congruence.
Qed.

Lemma key_used_In k l : key_used k l = true <-> In k (map fst l).
Proof.
  induction l as [|[k' t] l IH]; cbn; [split; [discriminate|intros []]|].
  rewrite Bool.orb_true_iff, IH, Nat.eqb_eq. intuition.
Qed.

Lemma spawn_streams_ok m c : forall ks l w, m < cw_next w -> cw_node w m = Some c ->
  NoDup ks -> (forall k, In k ks -> ~ In k (map fst l)) ->
  exists w', spawn_streams m ks l w = (w', l ++ combine ks (seq (cw_next w) (length ks)), seq (cw_next w) (length ks))
    /\ grown m c (length ks) w w'.
Proof.
  induction ks as [|k ks IH]; intros l w Hm Hc Hd Hl; cbn [spawn_streams].
  - exists w. cbn. rewrite app_nil_r. split; [reflexivity|]. apply grown_refl, Hc.
  - unfold add_stream.
    assert (Hk : key_used k l = false).
    { destruct (key_used k l) eqn:E; [|reflexivity]. apply key_used_In in E. exfalso. exact (Hl k (or_introl eq_refl) E). }
    rewrite Hk. inversion Hd as [|? ? Hnk Hd']; subst.
    destruct (IH (l ++ [(k, cw_next w)]) (spawn w (set_inputs (Some [m]) c_empty))) as [w' [E G]].
    + cbn. lia.
    + cbn. unfold emap_set. destruct (Nat.eqb_spec m (cw_next w)); [lia|]. exact Hc.
    + exact Hd'.
    + intros k' Hk'. rewrite map_app, in_app_iff. cbn. intros [H|[->|[]]]; [|contradiction].
      exact (Hl k' (or_intror Hk') H).
    + rewrite E. cbn [cw_next spawn seq length combine]. exists w'. split; [rewrite <- app_assoc; reflexivity|].
      change (S (length ks)) with (1 + length ks). eapply (grown_trans m c c 1); [exact Hm| |exact G].
      split; [cbn; lia|]. split; [reflexivity|]. intros e. cbn [cw_node put spawn cw_next cw_errors]. unfold emap_set.
      destruct (Nat.eqb_spec e m) as [->|].
      * destruct (Nat.eqb_spec m (cw_next w)); [lia|exact Hc].
      * destruct (Nat.eqb_spec e (cw_next w)), (Nat.leb_spec (cw_next w) e), (Nat.ltb_spec e (cw_next w + 1)); cbn;
          try reflexivity; lia.
Qed.

(** The components which an operation of a certain shape gets. *)
Definition b2n (b : bool) : nat := if b then 1 else 0.
Definition fork_size (f : option nat) : nat := match f with Some k => k | None => 0 end.
Definition placed (sh : shape) (n : entity) (c : cnode) : cnode :=
  let n1 := n + b2n (sh_single sh) in
  let n2 := n1 + fork_size (sh_fork sh) in
  let n3 := n2 + length (sh_anon sh) in
  set_streams (combine (sh_anon sh) (seq n2 (length (sh_anon sh))))
    (combine (sh_named sh) (seq n3 (length (sh_named sh))))
    (match sh_fork sh with Some k => set_fork (Some (seq n1 k)) | None => fun c => c end
       ((if sh_single sh then set_single (Some n) else fun c => c) c)).
Definition size (sh : shape) : nat :=
  b2n (sh_single sh) + fork_size (sh_fork sh) + length (sh_anon sh) + length (sh_named sh).

Lemma place_grown m sh c w : m < cw_next w -> cw_node w m = Some c ->
  NoDup (sh_anon sh) -> NoDup (sh_named sh) ->
  snd (place m sh w) = seq (cw_next w) (size sh) /\
  grown m (placed sh (cw_next w) c) (size sh) w (fst (place m sh w)).
Proof.
  intros Hm Hc Ha Hn. unfold place.
  set (r1 := if sh_single sh then (setup_single m (cw_next w) (spawn w c_empty), [cw_next w]) else (w, [])).
  set (c1 := (if sh_single sh then set_single (Some (cw_next w)) else fun c => c) c).
  assert (G1 : grown m c1 (b2n (sh_single sh)) w (fst r1) /\ snd r1 = seq (cw_next w) (b2n (sh_single sh))).
  { subst r1 c1. destruct (sh_single sh); cbn [b2n fst snd].
    - split; [apply setup_single_grown; assumption|reflexivity].
    - split; [apply grown_refl, Hc|reflexivity]. }
  replace (if sh_single sh then let t := cw_next w in (setup_single m t (spawn w c_empty), [t]) else (w, []))
    with r1 by reflexivity.
  destruct r1 as [w1 l1]. cbn [fst snd] in G1. destruct G1 as [G1 ->].
  assert (N1 : cw_next w1 = cw_next w + b2n (sh_single sh)) by apply G1.
  set (r2 := match sh_fork sh with Some k => let (wa, ts) := spawn_outputs k w1 in (setup_fork m ts wa, ts) | None => (w1, []) end).
  set (c2 := match sh_fork sh with Some k => set_fork (Some (seq (cw_next w1) k)) | None => fun c => c end c1).
  assert (G2 : grown m c2 (fork_size (sh_fork sh)) w1 (fst r2) /\ snd r2 = seq (cw_next w1) (fork_size (sh_fork sh))).
  { subst r2 c2. destruct (sh_fork sh) as [k|]; cbn [fork_size].
    - pose proof (setup_fork_grown m c1 k w1) as G. destruct (spawn_outputs_ok k w1) as [_ [_ [E _]]].
      destruct (spawn_outputs k w1) as [wa ts]. cbn [fst snd] in *. split; [|exact E]. apply G; [lia|].
      exact (grown_node _ _ _ _ _ G1).
    - split; [apply grown_refl; exact (grown_node _ _ _ _ _ G1)|reflexivity]. }
  destruct r2 as [w2 l2]. cbn [fst snd] in G2. destruct G2 as [G2 ->].
  assert (N2 : cw_next w2 = cw_next w1 + fork_size (sh_fork sh)) by apply G2.
  destruct (spawn_streams_ok m c2 (sh_anon sh) [] w2) as [w3 [E3 G3]].
  { lia. } { exact (grown_node _ _ _ _ _ G2). } { exact Ha. } { intros k _ []. }
  rewrite E3. assert (N3 : cw_next w3 = cw_next w2 + length (sh_anon sh)) by apply G3.
  destruct (spawn_streams_ok m c2 (sh_named sh) [] w3) as [w4 [E4 G4]].
  { lia. } { exact (grown_node _ _ _ _ _ G3). } { exact Hn. } { intros k _ []. }
  rewrite E4. cbn [fst snd]. rewrite !app_nil_l. split.
  - unfold size. rewrite N3, N2, N1, !seq_app, !app_assoc. rewrite !Nat.add_assoc. reflexivity.
  - assert (G : grown m c2 (size sh) w w4).
    { unfold size. eapply grown_trans; [exact Hm| |exact G4]. eapply grown_trans; [exact Hm| |exact G3].
      eapply grown_trans; [exact Hm|exact G1|exact G2]. }
    apply (grown_change m c2 (size sh) (set_streams (combine (sh_anon sh) (seq (cw_next w2) (length (sh_anon sh))))
      (combine (sh_named sh) (seq (cw_next w3) (length (sh_named sh)))))) in G.
    unfold placed. rewrite <- N1, <- N2, <- N3. exact G.
Qed.

Lemma map_snd_combine {A B} : forall (l : list A) (l' : list B), length l = length l' -> map snd (combine l l') = l'.
Proof. induction l as [|a l IH]; intros [|b l'] H; cbn in *; try discriminate; [reflexivity|]. f_equal. apply IH. lia. Qed.

Lemma placed_targets sh n c t : c_single c = None -> c_fork c = None ->
  In t (targets (placed sh n c)) <-> n <= t < n + size sh.
Proof.
  intros Hs Hf. unfold targets, placed, size.
  destruct sh as [si fo an na]. cbn [sh_single sh_fork sh_anon sh_named].
  assert (E1 : forall (c : cnode) a b, c_anon (set_streams a b c) = a) by reflexivity.
  assert (E2 : forall (c : cnode) a b, c_named (set_streams a b c) = b) by reflexivity.
  rewrite E1, E2, !map_snd_combine by (rewrite seq_length; reflexivity).
  rewrite !in_app_iff, !in_seq.
  destruct si, fo as [k|]; cbn; rewrite ?Hs, ?Hf; cbn; rewrite ?in_seq; lia.
Qed.
