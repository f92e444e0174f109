(** Every operation of a diagram is built once: the invariant. *)
From Verif Require Import Base DiagramModel DiagramSpec DiagramSpec2 DiagramSpec3 DiagramProofs15.

Lemma NoDup_app {A} (l l' : list A) : NoDup l -> NoDup l' -> (forall x, In x l -> ~ In x l') -> NoDup (l ++ l').
Proof.
  induction 1 as [|x l N _ IH]; intros N' H; [exact N'|]. cbn [app]. constructor; [|apply IH; auto; intros y Y; apply H; right; exact Y].
  rewrite in_app_iff. intros [X|X]; [contradiction|]. apply (H x (or_introl eq_refl) X).
Qed.

Lemma in_fst {A} (l : list (nat * A)) id o o' : NoDup (map fst l) -> In (id, o) l -> In (id, o') l -> o = o'.
Proof.
  induction l as [|[i x] l IH]; cbn [map fst]; intros N A1 B; [destruct A1|]. apply NoDup_cons_iff in N as [N1 N2].
  destruct A1 as [A1|A1], B as [B|B].
  - congruence.
  - injection A1 as -> ->. destruct N1. apply in_map_iff. exists (id, o'). auto.
  - injection B as -> ->. destruct N1. apply in_map_iff. exists (id, o). auto.
  - eauto.
Qed.

Lemma distinct_unique d : distinct d -> unique d.
Proof.
  intros (D1 & D2 & D3) ns id o o' H. revert o'. induction H as [id o I|ns s t T cn id o H IH F I|ns s start ops streams next id o H IH I]; intros o' H'.
  - inversion H' as [i2 o2 I2|ns2 s2 t2 T2 cn2 i2 o2 _ _ _ E|ns2 s2 st2 op2 str2 n2 i2 o2 _ _ E]; subst;
      [eapply in_fst; [exact D1|exact I|exact I2]|destruct ns2; discriminate|destruct ns2; discriminate].
  - inversion H' as [i2 o2 I2 E|ns2 s2 t2 T2 cn2 i2 o2 H2 F2 I2 E|ns2 s2 st2 op2 str2 n2 i2 o2 H2 I2 E]; subst; [destruct ns; discriminate| |];
      apply app_inj_tail in E as [-> ->]; specialize (IH _ H2); [|discriminate]. injection IH as -> ->. rewrite F in F2. injection F2 as <-.
    eapply in_fst; [|exact I|exact I2]; eauto.
  - inversion H' as [i2 o2 I2 E|ns2 s2 t2 T2 cn2 i2 o2 H2 F2 I2 E|ns2 s2 st2 op2 str2 n2 i2 o2 H2 I2 E]; subst; [destruct ns; discriminate| |];
      apply app_inj_tail in E as [-> ->]; specialize (IH _ H2); [discriminate|]. injection IH as -> -> -> ->. eapply in_fst; [|exact I|exact I2]; eauto.
Qed.

Section Once.
Variable d : diagram.
Variable g : registry.
Variable imp : opref.
Notation tm := (d_templates d).
Hypothesis Ds : distinct d.

Record once (todo : list unf) (log : list entry) : Prop := {
  n_nodup : NoDup (map key todo ++ bkeys log);
  n_parent : forall x, In x (map key todo ++ bkeys log) -> fst x = [] \/ exists ns id, fst x = ns ++ [id] /\ In (ns, id) (bkeys log);
  n_occ : forall u, In u todo -> occurs d (u_ns u) (u_id u) (u_op u)
}.

Lemma once_perm todo todo' log : Permutation todo todo' -> once todo log -> once todo' log.
Proof.
  intros P [A B C]. assert (Q : Permutation (map key todo ++ bkeys log) (map key todo' ++ bkeys log)) by (apply Permutation_app_tail, Permutation_map; exact P).
  constructor.
  - eapply Permutation_NoDup; eauto.
  - intros x X. apply B. eapply Permutation_in; [apply Permutation_sym; exact Q|exact X].
  - intros u X. apply C. eapply Permutation_in; [apply Permutation_sym; exact P|exact X].
Qed.

Lemma once_log todo log log' : bkeys log' = bkeys log -> once todo log -> once todo log'.
Proof. intros E [A B C]. constructor; rewrite ?E; auto. Qed.

Lemma once_does u rest c c' fin : once (u :: rest) (c_log c) -> c_gen c = [] -> does d u c c' fin ->
  once ((if fin then [] else [u]) ++ c_gen c' ++ rest) (c_log c').
Proof.
  intros O G [(-> & A & B)|(-> & A & sc & l & B & C)].
  - rewrite B, G. cbn [app]. eapply once_log; eauto.
  - rewrite B, G. cbn [app]. destruct O as [N P O]. cbn [map app] in N, P. apply NoDup_cons_iff in N as [N1 N2].
    assert (Oc : forall id o, In (id, o) l -> occurs d (u_ns u ++ [u_id u]) id o).
    { intros id o X. destruct C as [->|[(t & T & cn & E & F & ->)|(start & streams & next & E)]]; [destruct X| |]; pose proof (O u (or_introl eq_refl)) as Z; rewrite E in Z.
      - eapply occurs_template; eauto.
      - eapply occurs_scope; eauto. }
    assert (Nl : NoDup (map fst l)).
    { destruct C as [->|[(t & T & cn & E & F & ->)|(start & streams & next & E)]]; [constructor| |].
      - destruct Ds as (_ & D2 & _). eapply D2; eauto.
      - destruct Ds as (_ & _ & D3). pose proof (O u (or_introl eq_refl)) as Z; rewrite E in Z. eapply D3; eauto. }
    assert (Kl : forall x, In x (map key (map (child u sc) l)) -> exists id, In id (map fst l) /\ x = (u_ns u ++ [u_id u], id)).
    { intros x X. rewrite map_map in X. apply in_map_iff in X as ([id o] & <- & X). exists id. split; [apply in_map_iff; exists (id, o); auto|reflexivity]. }
    assert (Fr : forall x, In x (map key (map (child u sc) l)) -> ~ In x (map key rest ++ bkeys (c_log c))).
    { intros x X Y. destruct (Kl x X) as (id & _ & ->). destruct (P _ (or_intror Y)) as [Z|(ns & i & Z1 & Z2)]; cbn [fst] in *; [destruct (u_ns u); discriminate|].
      apply app_inj_tail in Z1 as [<- <-]. apply N1. apply in_app_iff. right. exact Z2. }
    constructor.
    + rewrite A, map_app, <- app_assoc. 
      assert (Nk : NoDup (map key (map (child u sc) l))).
      { rewrite map_map. clear - Nl. induction l as [|[i o] l IH]; cbn [map fst] in *; [constructor|]. apply NoDup_cons_iff in Nl as [X Y]. constructor; [|auto].
        intros Z. apply in_map_iff in Z as ([i2 o2] & E & Z). cbn in E. injection E as ->. apply X. apply in_map_iff. exists (i, o2). auto. }
      assert (Nr : NoDup (map key rest ++ bkeys (c_log c) ++ [key u])).
      { rewrite app_assoc. apply NoDup_app; [exact N2|repeat constructor; intros []|]. intros x X [<-|[]]. contradiction. }
      apply NoDup_app; [exact Nk|exact Nr|]. intros x X Y. rewrite app_assoc in Y. apply in_app_iff in Y as [Y|[<-|[]]]; [eapply Fr; eauto|].
      destruct (Kl _ X) as (id & _ & E). unfold key in E. injection E as E _. apply (f_equal (@length nat)) in E. rewrite app_length in E. cbn in E. lia.
    + rewrite A, map_app. intros x X. 
      assert (Y : In x (map key (map (child u sc) l)) \/ x = key u \/ In x (map key rest ++ bkeys (c_log c))).
      { rewrite !in_app_iff in X. rewrite in_app_iff. cbn [In] in X. intuition. }
      destruct Y as [Y|Y].
      * destruct (Kl _ Y) as (id & _ & ->). right. exists (u_ns u), (u_id u). split; [reflexivity|]. apply in_app_iff. right. left. reflexivity.
      * destruct (P x) as [Z|(ns & i & Z1 & Z2)]; [destruct Y as [->|Y]; [left; reflexivity|right; exact Y]|auto|].
        right. exists ns, i. split; [exact Z1|]. apply in_app_iff. auto.
    + intros v X. apply in_app_iff in X as [X|X]; [|apply O; right; exact X]. apply in_map_iff in X as ([id o] & <- & X). cbn. auto.
Qed.

Lemma once_build_all todo : forall waiting seen prog c c' w s p, once (todo ++ waiting) (c_log c) -> c_gen c = [] ->
  build_all g tm imp todo waiting seen prog c = inl (c', w, s, p) -> once w (c_log c') /\ c_gen c' = [].
Proof.
  induction todo as [|u todo IH]; intros waiting seen prog c c' w s p O G; cbn [build_all].
  - intros [= <- <- _ _]. auto.
  - destruct (build_op g tm imp u c) as [[c1 fin]|] eqn:E; [|discriminate]. cbn beta iota. intros H.
    apply build_op_does in E. pose proof (once_does _ _ _ _ _ O G E) as O1.
    destruct fin; cbn [app] in O1; (refine (IH _ _ _ (set_gen [] c1) _ _ _ _ _ eq_refl H)); change (c_log (set_gen [] c1)) with (c_log c1).
    + eapply once_perm; [|exact O1]. rewrite (app_assoc todo). apply Permutation_app_comm.
    + eapply once_perm; [|exact O1]. rewrite !app_assoc. rewrite <- Permutation_cons_append. constructor. rewrite <- app_assoc. apply Permutation_app_comm.
Qed.

Lemma once_build_loop ord fuel : forall left todo seen c c', once todo (c_log c) -> c_gen c = [] ->
  build_loop g tm imp ord fuel left todo seen c = inl c' -> once [] (c_log c').
Proof.
  induction fuel as [|fuel IH]; intros left todo seen c c' O G; cbn [build_loop].
  - destruct (is_nil todo && negb (has_outputs (c_outs c))) eqn:Z; [|discriminate]. intros [= <-]. destruct todo; [exact O|discriminate].
  - destruct (is_nil todo && negb (has_outputs (c_outs c))) eqn:Z; [intros [= <-]; destruct todo; [exact O|discriminate]|].
    destruct (build_all g tm imp todo [] seen false c) as [[[[c1 todo1] seen1] prog]|] eqn:E1; [|discriminate]. cbn beta iota.
    destruct (connect_loop g imp ord (is_nil todo1) left prog c1) as [[[c2 prog1] left1]|] eqn:E2; [|discriminate]. cbn beta iota.
    destruct prog1; [|discriminate]. destruct left1 as [|left2]; [discriminate|]. intros H.
    destruct (once_build_all todo [] seen false c c1 todo1 seen1 prog) as [O1 G1]; [rewrite app_nil_r; exact O|exact G|exact E1|].
    apply quiet_connect_loop in E2 as [Q1 Q2]. eapply IH; [|rewrite Q2; exact G1|exact H]. eapply once_log; [exact Q1|exact O1].
Qed.
End Once.

Lemma quiet_root g ss : forall c c', root_streams g ss c = inl c' -> quiet c c'.
Proof.
  induction ss as [|[n ty] ss IH]; intros c c'; cbn [root_streams]; [intros [= <-]; apply quiet_refl|]. cbn [spawn_slot spawn].
  destruct (set_input _ _ _ _ _ _) as [c1|] eqn:E1; [|discriminate]. cbn beta iota. intros H. eapply quiet_trans; [exact (quiet_set_input _ _ _ _ _ _ _ E1)|]. eauto.
Qed.

Lemma quiet_init g start q p ss c : init g start q p ss = inl c -> quiet empty_con c.
Proof.
  unfold init. cbn [spawn_output spawn spawn_slot].
  destruct (set_input _ _ _ _ _ _) as [c4|] eqn:E4; [|discriminate]. cbn beta iota. apply quiet_set_input in E4.
  destruct (root_streams g ss c4) as [c5|] eqn:E5; [|discriminate]. cbn beta iota. apply quiet_root in E5.
  destruct (set_conn RDispose _ _ c5) as [c6|] eqn:E6; [|discriminate]. cbn beta iota. apply quiet_set_conn in E6. intros H. apply quiet_set_conn in H.
  eapply quiet_trans; [|exact H]. do 3 (eapply quiet_trans; [|apply quiet_note; reflexivity]).
  eapply quiet_trans; [|eapply quiet_trans; [exact E4|]; eapply quiet_trans; [exact E5|exact E6]].
  refine (quiet_trans _ _ _ (quiet_add [] _ _ (set_next (S (c_next empty_con)) empty_con)) (quiet_same _ _ eq_refl eq_refl)).
Qed.

Lemma builds_built_once g d q p ss log : distinct d -> builds g d q p ss log -> NoDup (bkeys log).
Proof.
  intros D (ord & max & c & Ho & H & <-). unfold create_workflow in H. destruct (validate_names d); [discriminate|].
  destruct (validate_templates d); [|discriminate]. cbn beta iota in H.
  destruct (init g (d_start d) q p ss) as [c0|] eqn:E0; [|discriminate]. cbn beta iota in H.
  destruct (build_loop _ _ _ _ _ _ _ _ c0) as [c1|] eqn:E1; [|discriminate]. cbn beta iota in H.
  destruct (unfinished (c_conns c1)); [|discriminate]. injection H as <-.
  apply quiet_init in E0 as [Q1 Q2]. cbn in Q1, Q2.
  assert (O : once d (map top (d_ops d)) (c_log c0)).
  { constructor; rewrite ?Q1, ?app_nil_r, ?map_map.
    - destruct D as (D & _). clear - D. induction (d_ops d) as [|[i o] l IH]; cbn [map fst] in *; [constructor|]. apply NoDup_cons_iff in D as [X Y]. constructor; [|auto].
      intros Z. apply in_map_iff in Z as ([i2 o2] & E & Z). cbn in E. injection E as ->. apply X. apply in_map_iff. exists (i, o2). auto.
    - intros x X. apply in_map_iff in X as ([i o] & <- & _). left. reflexivity.
    - intros v X. apply in_map_iff in X as ([i o] & <- & X). apply occurs_top. exact X. }
  pose proof (once_build_loop d g _ D _ _ _ _ _ _ _ O Q2 E1) as [N _ _]. exact N.
Qed.

Lemma bkeys_nth log i j u u' ins ins' bufs bufs' outs outs' : NoDup (bkeys log) ->
  nth_error log i = Some (LBuilt u ins bufs outs) -> nth_error log j = Some (LBuilt u' ins' bufs' outs') -> key u = key u' -> i = j.
Proof.
  revert i j. induction log as [|a log IH]; intros i j N A B E; [destruct i; discriminate|]. cbn [flat_map] in N.
  assert (D : forall k v i1 b1 o1 x, nth_error log k = Some (LBuilt v i1 b1 o1) -> bk a = [x] -> x <> key v).
  { intros k v i1 b1 o1 x K Z ->. rewrite Z in N. cbn [app] in N. apply NoDup_cons_iff in N as [N _]. apply N. apply in_flat_map.
    exists (LBuilt v i1 b1 o1). split; [eapply nth_error_In; eauto|left; reflexivity]. }
  destruct i as [|i], j as [|j]; cbn [nth_error] in *.
  - reflexivity.
  - injection A as ->. destruct (D _ _ _ _ _ _ B eq_refl E).
  - injection B as ->. symmetry in E. destruct (D _ _ _ _ _ _ A eq_refl E).
  - f_equal. eapply IH; eauto. clear - N. induction (bk a); [exact N|]. cbn [app] in N. apply NoDup_cons_iff in N as [_ N]. auto.
Qed.
