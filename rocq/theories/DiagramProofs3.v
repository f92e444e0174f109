(** Invariants of the connect loop. *)
From Verif Require Import Base DiagramModel DiagramSpec DiagramProofs DiagramProofs2.

Section Loop.
Variable d : diagram.
Variable g : registry.
Notation imp := (implicit d).

(** What is true of an output at the place it got to *)
Definition at_ (log : list entry) (W : list (opref * list output)) (r : opref) (o : output) : Prop :=
  waits W r o \/ In (LLost r o) log \/ arrives log r o.

Definition source (log : list entry) (r : opref) (o : output) : Prop :=
  In (LPut r o) log \/ In (LPass r o) log.

Definition origin (log : list entry) (r : opref) (o : output) : Prop :=
  exists r0, (In (LPut r0 o) log \/ born d log r0 o) /\ leadsto d r0 r.

Definition good (e : entry) : Prop :=
  match e with
  | LConnect o s => o_ty o = s_ty s
  | LConv k i out er => allowed g k i out er
  | _ => True
  end.

Record linv (c : con) (W : list (opref * list output)) : Prop := {
  v_src : forall r o, source (c_log c) r o -> exists r', leadsto d r r' /\ at_ (c_log c) W r' o;
  v_conn : forall r t, look (c_conns c) r = Some t -> conn_wf d (c_log c) r (t_conn t);
  v_wait : forall r o, waits W r o -> source (c_log c) r o;
  v_hand : forall r o, In (LHand r o) (c_log c) -> source (c_log c) r o;
  v_origin : forall r o, In (LPass r o) (c_log c) -> origin (c_log c) r o;
  v_good : forall e, In e (c_log c) -> good e;
  v_link : forall o s, In (LConnect o s) (c_log c) ->
     exists r s0, In (LSlot r s0) (c_log c) /\
       ((s = s0 /\ exists k i er, In (LConv k i o er) (c_log c)) \/
        (In (LHand r o) (c_log c) /\
         (s = s0 \/ exists k out er, In (LConv k s out er) (c_log c) /\ In (LConnect out s0) (c_log c))));
  v_set : forall r o, In (LHand r o) (c_log c) ->
     arrives (c_log c) r o \/ exists to, goes d r to /\ In (LPass to o) (c_log c)
}.

Lemma arrives_mono log log' r o : (forall e, In e log -> In e log') -> arrives log r o -> arrives log' r o.
Proof.
  intros H [A|(s & A & B)]; [left; auto|right]. exists s. split; [auto|].
  destruct B as [[B1 B2]|[(k & i & out & er & B1 & B2 & B3) B4]]; [left; split; auto|right].
  split; [|auto]. exists k, i, out, er. auto.
Qed.

Lemma origin_mono log log' r o : (forall e, In e log -> In e log') -> origin log r o -> origin log' r o.
Proof.
  intros H (r0 & [A|A] & B); exists r0; split; auto. right. eapply born_mono; eauto.
Qed.

Lemma origin_goes log r r' o : origin log r o -> goes d r r' -> origin log r' o.
Proof. intros (r0 & A & B) G. exists r0. split; [auto|]. eapply leadsto_snoc; eauto. Qed.

Lemma source_origin c W r o : linv c W -> source (c_log c) r o -> origin (c_log c) r o.
Proof.
  intros V [H|H]; [|eapply v_origin; eauto]. exists r. split; [auto|constructor].
Qed.

Lemma note_in e e' c : In e' (c_log (note e c)) <-> In e' (c_log c) \/ e' = e.
Proof. cbn. rewrite in_app_iff. cbn. intuition. Qed.

(** One output handed to one connector. [W] is what waits elsewhere, not
    counting the outputs that connectors make. *)
Lemma hand_one r sc k o c c' k' W :
  linv c (W ++ c_new c) -> source (c_log c) r o ->
  conn_wf d (c_log c) r k ->
  connect_into g imp r sc k o (note (LHand r o) c) = inl (c', k') ->
  (forall r' o', waits (c_new c') r' o' -> True) ->
  linv c' (W ++ c_new c') /\ conn_wf d (c_log c') r k' /\ evolves k k' /\
  settled d (c_log c') (c_new c') r o /\
  c_conns c' = c_conns c /\ c_outs c' = c_outs c /\ c_bufs c' = c_bufs c /\ c_hints c' = c_hints c /\
  c_gen c' = c_gen c /\ c_next c <= c_next c' /\
  (NoDup (map fst (c_new c)) -> NoDup (map fst (c_new c'))) /\
  (forall e, In e (c_log c) -> In e (c_log c')) /\
  (forall e, In e (c_log c') -> In e (c_log c) \/ quiet_slot g r e \/ e = LHand r o).
Proof.
  intros V Hs Wk H _.
  assert (W1 : conn_wf d (c_log (note (LHand r o) c)) r k).
  { eapply conn_wf_mono; [|exact Wk]. intros e He. apply note_in. auto. }
  destruct (connect_into_ok d g _ _ _ _ _ _ _ H W1) as (F & Wk' & S & Ev & A1 & A2).
  assert (M : forall e, In e (c_log c) -> In e (c_log c')).
  { intros e He. eapply frame_in; [exact F|]. apply note_in. auto. }
  assert (Hh : In (LHand r o) (c_log c')) by (eapply frame_in; [exact F|]; apply note_in; auto).
  assert (New : forall e, In e (c_log c') -> In e (c_log c) \/ quiet_slot g r e \/ e = LHand r o).
  { intros e He. destruct (frame_new _ _ _ _ F He) as [X|X]; [|auto]. apply note_in in X. tauto. }
  split; [|repeat (split; [first [assumption|apply F]|]); auto].
  constructor.
  - intros r1 o1 Hs1.
    assert (Hold : source (c_log c) r1 o1 \/ (In (LPass r1 o1) (c_log c'))).
    { destruct Hs1 as [X|X]; [|auto]. destruct (New _ X) as [Y|[Y|Y]]; [left; left; auto| |discriminate].
      destruct Y as [[]|[(s & Y)|(s & o2 & Y)]]; discriminate. }
    destruct Hold as [Hold|Hnew].
    + destruct (v_src _ _ V _ _ Hold) as (r2 & L & [A|[A|A]]); exists r2; (split; [auto|]).
      * left. apply waits_app in A as [A|A]; apply waits_app; [auto|]. right. apply (f_keep _ _ _ F). exact A.
      * right; left. auto.
      * right; right. eapply arrives_mono; eauto.
    + destruct (f_pass _ _ _ F _ _ Hnew) as [X|X].
      * apply note_in in X as [X|X]; [|discriminate].
        destruct (v_src _ _ V r1 o1 (or_intror X)) as (r2 & L & [A|[A|A]]); exists r2; (split; [auto|]).
        -- left. apply waits_app in A as [A|A]; apply waits_app; [auto|]. right. apply (f_keep _ _ _ F). exact A.
        -- right; left. auto.
        -- right; right. eapply arrives_mono; eauto.
      * exists r1. split; [constructor|]. left. apply waits_app. auto.
  - intros r1 t Ht. rewrite (f_conns _ _ _ F) in Ht. eapply conn_wf_mono; [exact M|]. apply (v_conn _ _ V). exact Ht.
  - intros r1 o1 X. apply waits_app in X as [X|X].
    + destruct (v_wait _ _ V r1 o1) as [Y|Y]; [apply waits_app; auto|left; auto|right; auto].
    + destruct (f_from _ _ _ F _ _ X) as [Y|Y]; [|right; auto].
      destruct (v_wait _ _ V r1 o1) as [Z|Z]; [apply waits_app; auto|left; auto|right; auto].
  - intros r1 o1 X. destruct (New _ X) as [Y|[Y|Y]].
    + destruct (v_hand _ _ V _ _ Y) as [Z|Z]; [left; auto|right; auto].
    + destruct Y as [[]|[(s & Y)|(s & o2 & Y)]]; discriminate.
    + injection Y as -> ->. destruct Hs as [Z|Z]; [left; auto|right; auto].
  - intros r1 o1 X. destruct (A1 _ _ X) as [Y|[Y|(-> & Y)]].
    + apply note_in in Y as [Y|Y]; [|discriminate]. eapply origin_mono; [exact M|]. eapply v_origin; eauto.
    + exists r1. split; [auto|constructor].
    + eapply origin_goes; [|exact Y]. eapply origin_mono; [exact M|]. eapply source_origin; eauto.
  - intros e X. destruct (New _ X) as [Y|[Y|Y]]; [eapply v_good; eauto| |subst; exact I].
    destruct Y as [Y|[(s & ->)|(s & o2 & ->)]]; [|exact I|exact I].
    destruct e; cbn in *; auto; tauto.
  - intros o1 s1 X. destruct (A2 _ _ X) as [Y|(s0 & Y & Z)].
    + apply note_in in Y as [Y|Y]; [|discriminate].
      destruct (v_link _ _ V _ _ Y) as (r2 & s0 & B1 & B2). exists r2, s0. split; [auto|].
      destruct B2 as [(B2 & k1 & i & er & B3)|(B2 & B3)].
      * left. split; [auto|]. exists k1, i, er. auto.
      * right. split; [auto|]. destruct B3 as [B3|(k1 & out & er & B3 & B4)]; [auto|right].
        exists k1, out, er. auto.
    + exists r, s0. split; [auto|]. destruct Z as [Z|(-> & Z)]; [auto|]. right. split; auto.
  - intros r1 o1 X. destruct (New _ X) as [Y|[Y|Y]].
    + destruct (v_set _ _ V _ _ Y) as [Z|(to & G & Z)]; [left; eapply arrives_mono; eauto|right; eauto].
    + destruct Y as [[]|[(s & Y)|(s & o2 & Y)]]; discriminate.
    + injection Y as -> ->. destruct S as [S|(to & G & _ & S)]; [auto|right; eauto].
Qed.

Definition samestate (c c' : con) : Prop :=
  c_bufs c' = c_bufs c /\ c_hints c' = c_hints c /\ c_gen c' = c_gen c /\ c_next c <= c_next c' /\
  (forall e, In e (c_log c) -> In e (c_log c')) /\
  (forall e, In e (c_log c') -> In e (c_log c) \/ (exists r, quiet_slot g r e) \/
     (exists r o, e = LHand r o) \/ (exists r o, e = LLost r o)) /\
  (forall p ss r s, In (LSlot r s) (c_log c') -> In (LSlot r s) (c_log c) \/ slot_of (c_log c') p ss r s).

Lemma samestate_refl c : samestate c c.
Proof. repeat split; auto. Qed.

Lemma samestate_trans c1 c2 c3 : samestate c1 c2 -> samestate c2 c3 -> samestate c1 c3.
Proof.
  intros (a1 & a2 & a3 & a4 & a5 & a6 & a7) (b1 & b2 & b3 & b4 & b5 & b6 & b7). repeat split; try congruence; try lia; auto.
  - intros e H. destruct (b6 e H) as [X|X]; auto.
  - intros p ss r s H. destruct (b7 p ss r s H) as [X|X]; [|auto]. destruct (a7 p ss r s X) as [Y|Y]; [auto|].
    right. eapply slot_of_mono; eauto.
Qed.

Lemma hand_all_ok r sc os : forall k c c' k' W,
  linv c ((r, os) :: W ++ c_new c) ->
  conn_wf d (c_log c) r k ->
  hand_all g imp r sc k os c = inl (c', k') ->
  linv c' (W ++ c_new c') /\ conn_wf d (c_log c') r k' /\ evolves k k' /\
  c_conns c' = c_conns c /\ c_outs c' = c_outs c /\ samestate c c' /\
  (NoDup (map fst (c_new c)) -> NoDup (map fst (c_new c'))).
Proof.
  induction os as [|o os IH]; intros k c c' k' W V Wk H; cbn [hand_all] in H.
  - injection H as <- <-. split; [|repeat (split; [first [assumption|reflexivity|apply evolves_refl|apply samestate_refl]|]); auto].
    destruct V as [v1 v2 v3 v4 v5 v6 v7 v8]. constructor; auto.
    + intros r1 o1 X. destruct (v1 r1 o1 X) as (r2 & L & [A|A]); exists r2; (split; [auto|]); [|right; auto].
      left. apply waits_cons in A as [[_ []]|A]. auto.
    + intros r1 o1 X. apply v3. apply waits_cons. auto.
  - destruct (connect_into g imp r sc k o (note (LHand r o) c)) as [[c1 k1]|e] eqn:E; [|discriminate].
    assert (Hs : source (c_log c) r o).
    { apply (v_wait _ _ V). apply waits_cons. cbn. auto. }
    assert (V0 : linv c (((r, o :: os) :: W) ++ c_new c)) by exact V.
    destruct (hand_one _ _ _ _ _ _ _ _ V0 Hs Wk E) as (V1 & W1 & Ev & S & E1 & E2 & E3 & E4 & E5 & E6 & E7 & M & New); [auto|].
    assert (V2 : linv c1 ((r, os) :: W ++ c_new c1)).
    { destruct V1 as [v1 v2 v3 v4 v5 v6 v7 v8]. constructor; auto.
      - intros r1 o1 X. destruct (v1 r1 o1 X) as (r2 & L & [A|A]); [|exists r2; split; [auto|right; auto]].
        cbn [app] in A. apply waits_cons in A as [[<- [<-|A]]|A].
        + destruct S as [S|(to & G & S & _)].
          * exists r. split; [auto|]. right; right; auto.
          * exists to. split; [eapply leadsto_snoc; eauto|]. left. apply waits_cons. right. apply waits_app. auto.
        + exists r. split; [auto|]. left. apply waits_cons. auto.
        + exists r2. split; [auto|]. left. apply waits_cons. auto.
      - intros r1 o1 X. apply v3. cbn [app]. apply waits_cons in X as [[<- X]|X]; apply waits_cons; cbn; auto. }
    destruct (IH k1 c1 c' k' W V2 W1 H) as (V3 & W3 & Ev3 & E1' & E2' & S3 & K3).
    split; [auto|split; [auto|split; [eapply evolves_trans; eauto|]]].
    split; [congruence|split; [congruence|split; [|auto]]].
    eapply samestate_trans; [|exact S3]. do 5 (split; [auto|]). split.
    + intros e X. destruct (New e X) as [Y|[Y|Y]]; eauto 6.
    + intros p ss r1 s1 X. edestruct connect_into_slots as [Y|Y]; [exact E| |exact X| |right; exact Y].
      * eapply conn_wf_mono; [|exact Wk]. intros e He. apply note_in. auto.
      * apply note_in in Y as [Y|Y]; [auto|discriminate].
Qed.

(** The targets which exist keep their connectors. *)
Definition same_targets (c c' : con) : Prop :=
  forall r, match look (c_conns c) r, look (c_conns c') r with
            | Some t, Some t' => evolves (t_conn t) (t_conn t') /\ t_scope t' = t_scope t
            | None, None => True
            | _, _ => False
            end.

Lemma same_targets_refl c : same_targets c c.
Proof. intros r. destruct (look (c_conns c) r); [split; [apply evolves_refl|auto]|auto]. Qed.

Lemma same_targets_trans c1 c2 c3 : same_targets c1 c2 -> same_targets c2 c3 -> same_targets c1 c3.
Proof.
  intros H1 H2 r. specialize (H1 r). specialize (H2 r).
  destruct (look (c_conns c1) r), (look (c_conns c2) r), (look (c_conns c3) r); try tauto.
  destruct H1, H2. split; [eapply evolves_trans; eauto|congruence].
Qed.

Lemma same_targets_eq c c' : c_conns c' = c_conns c -> same_targets c c'.
Proof. intros E r. rewrite E. destruct (look (c_conns c) r); [split; [apply evolves_refl|auto]|auto]. Qed.

Lemma linv_set_conns c W v :
  (forall r t, look v r = Some t -> conn_wf d (c_log c) r (t_conn t)) -> linv c W -> linv (set_conns v c) W.
Proof. intros H [v1 v2 v3 v4 v5 v6 v7 v8]. constructor; auto. Qed.

Lemma linv_set_outs c W v : linv c W -> linv (set_outs v c) W.
Proof. intros [v1 v2 v3 v4 v5 v6 v7 v8]. constructor; auto. Qed.

Lemma linv_set_new c W v : linv c W -> linv (set_new v c) W.
Proof. intros [v1 v2 v3 v4 v5 v6 v7 v8]. constructor; auto. Qed.

Lemma linv_weights c W W' :
  (forall r o, waits W r o <-> waits W' r o) -> linv c W -> linv c W'.
Proof.
  intros H [v1 v2 v3 v4 v5 v6 v7 v8]. constructor; auto.
  - intros r o X. destruct (v1 r o X) as (r2 & L & [A|A]); exists r2; (split; [auto|]); [left; apply H; auto|right; auto].
  - intros r o X. apply v3. apply H. auto.
Qed.

Lemma put_fresh {A} (m : list (opref * A)) r a : ~ In r (map fst m) -> put m r a = m ++ [(r, a)].
Proof.
  induction m as [|[r1 b] m IH]; cbn; intros H; [auto|].
  destruct (opref_eq_dec r r1) as [E|N]; [subst; tauto|]. rewrite IH; tauto.
Qed.

Lemma pass_ok idle drained : forall deferred prog c c' deferred' prog',
  linv c (drained ++ deferred ++ c_new c) ->
  NoDup (map fst drained ++ map fst deferred) ->
  pass g imp idle drained deferred prog c = inl (c', deferred', prog') ->
  linv c' (deferred' ++ c_new c') /\ same_targets c c' /\ c_outs c' = c_outs c /\ samestate c c' /\
  NoDup (map fst deferred') /\ (NoDup (map fst (c_new c)) -> NoDup (map fst (c_new c'))) /\
  (forall r, In r (map fst deferred') -> In r (map fst deferred) \/ (In r (map fst drained) /\ look (c_conns c) r = None)) /\
  (idle = true -> deferred' = deferred) /\ (prog = true -> prog' = true).
Proof.
  induction drained as [|[r os] rest IH]; intros deferred prog c c' deferred' prog' V ND H; cbn [pass] in H.
  - injection H as <- <- <-. repeat (split; [first [assumption|apply same_targets_refl|apply samestate_refl|reflexivity]|]); auto.
  - cbn [map app fst] in ND. apply NoDup_cons_iff in ND as [N1 ND].
    destruct (look (c_conns c) r) as [t|] eqn:El.
    + destruct (hand_all g imp r (t_scope t) (t_conn t) os c) as [[c1 k1]|e] eqn:E; [|discriminate].
      assert (V0 : linv c ((r, os) :: (rest ++ deferred) ++ c_new c)).
      { rewrite <- app_assoc. exact V. }
      destruct (hand_all_ok _ _ _ _ _ _ _ _ V0 (v_conn _ _ V _ _ El) E) as (V1 & W1 & Ev & E1 & E2 & S1 & K1).
      set (c2 := set_conns (put (c_conns c1) r {| t_conn := k1; t_scope := t_scope t |}) c1) in *.
      assert (T : same_targets c c2).
      { intros r1. subst c2. cbn [c_conns set_conns]. rewrite look_put, E1.
        destruct (opref_eq_dec r1 r) as [->|N]; [rewrite El; cbn; auto|].
        destruct (look (c_conns c) r1); [split; [apply evolves_refl|auto]|auto]. }
      assert (V2 : linv c2 (rest ++ deferred ++ c_new c2)).
      { subst c2. apply linv_set_conns; [|rewrite app_assoc; exact V1].
        intros r1 t1. rewrite look_put. destruct (opref_eq_dec r1 r) as [->|N].
        - intros [= <-]. exact W1.
        - intros X. apply (v_conn _ _ V1). exact X. }
      destruct (IH _ _ _ _ _ _ V2 ND H) as (V3 & T3 & O3 & S3 & ND3 & K3 & D3 & I3 & P3).
      split; [auto|split; [eapply same_targets_trans; eauto|split; [rewrite O3; exact E2|split; [eapply samestate_trans; [exact S1|exact S3]|]]]].
      split; [auto|split; [intros X; apply K3; apply K1; exact X|split; [|split; [auto|]]]].
      * intros r1 X. destruct (D3 r1 X) as [Y|[Y Z]]; [auto|right]. split; [cbn; auto|].
        specialize (T r1). rewrite Z in T. destruct (look (c_conns c) r1); tauto.
      * intros ->. apply P3. reflexivity.
    + destruct idle; [discriminate|].
      assert (Nd : ~ In r (map fst deferred)) by (intros X; apply N1; apply in_app_iff; auto).
      assert (V2 : linv c (rest ++ put deferred r os ++ c_new c)).
      { rewrite put_fresh by exact Nd. eapply linv_weights; [|exact V]. intros r1 o1.
        cbn [app]. rewrite waits_cons, !waits_app, waits_cons. pose proof (waits_nil r1 o1). tauto. }
      assert (ND2 : NoDup (map fst rest ++ map fst (put deferred r os))).
      { rewrite put_fresh by exact Nd. rewrite map_app. cbn. rewrite app_assoc.
        apply NoDup_app_comm_snoc; auto. }
      destruct (IH _ _ _ _ _ _ V2 ND2 H) as (V3 & T3 & O3 & S3 & ND3 & K3 & D3 & I3 & P3).
      repeat (split; [assumption|]). split; [|split; [discriminate|auto]].
      intros r1 X. destruct (D3 r1 X) as [Y|[Y Z]]; [|right; split; [right; auto|auto]].
      apply keys_put in Y as [->|Y]; [right; split; [left; auto|auto]|auto].
Qed.

Lemma put_In {A} (m : list (opref * A)) r a r' a' :
  NoDup (map fst m) ->
  (In (r', a') (put m r a) <-> (r' = r /\ a' = a) \/ (r' <> r /\ In (r', a') m)).
Proof.
  induction m as [|[r1 b] m IH]; cbn; intros ND.
  - split; [intros [[= <- <-]|[]]; auto|intros [[-> ->]|[_ []]]; auto].
  - apply NoDup_cons_iff in ND as [N1 ND]. destruct (opref_eq_dec r r1) as [E|N]; cbn.
    + subst r1. split.
      * intros [[= <- <-]|X]; [auto|]. right. split; [|auto]. intros ->. apply N1. apply in_map_iff. exists (r, a'). auto.
      * intros [[-> ->]|[X [[= -> ->]|Y]]]; auto. congruence.
    + rewrite IH by exact ND. split.
      * intros [[= <- <-]|[X|X]]; [right; split; [congruence|auto]|auto|right; tauto].
      * intros [[-> ->]|[X [Y|Y]]]; auto.
Qed.

Lemma extend_ok deferred : forall c Wx,
  linv c (deferred ++ c_outs c ++ Wx) ->
  NoDup (map fst deferred) -> NoDup (map fst (c_outs c)) ->
  let c' := extend deferred c in
  linv c' (c_outs c' ++ Wx) /\ c_conns c' = c_conns c /\ c_new c' = c_new c /\ samestate c c' /\
  NoDup (map fst (c_outs c')).
Proof.
  induction deferred as [|[r os] rest IH]; intros c Wx V ND NO c'; subst c'; cbn [extend].
  - split; [exact V|split; [auto|split; [auto|split; [apply samestate_refl|auto]]]].
  - cbn in ND. apply NoDup_cons_iff in ND as [N1 ND].
    set (c1 := match look (c_outs c) r with
               | Some lost => set_log (c_log c ++ map (LLost r) lost) c | None => c end) in *.
    assert (Ec : c_conns c1 = c_conns c /\ c_outs c1 = c_outs c /\ c_new c1 = c_new c /\ samestate c c1 /\
                 (forall o, waits (c_outs c) r o -> In (LLost r o) (c_log c1)) /\
                 (forall e, In e (c_log c1) -> In e (c_log c) \/ exists r' o, e = LLost r' o)).
    { subst c1. destruct (look (c_outs c) r) as [lost|] eqn:El.
      - split; [auto|split; [auto|split; [auto|]]]. split; [|split].
        + do 4 (split; [auto|]). split; [|split].
          * intros e X. cbn. apply in_app_iff. auto.
          * intros e X. cbn in X. apply in_app_iff in X as [X|X]; [auto|]. apply in_map_iff in X as (o & <- & _). eauto 6.
          * intros p ss r1 s1 X. cbn in X. apply in_app_iff in X as [X|X]; [auto|]. apply in_map_iff in X as (o & [=] & _).
        + intros o (os' & A & B). cbn. apply in_app_iff. right. apply in_map.
          apply (In_look _ _ _ NO) in A. congruence.
        + intros e X. cbn in X. apply in_app_iff in X as [X|X]; [auto|]. apply in_map_iff in X as (o & <- & _). eauto.
      - split; [auto|split; [auto|split; [auto|split; [apply samestate_refl|split; [|auto]]]]].
        intros o (os' & A & B). apply (In_look _ _ _ NO) in A. congruence. }
    destruct Ec as (C1 & C2 & C3 & C4 & C5 & C6).
    assert (M : forall e, In e (c_log c) -> In e (c_log c1)) by apply C4.
    set (c2 := set_outs (put (c_outs c1) r os) c1) in *.
    assert (NO2 : NoDup (map fst (c_outs c2))) by (cbn; apply keys_put_NoDup; rewrite C2; auto).
    assert (V2 : linv c2 (rest ++ c_outs c2 ++ Wx)).
    { destruct V as [v1 v2 v3 v4 v5 v6 v7 v8]. constructor; cbn [c_log c2 set_outs c_conns].
      - intros r1 o1 X.
        assert (X' : source (c_log c) r1 o1).
        { destruct X as [X|X]; destruct (C6 _ X) as [Y|(? & ? & Y)]; try discriminate; [left|right]; auto. }
        destruct (v1 r1 o1 X') as (r2 & L & [A|[A|A]]); exists r2; (split; [auto|]).
        + cbn [app] in A. rewrite waits_cons, !waits_app in A. unfold at_. rewrite !waits_app.
          assert (P1 : forall os', In os' os -> waits (put (c_outs c1) r os) r os').
          { intros o' Ho. exists os. split; [|auto]. apply put_In; [rewrite C2; auto|auto]. }
          destruct A as [[<- A]|[A|[A|A]]]; auto.
          destruct (opref_eq_dec r2 r) as [->|N]; [right; left; auto|].
          left. right. left. destruct A as (os' & A & B). exists os'. split; [|auto].
          apply put_In; [rewrite C2; auto|]. rewrite C2. auto.
        + right; left. auto.
        + right; right. eapply arrives_mono; eauto.
      - intros r1 t. rewrite C1. intros X. eapply conn_wf_mono; [exact M|]. auto.
      - intros r1 o1 X. assert (X' : source (c_log c) r1 o1).
        { apply v3. cbn [app]. rewrite waits_cons, !waits_app in *. destruct X as [X|[X|X]]; auto.
          destruct X as (os' & A & B). apply put_In in A; [|rewrite C2; auto]. rewrite C2 in A.
          destruct A as [[-> ->]|[_ A]]; [auto|]. right; right; left. exists os'. auto. }
        destruct X' as [Y|Y]; [left|right]; auto.
      - intros r1 o1 X. destruct (C6 _ X) as [Y|(? & ? & Y)]; [|discriminate].
        destruct (v4 _ _ Y); [left|right]; auto.
      - intros r1 o1 X. destruct (C6 _ X) as [Y|(? & ? & Y)]; [|discriminate]. eapply origin_mono; [exact M|auto].
      - intros e X. destruct (C6 _ X) as [Y|(? & ? & Y)]; [auto|subst; exact I].
      - intros o1 s1 X. destruct (C6 _ X) as [Y|(? & ? & Y)]; [|discriminate].
        destruct (v7 _ _ Y) as (r2 & s0 & B1 & B2). exists r2, s0. split; [auto|].
        destruct B2 as [(B2 & k1 & i & er & B3)|(B2 & B3)].
        + left. split; [auto|]. exists k1, i, er. auto.
        + right. split; [auto|]. destruct B3 as [B3|(k1 & out & er & B3 & B4)]; [auto|right].
          exists k1, out, er. auto.
      - intros r1 o1 X. destruct (C6 _ X) as [Y|(? & ? & Y)]; [|discriminate].
        destruct (v8 _ _ Y) as [Z|(to & G & Z)]; [left; eapply arrives_mono; eauto|right; eauto]. }
    destruct (IH c2 Wx V2 ND NO2) as (V3 & A3 & B3 & S3 & N3).
    split; [exact V3|split; [|split; [|split; [|exact N3]]]].
    + rewrite A3. exact C1.
    + rewrite B3. exact C3.
    + eapply samestate_trans; [exact C4|exact S3].
Qed.

Lemma pass_prog idle drained : forall deferred c c' deferred' prog',
  pass g imp idle drained deferred true c = inl (c', deferred', prog') -> prog' = true.
Proof.
  induction drained as [|[r os] rest IH]; intros deferred c c' deferred' prog' H; cbn [pass] in H.
  - injection H as _ _ <-. reflexivity.
  - destruct (look (c_conns c) r) as [t|].
    + destruct (hand_all _ _ _ _ _ _ _) as [[c1 k1]|e]; [|discriminate]. eapply IH; eauto.
    + destruct idle; [discriminate|]. eapply IH; eauto.
Qed.

(** What an operation directed to a target itself is never overwritten. *)
Definition kept (c : con) (W : list (opref * list output)) : Prop :=
  forall r o, In (LPut r o) (c_log c) -> In (LHand r o) (c_log c) \/ waits W r o.

Lemma hand_all_hands r sc os : forall k c c' k' W,
  linv c ((r, os) :: W ++ c_new c) -> conn_wf d (c_log c) r k ->
  hand_all g imp r sc k os c = inl (c', k') -> forall o, In o os -> In (LHand r o) (c_log c').
Proof.
  induction os as [|o os IH]; intros k c c' k' W V Wk H o1 Ho; [destruct Ho|]. cbn [hand_all] in H.
  destruct (connect_into g imp r sc k o (note (LHand r o) c)) as [[c1 k1]|e] eqn:E; [|discriminate].
  assert (W1 : conn_wf d (c_log (note (LHand r o) c)) r k).
  { eapply conn_wf_mono; [|exact Wk]. intros e He. apply note_in. auto. }
  destruct (connect_into_ok d g _ _ _ _ _ _ _ E W1) as (F & Wk' & S & Ev & A1 & A2).
  assert (Hh : In (LHand r o) (c_log c1)) by (eapply frame_in; [exact F|]; apply note_in; auto).
  assert (Hs : source (c_log c) r o).
  { apply (v_wait _ _ V). apply waits_cons. cbn. auto. }
  assert (V0 : linv c (((r, o :: os) :: W) ++ c_new c)) by exact V.
  destruct (hand_one _ _ _ _ _ _ _ _ V0 Hs Wk E) as (V1 & W1' & _); [auto|].
  assert (V2 : linv c1 ((r, os) :: W ++ c_new c1)).
  { destruct V1 as [v1 v2 v3 v4 v5 v6 v7 v8]. constructor; auto.
    - intros r1 o2 X. destruct (v1 r1 o2 X) as (r2 & L & [A|A]); [|exists r2; split; [auto|right; auto]].
      cbn [app] in A. apply waits_cons in A as [[<- [<-|A]]|A].
      + destruct S as [S|(to & G & S & _)].
        * exists r. split; [auto|]. right; right; auto.
        * exists to. split; [eapply leadsto_snoc; eauto|]. left. apply waits_cons. right. apply waits_app. auto.
      + exists r. split; [auto|]. left. apply waits_cons. auto.
      + exists r2. split; [auto|]. left. apply waits_cons. auto.
    - intros r1 o2 X. apply v3. cbn [app]. apply waits_cons in X as [[<- X]|X]; apply waits_cons; cbn; auto. }
  destruct Ho as [<-|Ho].
  - destruct (hand_all_ok _ _ _ _ _ _ _ _ V2 W1' H) as (_ & _ & _ & _ & _ & S3 & _).
    apply S3. exact Hh.
  - eapply IH; eauto.
Qed.

Lemma samestate_put c c' r o : samestate c c' -> In (LPut r o) (c_log c') -> In (LPut r o) (c_log c).
Proof.
  intros (_ & _ & _ & _ & _ & H & _) X.
  destruct (H _ X) as [Y|[(r1 & [[]|[(s & Y)|(s & o2 & Y)]])|[(r1 & o2 & Y)|(r1 & o2 & Y)]]]; auto; discriminate.
Qed.

Lemma pass_kept idle drained : forall deferred prog c c' deferred' prog',
  linv c (drained ++ deferred ++ c_new c) ->
  NoDup (map fst drained ++ map fst deferred) ->
  pass g imp idle drained deferred prog c = inl (c', deferred', prog') ->
  kept c (drained ++ deferred) -> kept c' deferred'.
Proof.
  induction drained as [|[r os] rest IH]; intros deferred prog c c' deferred' prog' V ND H K; cbn [pass] in H.
  - injection H as <- <- <-. exact K.
  - cbn [map app fst] in ND. apply NoDup_cons_iff in ND as [N1 ND].
    destruct (look (c_conns c) r) as [t|] eqn:El.
    + destruct (hand_all g imp r (t_scope t) (t_conn t) os c) as [[c1 k1]|e] eqn:E; [|discriminate].
      assert (V0 : linv c ((r, os) :: (rest ++ deferred) ++ c_new c)).
      { rewrite <- app_assoc. exact V. }
      destruct (hand_all_ok _ _ _ _ _ _ _ _ V0 (v_conn _ _ V _ _ El) E) as (V1 & W1 & Ev & E1 & E2 & S1 & K1).
      pose proof (hand_all_hands _ _ _ _ _ _ _ _ V0 (v_conn _ _ V _ _ El) E) as Hh.
      set (c2 := set_conns (put (c_conns c1) r {| t_conn := k1; t_scope := t_scope t |}) c1) in *.
      assert (V2 : linv c2 (rest ++ deferred ++ c_new c2)).
      { subst c2. apply linv_set_conns; [|rewrite app_assoc; exact V1].
        intros r1 t1. rewrite look_put. destruct (opref_eq_dec r1 r) as [->|N].
        - intros [= <-]. exact W1.
        - intros X. apply (v_conn _ _ V1). exact X. }
      eapply IH; [exact V2|exact ND|exact H|]. intros r1 o1 X. cbn in X |- *.
      destruct (K r1 o1 (samestate_put _ _ _ _ S1 X)) as [Y|Y]; [left; apply S1; exact Y|].
      cbn [app] in Y. apply waits_cons in Y as [[<- Y]|Y]; [left; auto|auto].
    + destruct idle; [discriminate|].
      assert (Nd : ~ In r (map fst deferred)) by (intros X; apply N1; apply in_app_iff; auto).
      assert (V2 : linv c (rest ++ put deferred r os ++ c_new c)).
      { rewrite put_fresh by exact Nd. eapply linv_weights; [|exact V]. intros r1 o1.
        cbn [app]. rewrite waits_cons, !waits_app, waits_cons. pose proof (waits_nil r1 o1). tauto. }
      assert (ND2 : NoDup (map fst rest ++ map fst (put deferred r os))).
      { rewrite put_fresh by exact Nd. rewrite map_app. cbn. rewrite app_assoc.
        apply NoDup_app_comm_snoc; auto. }
      eapply IH; [exact V2|exact ND2|exact H|]. intros r1 o1 X.
      destruct (K r1 o1 X) as [Y|Y]; [auto|right]. rewrite put_fresh by exact Nd.
      cbn [app] in Y. rewrite waits_cons, !waits_app in Y. rewrite !waits_app, waits_cons. tauto.
Qed.

Lemma extend_later deferred : forall c r o, NoDup (map fst deferred) -> NoDup (map fst (c_outs c)) ->
  ~ In r (map fst deferred) -> waits (c_outs c) r o -> waits (c_outs (extend deferred c)) r o.
Proof.
  induction deferred as [|[r1 os] rest IH]; intros c r o ND NO N H; cbn [extend]; [auto|].
  cbn in ND, N. apply NoDup_cons_iff in ND as [N1 ND].
  apply IH; auto.
  - cbn. apply keys_put_NoDup. destruct (look (c_outs c) r1); exact NO.
  - cbn. destruct H as (os' & A & B). exists os'. split; [|auto]. apply put_In.
    + destruct (look (c_outs c) r1); exact NO.
    + right. split; [intros ->; tauto|]. destruct (look (c_outs c) r1); exact A.
Qed.

Lemma extend_keeps deferred : forall c r o,
  NoDup (map fst deferred) -> NoDup (map fst (c_outs c)) ->
  waits deferred r o -> waits (c_outs (extend deferred c)) r o.
Proof.
  induction deferred as [|[r1 os] rest IH]; intros c r o ND NO H; cbn [extend]; [destruct (waits_nil _ _ H)|].
  cbn in ND. apply NoDup_cons_iff in ND as [N1 ND].
  assert (NO' : NoDup (map fst (put (c_outs (match look (c_outs c) r1 with
      | Some lost => set_log (c_log c ++ map (LLost r1) lost) c | None => c end)) r1 os))).
  { apply keys_put_NoDup. destruct (look (c_outs c) r1); exact NO. }
  apply waits_cons in H as [[<- H]|H].
  - apply extend_later; auto. cbn. exists os. split; [|auto]. apply put_In; [destruct (look (c_outs c) r1); exact NO|auto].
  - apply IH; auto.
Qed.

Lemma extend_log deferred : forall c e,
  In e (c_log (extend deferred c)) -> In e (c_log c) \/ exists r o, e = LLost r o.
Proof.
  induction deferred as [|[r1 os] rest IH]; intros c e H; cbn [extend] in H; [auto|].
  destruct (IH _ _ H) as [X|X]; [|auto]. cbn in X. destruct (look (c_outs c) r1) as [lost|]; [|auto].
  cbn in X. apply in_app_iff in X as [X|X]; [auto|]. apply in_map_iff in X as (o & <- & _). eauto.
Qed.

Lemma connect_loop_kept (ord : nat -> list (opref * list output) -> list (opref * list output)) idle :
  (forall n l, Permutation (ord n l) l) ->
  forall left prog c c' prog' left',
  linv c (c_outs c) -> NoDup (map fst (c_outs c)) -> c_new c = [] ->
  connect_loop g imp ord idle left prog c = inl (c', prog', left') ->
  kept c (c_outs c) -> kept c' (c_outs c').
Proof.
  intros Hord. induction left as [|left IH]; intros prog c c' prog' left' V NO Hn H K; cbn [connect_loop] in H.
  - destruct (pass g imp idle (ord 0 (c_outs c)) [] prog (set_outs [] c)) as [[[c1 def] prog1]|e]; discriminate.
  - destruct (pass g imp idle (ord (S left) (c_outs c)) [] prog (set_outs [] c)) as [[[c1 def] prog1]|e] eqn:E; [|discriminate].
    pose proof (Hord (S left) (c_outs c)) as Hp.
    assert (Wp : forall r o, waits (ord (S left) (c_outs c)) r o <-> waits (c_outs c) r o).
    { intros r o. unfold waits. split; intros (os & A & B); exists os; (split; [|auto]).
      - eapply Permutation_in; [exact Hp|auto].
      - eapply Permutation_in; [apply Permutation_sym; exact Hp|auto]. }
    assert (V0 : linv (set_outs [] c) (ord (S left) (c_outs c) ++ [] ++ c_new (set_outs [] c))).
    { cbn. rewrite Hn, app_nil_r. apply linv_set_outs. eapply linv_weights; [|exact V]. intros r o. symmetry. apply Wp. }
    assert (ND : NoDup (map fst (ord (S left) (c_outs c)) ++ map fst (@nil (opref * list output)))).
    { cbn. rewrite app_nil_r. eapply Permutation_NoDup; [|exact NO]. apply Permutation_map. apply Permutation_sym. exact Hp. }
    destruct (pass_ok _ _ _ _ _ _ _ _ V0 ND E) as (V1 & T1 & O1 & S1 & ND1 & K1 & D1 & I1 & P1).
    assert (Kp : kept c1 def).
    { eapply pass_kept; [exact V0|exact ND|exact E|]. intros r o X. destruct (K r o X) as [Y|Y]; [auto|].
      right. rewrite app_nil_r. apply Wp. auto. }
    set (c2 := set_new [] (set_outs (c_new c1) c1)) in *.
    assert (V2 : linv c2 (def ++ c_outs c2 ++ [])).
    { rewrite app_nil_r. subst c2. cbn [c_outs set_new set_outs]. apply linv_set_new, linv_set_outs. exact V1. }
    assert (NO2 : NoDup (map fst (c_outs c2))).
    { cbn. apply K1. cbn. rewrite Hn. constructor. }
    destruct (extend_ok def c2 [] V2 ND1 NO2) as (V3 & A3 & B3 & S3 & N3).
    rewrite app_nil_r in V3.
    assert (K3 : kept (extend def c2) (c_outs (extend def c2))).
    { intros r o X. destruct (extend_log _ _ _ X) as [Y|(? & ? & Y)]; [|discriminate].
      destruct (Kp r o Y) as [Z|Z]; [left; apply S3; exact Z|right; apply extend_keeps; auto]. }
    destruct (match c_new c1 with [] => false | _ :: _ => true end).
    + eapply IH; eauto.
    + injection H as <- <- <-. exact K3.
Qed.

Lemma connect_loop_ok (ord : nat -> list (opref * list output) -> list (opref * list output)) idle :
  (forall n l, Permutation (ord n l) l) ->
  forall left prog c c' prog' left',
  linv c (c_outs c) -> NoDup (map fst (c_outs c)) -> c_new c = [] ->
  connect_loop g imp ord idle left prog c = inl (c', prog', left') ->
  linv c' (c_outs c') /\ NoDup (map fst (c_outs c')) /\ c_new c' = [] /\ same_targets c c' /\ samestate c c' /\
  left' < left /\ (prog = true -> prog' = true).
Proof.
  intros Hord. induction left as [|left IH]; intros prog c c' prog' left' V NO Hn H; cbn [connect_loop] in H.
  - destruct (pass g imp idle (ord 0 (c_outs c)) [] prog (set_outs [] c)) as [[[c1 def] prog1]|e]; discriminate.
  - destruct (pass g imp idle (ord (S left) (c_outs c)) [] prog (set_outs [] c)) as [[[c1 def] prog1]|e] eqn:E; [|discriminate].
    pose proof (Hord (S left) (c_outs c)) as Hp.
    assert (V0 : linv (set_outs [] c) (ord (S left) (c_outs c) ++ [] ++ c_new (set_outs [] c))).
    { cbn. rewrite Hn, app_nil_r. apply linv_set_outs. eapply linv_weights; [|exact V].
      intros r o. unfold waits. split; intros (os & A & B); exists os; (split; [|auto]).
      - eapply Permutation_in; [apply Permutation_sym; exact Hp|auto].
      - eapply Permutation_in; [exact Hp|auto]. }
    assert (ND : NoDup (map fst (ord (S left) (c_outs c)) ++ map fst (@nil (opref * list output)))).
    { cbn. rewrite app_nil_r. eapply Permutation_NoDup; [|exact NO]. apply Permutation_map. apply Permutation_sym. exact Hp. }
    destruct (pass_ok _ _ _ _ _ _ _ _ V0 ND E) as (V1 & T1 & O1 & S1 & ND1 & K1 & D1 & I1 & P1).
    set (c2 := set_new [] (set_outs (c_new c1) c1)) in *.
    assert (V2 : linv c2 (def ++ c_outs c2 ++ [])).
    { rewrite app_nil_r. subst c2. cbn [c_outs set_new set_outs]. apply linv_set_new, linv_set_outs. exact V1. }
    assert (NO2 : NoDup (map fst (c_outs c2))).
    { cbn. apply K1. cbn. rewrite Hn. constructor. }
    destruct (extend_ok def c2 [] V2 ND1 NO2) as (V3 & A3 & B3 & S3 & N3).
    rewrite app_nil_r in V3.
    assert (T : same_targets c (extend def c2)).
    { eapply same_targets_trans; [apply (same_targets_eq c (set_outs [] c)); reflexivity|].
      eapply same_targets_trans; [exact T1|]. apply same_targets_eq. rewrite A3. reflexivity. }
    assert (S : samestate c (extend def c2)).
    { eapply samestate_trans; [exact S1|exact S3]. }
    destruct (match c_new c1 with [] => false | _ :: _ => true end).
    + destruct (IH _ _ _ _ _ V3 N3 B3 H) as (V4 & N4 & B4 & T4 & S4 & L4 & P4).
      split; [auto|split; [auto|split; [auto|split; [eapply same_targets_trans; eauto|split; [eapply samestate_trans; eauto|]]]]].
      split; [lia|auto].
    + injection H as <- <- <-. split; [auto|split; [auto|split; [auto|split; [auto|split; [auto|split; [lia|auto]]]]]].
Qed.

(** ** What is lost

    Something is only overwritten by outputs which wait for a target without a
    connector. *)

Definition full (m : list (opref * list output)) : Prop := forall r os, In (r, os) m -> os <> [].

Definition lost_ok (c : con) (W : list (opref * list output)) : Prop :=
  full W /\ forall r o, In (LLost r o) (c_log c) -> exists o', In (LHand r o') (c_log c) \/ waits W r o'.

Lemma full_push m r o : full m -> full (push m r o).
Proof.
  intros H. induction m as [|[r1 os] m IH]; cbn.
  - intros r2 os2 [[= <- <-]|[]]. discriminate.
  - destruct (opref_eq_dec r r1).
    + intros r2 os2 [[= <- <-]|X]; [destruct os; discriminate|]. apply (H r2). right. exact X.
    + intros r2 os2 [[= <- <-]|X]; [apply (H r1); left; reflexivity|].
      eapply IH; [|exact X]. intros r3 os3 Y. apply (H r3). right. exact Y.
Qed.

Lemma full_put m r os : full m -> os <> [] -> full (put m r os).
Proof.
  intros H N. induction m as [|[r1 os1] m IH]; cbn.
  - intros r2 os2 [[= <- <-]|[]]. exact N.
  - destruct (opref_eq_dec r r1).
    + intros r2 os2 [[= <- <-]|X]; [exact N|]. apply (H r2). right. exact X.
    + intros r2 os2 [[= <- <-]|X]; [apply (H r1); left; reflexivity|].
      eapply IH; [|exact X]. intros r3 os3 Y. apply (H r3). right. exact Y.
Qed.

Lemma connect_to_new o s c c' : connect_to o s c = inl c' -> c_new c' = c_new c.
Proof. unfold connect_to. destruct (o_ty o =? s_ty s); [|discriminate]. intros [= <-]. reflexivity. Qed.

Ltac to_new :=
  repeat match goal with
  | H : match connect_to ?o ?s ?c with inl _ => _ | inr _ => _ end = inl _ |- _ =>
      let E := fresh "E" in destruct (connect_to o s c) eqn:E; [apply connect_to_new in E|discriminate H]
  end.

Ltac fin_new := repeat match goal with E : c_new _ = c_new _ |- _ => rewrite E; clear E end; assumption.

Lemma try_serialize_new sc s inc o c c' x : try_serialize g imp sc s inc o c = inl (c', x) -> full (c_new c) -> full (c_new c').
Proof.
  intros H F. unfold try_serialize in H. destruct (o_ty o =? TJson).
  - to_new. injection H as <- _. fin_new.
  - destruct (find (o_ty o) inc) as [i|]; [to_new; injection H as <- _; fin_new|].
    destruct (r_ser g (o_ty o)); [|injection H as <- _; exact F]. cbn [new_fallible spawn_slot spawn_output spawn] in H.
    to_new. injection H as <- _. rewrite E0. cbn. apply full_push. rewrite E. exact F.
Qed.

Lemma deserialize_new sc s ser o c c' x : deserialize g imp sc s ser o c = inl (c', x) -> full (c_new c) -> full (c_new c').
Proof.
  intros H F. unfold deserialize in H. destruct (o_ty o =? s_ty s).
  - to_new. injection H as <- _. fin_new.
  - destruct (o_ty o =? TJson); [|discriminate]. destruct ser as [i|].
    + to_new. injection H as <- _. fin_new.
    + destruct (r_de g (s_ty s)); [|discriminate]. cbn [new_fallible spawn_slot spawn_output spawn] in H.
      to_new. injection H as <- _. rewrite E0. cbn. apply full_push. rewrite E. exact F.
Qed.

Lemma std_connect_new sc x o c c' x' : std_connect g imp sc x o c = inl (c', x') -> full (c_new c) -> full (c_new c').
Proof.
  intros H F. destruct x as [s inc|s ser|s]; cbn [std_connect] in H.
  - destruct (try_serialize g imp sc s inc o c) as [[c1 [y|]]|e] eqn:E; [|discriminate|discriminate].
    injection H as <- _. eapply try_serialize_new; eauto.
  - destruct (deserialize g imp sc s ser o c) as [[c1 y]|e] eqn:E; [|discriminate].
    injection H as <- _. eapply deserialize_new; eauto.
  - to_new. injection H as <- _. fin_new.
Qed.

Lemma cancel_connect_new sc qq j s js ss ts o c c' k' :
  cancel_connect g imp sc qq j s js ss ts o c = inl (c', k') -> full (c_new c) -> full (c_new c').
Proof.
  intros H F. unfold cancel_connect in H.
  destruct (try_string g sc s ss o c) as [[c1 [ss'|]]|e] eqn:E; [| |discriminate].
  - injection H as <- _. unfold try_string in E. destruct (o_ty o =? TString).
    + to_new. injection E as <- _. fin_new.
    + destruct (find (o_ty o) ss) as [i|]; [to_new; injection E as <- _; fin_new|].
      destruct (negb (r_known g (o_ty o))); [discriminate|]. destruct (r_string g (o_ty o)); [|discriminate].
      cbn [new_plain spawn_slot spawn_output spawn] in E. to_new. injection E as <- _. rewrite E1, E0. exact F.
  - destruct (try_serialize g imp sc j js o c) as [[c2 [js'|]]|e] eqn:E2; [| |discriminate].
    + injection H as <- _. eapply try_serialize_new; eauto.
    + destruct (find (o_ty o) ts) as [i|]; [to_new; injection H as <- _; fin_new|].
      destruct (r_known g (o_ty o)); [|discriminate]. cbn [new_plain spawn_slot spawn_output spawn] in H.
      to_new. injection H as <- _. rewrite E1, E0. exact F.
Qed.

Lemma connect_into_new r sc k o c c' k' :
  connect_into g imp r sc k o c = inl (c', k') -> full (c_new c) -> full (c_new c').
Proof.
  intros H F.
  assert (P : forall r o c, full (c_new c) -> full (c_new (pass_output r o c))).
  { intros. cbn. apply full_push. auto. }
  destruct k as [x| |q j s js ss ts|to seen|scid en st [x|]|scid te ex par nx [x|]|scid par to [x|]]; cbn [connect_into] in H.
  - destruct (std_connect g imp sc x o c) as [[c1 x1]|e] eqn:E; [|discriminate]. injection H as <- _.
    eapply std_connect_new; eauto.
  - injection H as <- _. exact F.
  - eapply cancel_connect_new; eauto.
  - destruct (existsb (Nat.eqb (o_id o)) seen); [discriminate|]. injection H as <- _. auto.
  - destruct (std_connect g imp sc x o c) as [[c1 x1]|e] eqn:E; [|discriminate]. injection H as <- _.
    eapply std_connect_new; eauto.
  - destruct (r_known g (o_ty o)); [|discriminate].
    destruct (std_connect _ _ _ _ _ _) as [[c1 x1]|e] eqn:E; [|discriminate]. injection H as <- _.
    eapply std_connect_new; [exact E|]. apply P. exact F.
  - destruct (std_connect g imp sc x o c) as [[c1 x1]|e] eqn:E; [|discriminate]. injection H as <- _.
    eapply std_connect_new; eauto.
  - destruct (r_known g (o_ty o)); [|discriminate].
    destruct (std_connect _ _ _ _ _ _) as [[c1 x1]|e] eqn:E; [|discriminate]. injection H as <- _.
    eapply std_connect_new; [exact E|]. apply P. exact F.
  - destruct (std_connect g imp sc x o c) as [[c1 x1]|e] eqn:E; [|discriminate]. injection H as <- _.
    eapply std_connect_new; eauto.
  - destruct (r_known g (o_ty o)); [|discriminate]. cbn [spawn_slot spawn_output spawn] in H.
    destruct (std_connect _ _ _ _ _ _) as [[c1 x1]|e] eqn:E; [|discriminate]. injection H as <- _.
    eapply std_connect_new; [exact E|]. apply P. exact F.
Qed.

Lemma hand_all_new r sc os : forall k c c' k',
  hand_all g imp r sc k os c = inl (c', k') -> full (c_new c) -> full (c_new c').
Proof.
  induction os as [|o os IH]; intros k c c' k' H F; cbn [hand_all] in H; [injection H as <- _; exact F|].
  destruct (connect_into g imp r sc k o (note (LHand r o) c)) as [[c1 k1]|e] eqn:E; [|discriminate].
  eapply IH; [exact H|]. eapply connect_into_new; [exact E|exact F].
Qed.

(** Every output that waited is given to its target or waits again. *)
Lemma pass_waits idle drained : forall deferred prog c c' deferred' prog',
  linv c (drained ++ deferred ++ c_new c) ->
  NoDup (map fst drained ++ map fst deferred) ->
  pass g imp idle drained deferred prog c = inl (c', deferred', prog') ->
  (full (c_new c) -> full (c_new c')) /\ (full drained -> full deferred -> full deferred') /\
  forall r o, waits (drained ++ deferred) r o -> In (LHand r o) (c_log c') \/ waits deferred' r o.
Proof.
  induction drained as [|[r os] rest IH]; intros deferred prog c c' deferred' prog' V ND H; cbn [pass] in H.
  - injection H as <- <- <-. auto.
  - cbn [map app fst] in ND. apply NoDup_cons_iff in ND as [N1 ND].
    destruct (look (c_conns c) r) as [t|] eqn:El.
    + destruct (hand_all g imp r (t_scope t) (t_conn t) os c) as [[c1 k1]|e] eqn:E; [|discriminate].
      assert (V0 : linv c ((r, os) :: (rest ++ deferred) ++ c_new c)).
      { rewrite <- app_assoc. exact V. }
      destruct (hand_all_ok _ _ _ _ _ _ _ _ V0 (v_conn _ _ V _ _ El) E) as (V1 & W1 & Ev & E1 & E2 & S1 & K1).
      pose proof (hand_all_hands _ _ _ _ _ _ _ _ V0 (v_conn _ _ V _ _ El) E) as Hh.
      pose proof (hand_all_new _ _ _ _ _ _ _ E) as Hf.
      set (c2 := set_conns (put (c_conns c1) r {| t_conn := k1; t_scope := t_scope t |}) c1) in *.
      assert (V2 : linv c2 (rest ++ deferred ++ c_new c2)).
      { subst c2. apply linv_set_conns; [|rewrite app_assoc; exact V1].
        intros r1 t1. rewrite look_put. destruct (opref_eq_dec r1 r) as [->|N].
        - intros [= <-]. exact W1.
        - intros X. apply (v_conn _ _ V1). exact X. }
      destruct (IH _ _ _ _ _ _ V2 ND H) as (F3 & D3 & W3).
      destruct (pass_ok _ _ _ _ _ _ _ _ V2 ND H) as (_ & _ & _ & S3 & _).
      split; [auto|]. split; [intros X Y; apply D3; [intros r1 os1 Z; apply (X r1); right; exact Z|exact Y]|].
      intros r1 o1 X. cbn [app] in X. apply waits_cons in X as [[<- X]|X]; [left; apply S3; apply Hh; exact X|auto].
    + destruct idle; [discriminate|].
      assert (Nd : ~ In r (map fst deferred)) by (intros X; apply N1; apply in_app_iff; auto).
      assert (V2 : linv c (rest ++ put deferred r os ++ c_new c)).
      { rewrite put_fresh by exact Nd. eapply linv_weights; [|exact V]. intros r1 o1.
        cbn [app]. rewrite waits_cons, !waits_app, waits_cons. pose proof (waits_nil r1 o1). tauto. }
      assert (ND2 : NoDup (map fst rest ++ map fst (put deferred r os))).
      { rewrite put_fresh by exact Nd. rewrite map_app. cbn. rewrite app_assoc.
        apply NoDup_app_comm_snoc; auto. }
      destruct (IH _ _ _ _ _ _ V2 ND2 H) as (F3 & D3 & W3). split; [exact F3|]. split.
      * intros X Y. apply D3; [intros r1 os1 Z; apply (X r1); right; exact Z|].
        apply full_put; [exact Y|]. apply (X r). left. reflexivity.
      * intros r1 o1 X. apply W3. rewrite put_fresh by exact Nd.
        cbn [app] in X. rewrite waits_cons, !waits_app in X. rewrite !waits_app, waits_cons. tauto.
Qed.

Lemma extend_full deferred : forall c, full deferred -> full (c_outs c) -> full (c_outs (extend deferred c)).
Proof.
  induction deferred as [|[r os] rest IH]; intros c F1 F2; cbn [extend]; [exact F2|].
  apply IH; [intros r1 os1 X; apply (F1 r1); right; exact X|]. cbn. apply full_put.
  - destruct (look (c_outs c) r); exact F2.
  - apply (F1 r). left. reflexivity.
Qed.

Lemma extend_lost deferred : forall c r o,
  In (LLost r o) (c_log (extend deferred c)) -> In (LLost r o) (c_log c) \/ In r (map fst deferred).
Proof.
  induction deferred as [|[r1 os] rest IH]; intros c r o H; cbn [extend] in H; [auto|].
  destruct (IH _ _ _ H) as [X|X]; [|right; right; exact X]. cbn in X. destruct (look (c_outs c) r1) as [lost|]; [|auto].
  cbn in X. apply in_app_iff in X as [X|X]; [auto|]. apply in_map_iff in X as (o' & [= <- _] & _). right. left. reflexivity.
Qed.

Lemma hand_all_lost r sc os r0 o0 : forall k c c' k',
  conn_wf d (c_log c) r k -> hand_all g imp r sc k os c = inl (c', k') ->
  In (LLost r0 o0) (c_log c') -> In (LLost r0 o0) (c_log c).
Proof.
  induction os as [|o os IH]; intros k c c' k' W H X; cbn [hand_all] in H; [injection H as <- _; exact X|].
  destruct (connect_into g imp r sc k o (note (LHand r o) c)) as [[c1 k1]|e] eqn:E; [|discriminate].
  assert (W1 : conn_wf d (c_log (note (LHand r o) c)) r k).
  { eapply conn_wf_mono; [|exact W]. intros e He. apply note_in. auto. }
  destruct (connect_into_ok d g _ _ _ _ _ _ _ E W1) as (F & Wk' & _).
  pose proof (IH _ _ _ _ Wk' H X) as Y.
  apply (frame_new _ _ _ _ F) in Y as [Y|[[]|[(s & Y)|(s & o1 & Y)]]]; try discriminate.
  apply note_in in Y as [Y|Y]; [exact Y|discriminate].
Qed.

Lemma pass_log idle drained : forall deferred prog c c' deferred' prog' r o,
  linv c (drained ++ deferred ++ c_new c) ->
  NoDup (map fst drained ++ map fst deferred) ->
  pass g imp idle drained deferred prog c = inl (c', deferred', prog') ->
  In (LLost r o) (c_log c') -> In (LLost r o) (c_log c).
Proof.
  induction drained as [|[r os] rest IH]; intros deferred prog c c' deferred' prog' r0 o0 V ND H X; cbn [pass] in H.
  - injection H as <- <- <-. auto.
  - cbn [map app fst] in ND. apply NoDup_cons_iff in ND as [N1 ND].
    destruct (look (c_conns c) r) as [t|] eqn:El.
    + destruct (hand_all g imp r (t_scope t) (t_conn t) os c) as [[c1 k1]|e] eqn:E; [|discriminate].
      assert (V0 : linv c ((r, os) :: (rest ++ deferred) ++ c_new c)).
      { rewrite <- app_assoc. exact V. }
      destruct (hand_all_ok _ _ _ _ _ _ _ _ V0 (v_conn _ _ V _ _ El) E) as (V1 & W1 & Ev & E1 & E2 & S1 & K1).
      set (c2 := set_conns (put (c_conns c1) r {| t_conn := k1; t_scope := t_scope t |}) c1) in *.
      assert (V2 : linv c2 (rest ++ deferred ++ c_new c2)).
      { subst c2. apply linv_set_conns; [|rewrite app_assoc; exact V1].
        intros r1 t1. rewrite look_put. destruct (opref_eq_dec r1 r) as [->|N].
        - intros [= <-]. exact W1.
        - intros Y. apply (v_conn _ _ V1). exact Y. }
      pose proof (IH _ _ _ _ _ _ _ _ V2 ND H X) as Y. change (c_log c2) with (c_log c1) in Y.
      eapply hand_all_lost; [exact (v_conn _ _ V _ _ El)|exact E|exact Y].
    + destruct idle; [discriminate|].
      assert (Nd : ~ In r (map fst deferred)) by (intros Y; apply N1; apply in_app_iff; auto).
      eapply IH; [| |exact H|exact X].
      * rewrite put_fresh by exact Nd. eapply linv_weights; [|exact V]. intros r1 o1.
        cbn [app]. rewrite waits_cons, !waits_app, waits_cons. pose proof (waits_nil r1 o1). tauto.
      * rewrite put_fresh by exact Nd. rewrite map_app. cbn. rewrite app_assoc.
        apply NoDup_app_comm_snoc; auto.
Qed.
Lemma connect_loop_lost (ord : nat -> list (opref * list output) -> list (opref * list output)) idle :
  (forall n l, Permutation (ord n l) l) ->
  forall left prog c c' prog' left',
  linv c (c_outs c) -> NoDup (map fst (c_outs c)) -> c_new c = [] -> full (c_outs c) ->
  connect_loop g imp ord idle left prog c = inl (c', prog', left') ->
  full (c_outs c') /\
  (forall r o, waits (c_outs c) r o -> In (LHand r o) (c_log c') \/ waits (c_outs c') r o) /\
  (forall r o, In (LLost r o) (c_log c') -> In (LLost r o) (c_log c) \/
     (look (c_conns c) r = None /\ exists o', In (LHand r o') (c_log c') \/ waits (c_outs c') r o')) /\
  (idle = true -> prog' = false -> c_outs c = []).
Proof.
  intros Hord. induction left as [|left IH]; intros prog c c' prog' left' V NO Hn Fc H; cbn [connect_loop] in H.
  - destruct (pass g imp idle (ord 0 (c_outs c)) [] prog (set_outs [] c)) as [[[c1 def] prog1]|e]; discriminate.
  - destruct (pass g imp idle (ord (S left) (c_outs c)) [] prog (set_outs [] c)) as [[[c1 def] prog1]|e] eqn:E; [|discriminate].
    pose proof (Hord (S left) (c_outs c)) as Hp.
    assert (Wp : forall r o, waits (c_outs c) r o -> waits (ord (S left) (c_outs c)) r o).
    { intros r o (os & A & B). exists os. split; [|auto]. eapply Permutation_in; [apply Permutation_sym; exact Hp|auto]. }
    assert (V0 : linv (set_outs [] c) (ord (S left) (c_outs c) ++ [] ++ c_new (set_outs [] c))).
    { cbn. rewrite Hn, app_nil_r. apply linv_set_outs. eapply linv_weights; [|exact V].
      intros r o. split; [apply Wp|]. intros (os & A & B). exists os. split; [|auto]. eapply Permutation_in; [exact Hp|auto]. }
    assert (ND : NoDup (map fst (ord (S left) (c_outs c)) ++ map fst (@nil (opref * list output)))).
    { cbn. rewrite app_nil_r. eapply Permutation_NoDup; [|exact NO]. apply Permutation_map. apply Permutation_sym. exact Hp. }
    assert (Fo : full (ord (S left) (c_outs c))).
    { intros r os X. apply (Fc r). eapply Permutation_in; [exact Hp|exact X]. }
    destruct (pass_ok _ _ _ _ _ _ _ _ V0 ND E) as (V1 & T1 & O1 & S1 & ND1 & K1 & D1 & I1 & P1).
    destruct (pass_waits _ _ _ _ _ _ _ _ V0 ND E) as (F1 & F2 & W1).
    assert (Fd : full def) by (apply F2; [exact Fo|intros r os []]).
    assert (Fn : full (c_new c1)) by (apply F1; cbn; rewrite Hn; intros r os []).
    set (c2 := set_new [] (set_outs (c_new c1) c1)) in *.
    assert (V2 : linv c2 (def ++ c_outs c2 ++ [])).
    { rewrite app_nil_r. subst c2. cbn [c_outs set_new set_outs]. apply linv_set_new, linv_set_outs. exact V1. }
    assert (NO2 : NoDup (map fst (c_outs c2))).
    { cbn. apply K1. cbn. rewrite Hn. constructor. }
    destruct (extend_ok def c2 [] V2 ND1 NO2) as (V3 & A3 & B3 & S3 & N3).
    rewrite app_nil_r in V3.
    assert (F3 : full (c_outs (extend def c2))) by (apply extend_full; [exact Fd|exact Fn]).
    assert (W3 : forall r o, waits (c_outs c) r o -> In (LHand r o) (c_log (extend def c2)) \/ waits (c_outs (extend def c2)) r o).
    { intros r o X. destruct (W1 r o) as [Y|Y].
      - rewrite app_nil_r. apply Wp. exact X.
      - left. apply S3. exact Y.
      - right. apply extend_keeps; auto. }
    assert (L3 : forall r o, In (LLost r o) (c_log (extend def c2)) -> In (LLost r o) (c_log c) \/
               (look (c_conns c) r = None /\ exists o', waits (c_outs (extend def c2)) r o')).
    { intros r o X. apply extend_lost in X as [X|X].
      - left. change (c_log c2) with (c_log c1) in X. exact (pass_log _ _ _ _ _ _ _ _ _ _ V0 ND E X).
      - right. destruct (D1 r X) as [[]|[Y Z]]. split; [exact Z|].
        apply in_map_iff in X as ([r1 os] & X1 & X). cbn in X1. subst r1. destruct os as [|o1 os]; [destruct (Fd r [] X eq_refl)|].
        exists o1. apply extend_keeps; auto. exists (o1 :: os). cbn. auto. }
    assert (T : same_targets c (extend def c2)).
    { eapply same_targets_trans; [apply (same_targets_eq c (set_outs [] c)); reflexivity|].
      eapply same_targets_trans; [exact T1|]. apply same_targets_eq. rewrite A3. reflexivity. }
    assert (Hi : idle = true -> prog1 = false -> c_outs c = []).
    { intros -> ->. destruct (c_outs c) as [|x l] eqn:Eo; [reflexivity|exfalso].
      destruct (ord (S left) (x :: l)) as [|[r os] rest] eqn:Er.
      - apply Permutation_nil in Hp. discriminate.
      - cbn [pass] in E. cbn [set_outs c_conns] in E. destruct (look (c_conns c) r) as [t|]; [|discriminate].
        destruct (hand_all _ _ _ _ _ _ _) as [[c4 k4]|e]; [|discriminate].
        destruct os as [|o os]; [apply (Fo r []); [left; reflexivity|reflexivity]|].
        rewrite orb_true_r in E. apply pass_prog in E. discriminate. }
    destruct (match c_new c1 with [] => false | _ :: _ => true end).
    + destruct (IH _ _ _ _ _ V3 N3 B3 F3 H) as (F4 & W4 & L4 & I4).
      destruct (connect_loop_ok ord idle Hord _ _ _ _ _ _ V3 N3 B3 H) as (_ & _ & _ & _ & S4 & _ & P4).
      split; [exact F4|]. split; [|split].
      * intros r o X. destruct (W3 r o X) as [Y|Y]; [left; apply S4; exact Y|auto].
      * intros r o X. destruct (L4 r o X) as [Y|[Y Z]].
        -- destruct (L3 r o Y) as [Z|[Z1 (o' & Z2)]]; [auto|]. right. split; [exact Z1|]. exists o'. auto.
        -- right. split; [|exact Z]. specialize (T r). rewrite Y in T. destruct (look (c_conns c) r); [destruct T|reflexivity].
      * intros X Y. apply Hi; [exact X|]. destruct prog1; [rewrite (P4 eq_refl) in Y; discriminate|reflexivity].
    + injection H as <- <- <-. split; [exact F3|]. split; [exact W3|]. split; [|exact Hi].
      intros r o X. destruct (L3 r o X) as [Z|[Z1 (o' & Z2)]]; [auto|]. right. split; [exact Z1|]. exists o'. auto.
Qed.

(** ** The errors of conversions *)

Definition errs (log : list entry) : Prop :=
  forall k i ok er, In (LConv k i ok (Some er)) log -> In (LPass imp er) log.

Lemma errs_app log e : errs log -> (forall k i ok er, e <> LConv k i ok (Some er)) -> errs (log ++ [e]).
Proof.
  intros H N k i ok er X. apply in_app_iff in X as [X|[X|[]]]; [|destruct (N k i ok er X)].
  apply in_app_iff. left. eapply H; eauto.
Qed.

Lemma connect_to_log o s c c' : connect_to o s c = inl c' -> c_log c' = c_log c ++ [LConnect o s].
Proof. unfold connect_to. destruct (o_ty o =? s_ty s); [|discriminate]. intros [= <-]. reflexivity. Qed.

Ltac to_log :=
  repeat match goal with
  | H : match connect_to ?o ?s ?c with inl _ => _ | inr _ => _ end = inl _ |- _ =>
      let E := fresh "E" in destruct (connect_to o s c) eqn:E; [apply connect_to_log in E|discriminate H]
  end.

Lemma errs_fallible log k i ok er o1 s1 o2 s2 : errs log ->
  errs (((((log ++ [LConv k i ok (Some er)]) ++ [LConnect o1 s1]) ++ [LPass imp er])) ++ [LConnect o2 s2]).
Proof.
  intros H k' i' ok' er' X. rewrite <- !app_assoc in X. rewrite <- !app_assoc. apply in_app_iff.
  apply in_app_iff in X as [X|X]; [left; eapply H; eauto|right]. cbn in X |- *.
  destruct X as [X|[X|[X|[X|[]]]]]; try discriminate. injection X as _ _ _ ->. auto.
Qed.

Lemma errs_plain log k i ok o1 s1 o2 s2 : errs log ->
  errs (((log ++ [LConv k i ok None]) ++ [LConnect o1 s1]) ++ [LConnect o2 s2]).
Proof. intros H. repeat (apply errs_app; [|discriminate]). exact H. Qed.

Lemma try_serialize_errs sc s inc o c c' x : try_serialize g imp sc s inc o c = inl (c', x) -> errs (c_log c) -> errs (c_log c').
Proof.
  intros H F. unfold try_serialize in H. destruct (o_ty o =? TJson).
  - to_log. injection H as <- _. rewrite E. apply errs_app; [exact F|discriminate].
  - destruct (find (o_ty o) inc) as [i|].
    + to_log. injection H as <- _. rewrite E. apply errs_app; [exact F|discriminate].
    + destruct (r_ser g (o_ty o)); [|injection H as <- _; exact F]. cbn [new_fallible spawn_slot spawn_output spawn] in H.
      to_log. injection H as <- _. rewrite E0. cbn [pass_output note set_log c_log set_new]. rewrite E.
      apply errs_fallible. exact F.
Qed.

Lemma deserialize_errs sc s ser o c c' x : deserialize g imp sc s ser o c = inl (c', x) -> errs (c_log c) -> errs (c_log c').
Proof.
  intros H F. unfold deserialize in H. destruct (o_ty o =? s_ty s).
  - to_log. injection H as <- _. rewrite E. apply errs_app; [exact F|discriminate].
  - destruct (o_ty o =? TJson); [|discriminate]. destruct ser as [i|].
    + to_log. injection H as <- _. rewrite E. apply errs_app; [exact F|discriminate].
    + destruct (r_de g (s_ty s)); [|discriminate]. cbn [new_fallible spawn_slot spawn_output spawn] in H.
      to_log. injection H as <- _. rewrite E0. cbn [pass_output note set_log c_log set_new]. rewrite E.
      apply errs_fallible. exact F.
Qed.

Lemma std_connect_errs sc x o c c' x' : std_connect g imp sc x o c = inl (c', x') -> errs (c_log c) -> errs (c_log c').
Proof.
  intros H F. destruct x as [s inc|s ser|s]; cbn [std_connect] in H.
  - destruct (try_serialize g imp sc s inc o c) as [[c1 [y|]]|e] eqn:E; [|discriminate|discriminate].
    injection H as <- _. eapply try_serialize_errs; eauto.
  - destruct (deserialize g imp sc s ser o c) as [[c1 y]|e] eqn:E; [|discriminate].
    injection H as <- _. eapply deserialize_errs; eauto.
  - to_log. injection H as <- _. rewrite E. apply errs_app; [exact F|discriminate].
Qed.

Lemma cancel_connect_errs sc qq j s js ss ts o c c' k' :
  cancel_connect g imp sc qq j s js ss ts o c = inl (c', k') -> errs (c_log c) -> errs (c_log c').
Proof.
  intros H F. unfold cancel_connect in H.
  destruct (try_string g sc s ss o c) as [[c1 [ss'|]]|e] eqn:E; [| |discriminate].
  - injection H as <- _. unfold try_string in E. destruct (o_ty o =? TString).
    + to_log. injection E as <- _. rewrite E0. apply errs_app; [exact F|discriminate].
    + destruct (find (o_ty o) ss) as [i|]; [to_log; injection E as <- _; rewrite E0; apply errs_app; [exact F|discriminate]|].
      destruct (negb (r_known g (o_ty o))); [discriminate|]. destruct (r_string g (o_ty o)); [|discriminate].
      cbn [new_plain spawn_slot spawn_output spawn] in E. to_log. injection E as <- _. rewrite E1, E0. apply errs_plain. exact F.
  - destruct (try_serialize g imp sc j js o c) as [[c2 [js'|]]|e] eqn:E2; [| |discriminate].
    + injection H as <- _. eapply try_serialize_errs; eauto.
    + destruct (find (o_ty o) ts) as [i|]; [to_log; injection H as <- _; rewrite E0; apply errs_app; [exact F|discriminate]|].
      destruct (r_known g (o_ty o)); [|discriminate]. cbn [new_plain spawn_slot spawn_output spawn] in H.
      to_log. injection H as <- _. rewrite E1, E0. apply errs_plain. exact F.
Qed.

Lemma connect_into_errs r sc k o c c' k' :
  connect_into g imp r sc k o c = inl (c', k') -> errs (c_log c) -> errs (c_log c').
Proof.
  intros H F.
  assert (P : forall r o c, errs (c_log c) -> errs (c_log (pass_output r o c))).
  { intros. apply errs_app; [auto|discriminate]. }
  destruct k as [x| |q j s js ss ts|to seen|scid en st [x|]|scid te ex par nx [x|]|scid par to [x|]]; cbn [connect_into] in H.
  - destruct (std_connect g imp sc x o c) as [[c1 x1]|e] eqn:E; [|discriminate]. injection H as <- _.
    eapply std_connect_errs; eauto.
  - injection H as <- _. exact F.
  - eapply cancel_connect_errs; eauto.
  - destruct (existsb (Nat.eqb (o_id o)) seen); [discriminate|]. injection H as <- _. auto.
  - destruct (std_connect g imp sc x o c) as [[c1 x1]|e] eqn:E; [|discriminate]. injection H as <- _.
    eapply std_connect_errs; eauto.
  - destruct (r_known g (o_ty o)); [|discriminate].
    destruct (std_connect _ _ _ _ _ _) as [[c1 x1]|e] eqn:E; [|discriminate]. injection H as <- _.
    eapply std_connect_errs; [exact E|]. apply errs_app; [|discriminate]. apply P. exact F.
  - destruct (std_connect g imp sc x o c) as [[c1 x1]|e] eqn:E; [|discriminate]. injection H as <- _.
    eapply std_connect_errs; eauto.
  - destruct (r_known g (o_ty o)); [|discriminate].
    destruct (std_connect _ _ _ _ _ _) as [[c1 x1]|e] eqn:E; [|discriminate]. injection H as <- _.
    eapply std_connect_errs; [exact E|]. apply errs_app; [|discriminate]. apply P. exact F.
  - destruct (std_connect g imp sc x o c) as [[c1 x1]|e] eqn:E; [|discriminate]. injection H as <- _.
    eapply std_connect_errs; eauto.
  - destruct (r_known g (o_ty o)); [|discriminate]. cbn [spawn_slot spawn_output spawn] in H.
    destruct (std_connect _ _ _ _ _ _) as [[c1 x1]|e] eqn:E; [|discriminate]. injection H as <- _.
    eapply std_connect_errs; [exact E|]. do 2 (apply errs_app; [|discriminate]). apply P. exact F.
Qed.

Lemma pass_errs idle drained : forall deferred prog c c' deferred' prog',
  pass g imp idle drained deferred prog c = inl (c', deferred', prog') -> errs (c_log c) -> errs (c_log c').
Proof.
  induction drained as [|[r os] rest IH]; intros deferred prog c c' deferred' prog' H F; cbn [pass] in H.
  - injection H as <- _ _. exact F.
  - destruct (look (c_conns c) r) as [t|].
    + destruct (hand_all g imp r (t_scope t) (t_conn t) os c) as [[c1 k1]|e] eqn:E; [|discriminate].
      eapply IH; [exact H|]. cbn [set_conns c_log]. clear H. revert F E. generalize (t_conn t). revert c.
      induction os as [|o os IHo]; intros c k F E; cbn [hand_all] in E; [injection E as <- _; exact F|].
      destruct (connect_into g imp r (t_scope t) k o (note (LHand r o) c)) as [[c2 k2]|e] eqn:E2; [|discriminate].
      eapply IHo; [|exact E]. eapply connect_into_errs; [exact E2|]. apply errs_app; [exact F|discriminate].
    + destruct idle; [discriminate|]. eapply IH; eauto.
Qed.

Lemma extend_errs deferred : forall c, errs (c_log c) -> errs (c_log (extend deferred c)).
Proof.
  induction deferred as [|[r os] rest IH]; intros c F; cbn [extend]; [exact F|].
  apply IH. cbn [set_outs c_log]. destruct (look (c_outs c) r) as [lost|]; [|exact F].
  cbn. intros k i ok er X. apply in_app_iff in X as [X|X]; [apply in_app_iff; left; eapply F; eauto|].
  apply in_map_iff in X as (o & X & _). discriminate.
Qed.

Lemma connect_loop_errs (ord : nat -> list (opref * list output) -> list (opref * list output)) idle :
  forall left prog c c' prog' left',
  connect_loop g imp ord idle left prog c = inl (c', prog', left') -> errs (c_log c) -> errs (c_log c').
Proof.
  induction left as [|left IH]; intros prog c c' prog' left' H F; cbn [connect_loop] in H.
  - destruct (pass g imp idle (ord 0 (c_outs c)) [] prog (set_outs [] c)) as [[[c1 def] prog1]|e]; discriminate.
  - destruct (pass g imp idle (ord (S left) (c_outs c)) [] prog (set_outs [] c)) as [[[c1 def] prog1]|e] eqn:E; [|discriminate].
    assert (F2 : errs (c_log (extend def (set_new [] (set_outs (c_new c1) c1))))).
    { apply extend_errs. cbn. eapply pass_errs; [exact E|exact F]. }
    destruct (match c_new c1 with [] => false | _ :: _ => true end); [eapply IH; eauto|].
    injection H as <- _ _. exact F2.
Qed.

End Loop.
