(** The invariant of [DiagramProofs10] during the connect phase. *)
From Verif Require Import Base DiagramModel DiagramSpec DiagramSpec2 DiagramProofs DiagramProofs2 DiagramProofs3 DiagramProofs4 DiagramProofs9 DiagramProofs10.

Section Inv.
Variable d : diagram.
Variable g : registry.
Notation imp := (implicit d).
Notation idinv := (idinv d).

(** A connector gets its slot (or only changes) *)
Lemma idinv_slot f log n n' us r sc k k' L :
  idinv f log n us -> f r = Some {| t_conn := k; t_scope := sc |} -> n <= n' ->
  (forall e, In e L -> (exists s, e = LSlot r s /\ conn_slot k' s /\ lies log r (s_scope s)) \/ exists s o, e = LStream r s o) ->
  (forall i x, role_of L i x -> role_of log i x \/ n <= i < n') ->
  (forall i x y, n <= i -> role_of L i x -> role_of L i y -> x = y) ->
  evolves k k' -> (forall x, In x (conn_cached k') -> In x (conn_cached k)) -> conn_wf d (log ++ L) r k' ->
  idinv (upd f r {| t_conn := k'; t_scope := sc |}) (log ++ L) n' us.
Proof.
  intros [a1 a2 a3 a4 a5 a6 a7 a8 a9 a10 a11 a12] Fr Le Sh Ro Fu Ev Hk Wk.
  set (t' := {| t_conn := k'; t_scope := sc |}).
  assert (M : forall e, In e log -> In e (log ++ L)) by (intros; apply in_app_iff; auto).
  assert (Sp : forall e, In e (log ++ L) -> In e log \/ In e L) by (intros e; rewrite in_app_iff; auto).
  assert (Bld : forall u ins bufs outs, In (LBuilt u ins bufs outs) (log ++ L) -> In (LBuilt u ins bufs outs) log).
  { intros u ins bufs outs X. apply Sp in X as [X|X]; [auto|]. destruct (Sh _ X) as [(s & E & _)|(s & o & E)]; discriminate. }
  assert (Bsc : forall u sc en te ex, In (LScope u sc en te ex) (log ++ L) -> In (LScope u sc en te ex) log).
  { intros u sc1 en te ex X. apply Sp in X as [X|X]; [auto|]. destruct (Sh _ X) as [(s & E & _)|(s & o & E)]; discriminate. }
  constructor.
  - intros i x X. apply role_app in X as [X|X]; [specialize (a1 _ _ X); lia|].
    destruct (Ro _ _ X) as [Y|Y]; [specialize (a1 _ _ Y)|]; lia.
  - assert (Z : forall i x y, role_of log i x -> role_of L i y -> x = y).
    { intros i x y X Y. destruct (Ro _ _ Y) as [W|W]; [eauto|]. specialize (a1 _ _ X). lia. }
    intros i x y X Y. apply role_app in X as [X|X]; apply role_app in Y as [Y|Y]; eauto.
    + symmetry. eauto.
    + destruct (Ro _ _ X) as [W|W]; [eauto|]. apply (Fu i); auto. lia.
  - intros r1 s1 X. apply Sp in X as [X|X].
    + destruct (a3 _ _ X) as (t & A & B). destruct (opref_eq_dec r1 r) as [->|N].
      * exists t'. split; [apply upd_same|]. rewrite Fr in A. injection A as <-. eapply evolves_slot; [exact Ev|exact B].
      * exists t. rewrite upd_other by exact N. auto.
    + destruct (Sh _ X) as [(s & E & A & _)|(s & o & E)]; [|discriminate]. injection E as -> <-. exists t'. split; [apply upd_same|exact A].
  - intros r1 t X. destruct (opref_eq_dec r1 r) as [->|N].
    + rewrite upd_same in X. injection X as <-. exact Wk.
    + rewrite upd_other in X by exact N. eapply conn_wf_mono; eauto.
  - intros r1 t i X Y. destruct (opref_eq_dec r1 r) as [->|N].
    + rewrite upd_same in X. injection X as <-. apply Hk in Y. exact (a5 _ _ _ Fr Y).
    + rewrite upd_other in X by exact N. eauto.
  - intros o1 s1 X. apply Sp in X as [X|X]; [|destruct (Sh _ X) as [(s & E & _)|(s & o & E)]; discriminate].
    destruct (a6 o1 s1 X) as (r1 & s0 & t & A1 & A2 & A3).
    assert (T : exists t1, upd f r t' r1 = Some t1 /\ t_scope t1 = t_scope t).
    { destruct (opref_eq_dec r1 r) as [->|N]; [exists t'; rewrite upd_same; rewrite Fr in A2; injection A2 as <-; auto|].
      exists t. rewrite upd_other by exact N. auto. }
    destruct T as (t1 & T1 & T2). exists r1, s0, t1. rewrite T2. split; [auto|]. split; [auto|].
    destruct A3 as [(-> & kk & i & er & A3 & A4)|[A3 [A4|(kk & out & er & A4 & A5 & A6)]]].
    + left. split; [auto|]. eauto 8.
    + right. auto.
    + right. split; [auto|]. right. eauto 8.
  - intros ns sc1 X.
    assert (Y : placed log ns sc1).
    { destruct X as [|u ins bufs outs p cn X E|u sc1 en te ex X]; [constructor|apply Bld in X; econstructor; eauto|apply Bsc in X; econstructor; eauto]. }
    destruct (a7 _ _ Y) as [Z|(Z & t & Z1 & Z2)]; [auto|]. right. split; [auto|].
    destruct (opref_eq_dec (RTerminate ns) r) as [E|N].
    + exists t'. subst r. split; [apply upd_same|]. rewrite Fr in Z1. injection Z1 as <-. rewrite <- Z2. symmetry. apply evolves_inner. exact Ev.
    + exists t. rewrite upd_other by exact N. auto.
  - intros u X. eapply placed_mono; eauto.
  - intros u ins bufs outs X. eapply placed_mono; eauto.
  - intros r1 s1 X. apply Sp in X as [X|X]; [eapply lies_mono; eauto|].
    destruct (Sh _ X) as [(s & E & _ & A)|(s & o & E)]; [|discriminate]. injection E as -> <-. eapply lies_mono; eauto.
  - intros r1 t X. destruct (opref_eq_dec r1 r) as [->|N].
    + rewrite upd_same in X. injection X as <-. eapply evolves_place; [exact Ev|]. eapply place_mono; [exact M|]. apply a11. exact Fr.
    + rewrite upd_other in X by exact N. eapply place_mono; [exact M|]. auto.
  - destruct a12 as (P1 & P2 & o1 & P3 & P4). split; [lia|]. split; [|exists o1; auto]. intros i x X. apply role_app in X as [X|X]; [eauto|].
    destruct (Ro _ _ X) as [Y|Y]; [eauto|lia].
Qed.

Lemma idinv_same f log n us r sc k k' :
  idinv f log n us -> f r = Some {| t_conn := k; t_scope := sc |} ->
  evolves k k' -> (forall x, In x (conn_cached k') -> In x (conn_cached k)) -> conn_wf d log r k' ->
  idinv (upd f r {| t_conn := k'; t_scope := sc |}) log n us.
Proof.
  intros I Fr Ev Hk Wk. rewrite <- (app_nil_r log). eapply idinv_slot; eauto.
  - intros e [].
  - intros i x (e & [] & _).
  - intros i x y _ (e & [] & _).
  - rewrite app_nil_r. exact Wk.
Qed.

Lemma standard_cached s : std_cached (standard g s) = [].
Proof. unfold standard. destruct (s_ty s =? TJson); [reflexivity|]. destruct (r_de g (s_ty s)); reflexivity. Qed.

Lemma idinv_twice f log n us r t1 t2 : idinv (upd (upd f r t1) r t2) log n us -> idinv (upd f r t2) log n us.
Proof.
  apply idinv_ext; [|auto]. intros x. unfold upd. destruct (opref_eq_dec x r); reflexivity.
Qed.

(** Into the slot of a standard connector *)
Lemma idinv_std f us r sc k k' x x' o c c' :
  idinv f (c_log c) (c_next c) us -> f r = Some {| t_conn := k; t_scope := sc |} -> In (LHand r o) (c_log c) ->
  std_connect g imp sc x o c = inl (c', x') -> wired (c_log c) r x ->
  conn_cached k = std_cached x -> conn_cached k' = std_cached x' -> evolves k k' -> conn_wf d (c_log c') r k' ->
  idinv (upd f r {| t_conn := k'; t_scope := sc |}) (c_log c') (c_next c') us.
Proof.
  intros I Fr Hh H [Hs _] E1 E2 Ev Wk. destruct (std_connect_links _ _ _ _ _ _ _ _ H) as (_ & L & A & B & _).
  rewrite B in Wk |- *. eapply idinv_links; [exact I|exact Fr|exact Hs|exact Hh|rewrite E1; exact A| |exact Ev|exact Wk].
  rewrite E2. auto.
Qed.

Lemma idinv_connect f us r sc k o c c' k' :
  idinv f (c_log c) (c_next c) us -> f r = Some {| t_conn := k; t_scope := sc |} -> In (LHand r o) (c_log c) ->
  connect_into g imp r sc k o c = inl (c', k') ->
  idinv (upd f r {| t_conn := k'; t_scope := sc |}) (c_log c') (c_next c') us.
Proof.
  intros I Fr Hh H. pose proof (i_wf _ _ _ _ _ I _ _ Fr) as W. cbn [t_conn] in W.
  destruct (connect_into_ok d g _ _ _ _ _ _ _ H W) as (F & Wk & _ & Ev & _).
  destruct k as [x| |q j s js ss ts|to seen|scid en start [x|]|scid term ex par nx [x|]|scid par to [x|]]; cbn [connect_into] in H.
  - destruct (std_connect g imp sc x o c) as [[c1 x1]|e] eqn:E; [|discriminate]. injection H as <- <-.
    eapply idinv_std; eauto.
  - injection H as <- <-. eapply idinv_same; eauto.
  - destruct (cancel_links _ _ _ _ _ _ _ _ _ _ _ _ _ H) as (js' & ss' & ts' & s0 & -> & Hin & L & A & B & _).
    destruct W as (-> & W1 & W2 & W3 & _). rewrite B in Wk |- *. eapply idinv_links; [exact I|exact Fr| |exact Hh|exact A|auto|exact Ev|exact Wk].
    destruct Hin as [<-|[<-|[<-|[]]]]; auto.
  - destruct (existsb (Nat.eqb (o_id o)) seen); [discriminate|]. injection H as <- <-.
    assert (I1 : idinv f (c_log c ++ [LPass to o]) (c_next c) us).
    { apply idinv_silent; [|exact I]. intros e [<-|[]]. exact Logic.I. }
    eapply idinv_same; eauto.
  - destruct (std_connect g imp sc x o c) as [[c1 x1]|e] eqn:E; [|discriminate]. injection H as <- <-.
    destruct W as (u & te & ex & st & ops & strs & nx & _ & _ & _ & _ & W & _). eapply idinv_std; eauto.
  - destruct (r_known g (o_ty o)); [|discriminate].
    set (o1 := {| o_id := en; o_ty := o_ty o; o_scope := scid |}) in *. set (i := {| s_id := scid; s_ty := o_ty o; s_scope := sc |}) in *.
    set (c2 := note (LSlot r i) (pass_output start o1 c)) in *.
    destruct (std_connect g imp sc (standard g i) o c2) as [[c3 x3]|e] eqn:E; [|discriminate]. injection H as <- <-. cbn [fst snd] in *.
    destruct W as (u & te & ex & st & ops & strs & nx & W1 & W2 & W3 & W4 & _).
    assert (L2 : c_log c2 = (c_log c ++ [LPass start o1]) ++ [LSlot r i]) by reflexivity.
    assert (I1 : idinv f (c_log c ++ [LPass start o1]) (c_next c) us).
    { apply idinv_silent; [|exact I]. intros e [<-|[]]. exact Logic.I. }
    assert (Lr : lies (c_log c ++ [LPass start o1]) r sc) by (exact (i_place _ _ _ _ _ I1 _ _ Fr)).
    set (k1 := KRequest scid en start (Some (standard g i))).
    assert (I2 : idinv (upd f r {| t_conn := k1; t_scope := sc |}) (c_log c2) (c_next c2) us).
    { rewrite L2. eapply idinv_slot; [exact I1|exact Fr|apply le_n| | | | | |].
      - intros e [<-|[]]. left. exists i. split; [reflexivity|]. split; [cbn; apply standard_slot|exact Lr].
      - intros j y (e & [<-|[]] & Y). cbn in Y. destruct Y as [Y|[]]. injection Y as <- <-. left. exists (LScope u scid en te ex).
        split; [apply in_app_iff; auto|]. left. subst r. reflexivity.
      - intros j y z _ (e & [<-|[]] & Y) (e' & [<-|[]] & Z). cbn in Y, Z. destruct Y as [Y|[]], Z as [Z|[]]. congruence.
      - cbn. auto.
      - cbn [conn_cached k1]. rewrite standard_cached. auto.
      - rewrite <- L2. exists u, te, ex, st, ops, strs, nx.
        assert (M : forall e, In e (c_log c) -> In e (c_log c2)) by (intros e X; rewrite L2, !in_app_iff; auto).
        do 4 (split; [auto|]). rewrite standard_slot. split; [split; [rewrite standard_slot, L2, in_app_iff; cbn; auto|apply standard_wf]|].
        split; [reflexivity|]. rewrite L2, !in_app_iff. cbn. auto. }
    eapply idinv_twice. eapply idinv_std; [exact I2|apply upd_same| |exact E| |reflexivity|reflexivity| |exact Wk].
    + rewrite L2, !in_app_iff. auto.
    + split; [rewrite standard_slot, L2, in_app_iff; cbn; auto|apply standard_wf].
    + cbn. do 3 (split; [reflexivity|]). destruct (std_connect_links _ _ _ _ _ _ _ _ E) as [Z _]. unfold std_same. congruence.
  - destruct (std_connect g imp sc x o c) as [[c1 x1]|e] eqn:E; [|discriminate]. injection H as <- <-.
    destruct W as (u & en & st & ops & strs & nx' & _ & _ & _ & _ & _ & W & _). eapply idinv_std; eauto.
  - destruct (r_known g (o_ty o)); [|discriminate].
    set (o1 := {| o_id := ex; o_ty := o_ty o; o_scope := par |}) in *. set (i := {| s_id := term; s_ty := o_ty o; s_scope := scid |}) in *.
    set (c2 := note (LSlot r i) (pass_output nx o1 c)) in *.
    destruct (std_connect g imp sc (standard g i) o c2) as [[c3 x3]|e] eqn:E; [|discriminate]. injection H as <- <-. cbn [fst snd] in *.
    destruct W as (u & en & st & ops & strs & nx' & W1 & W2 & W3 & W4 & W5 & _).
    assert (L2 : c_log c2 = (c_log c ++ [LPass nx o1]) ++ [LSlot r i]) by reflexivity.
    assert (I1 : idinv f (c_log c ++ [LPass nx o1]) (c_next c) us).
    { apply idinv_silent; [|exact I]. intros e [<-|[]]. exact Logic.I. }
    assert (Lr : lies (c_log c ++ [LPass nx o1]) r scid).
    { subst r. eexists. split; [reflexivity|]. econstructor. apply in_app_iff. left. exact W1. }
    set (k1 := KResponse scid term ex par nx (Some (standard g i))).
    assert (I2 : idinv (upd f r {| t_conn := k1; t_scope := sc |}) (c_log c2) (c_next c2) us).
    { rewrite L2. eapply idinv_slot; [exact I1|exact Fr|apply le_n| | | | | |].
      - intros e [<-|[]]. left. exists i. split; [reflexivity|]. split; [cbn; apply standard_slot|exact Lr].
      - intros j y (e & [<-|[]] & Y). cbn in Y. destruct Y as [Y|[]]. injection Y as <- <-. left. exists (LScope u scid en term ex).
        split; [apply in_app_iff; auto|]. right; left. subst r. reflexivity.
      - intros j y z _ (e & [<-|[]] & Y) (e' & [<-|[]] & Z). cbn in Y, Z. destruct Y as [Y|[]], Z as [Z|[]]. congruence.
      - cbn. auto 10.
      - cbn [conn_cached k1]. rewrite standard_cached. auto.
      - rewrite <- L2. exists u, en, st, ops, strs, nx'.
        assert (M : forall e, In e (c_log c) -> In e (c_log c2)) by (intros e X; rewrite L2, !in_app_iff; auto).
        do 5 (split; [auto|]). rewrite standard_slot. split; [split; [rewrite standard_slot, L2, in_app_iff; cbn; auto|apply standard_wf]|].
        split; [reflexivity|]. rewrite L2, !in_app_iff. cbn. auto. }
    eapply idinv_twice. eapply idinv_std; [exact I2|apply upd_same| |exact E| |reflexivity|reflexivity| |exact Wk].
    + rewrite L2, !in_app_iff. auto.
    + split; [rewrite standard_slot, L2, in_app_iff; cbn; auto|apply standard_wf].
    + cbn. do 5 (split; [reflexivity|]). destruct (std_connect_links _ _ _ _ _ _ _ _ E) as [Z _]. unfold std_same. congruence.
  - destruct (std_connect g imp sc x o c) as [[c1 x1]|e] eqn:E; [|discriminate]. injection H as <- <-.
    destruct W as (u & en & te & ex & st & ops & strs & nx' & n & t & _ & _ & _ & _ & _ & _ & W & _). eapply idinv_std; eauto.
  - destruct (r_known g (o_ty o)); [|discriminate]. cbn [spawn_slot spawn_output spawn] in H.
    match type of H with context [LStream r ?a ?b] => set (i := a) in *; set (out := b) in * end.
    match type of H with context [std_connect g imp sc (standard g i) o ?a] => set (c2 := a) in * end.
    destruct (std_connect g imp sc (standard g i) o c2) as [[c3 x3]|e] eqn:E; [|discriminate]. injection H as <- <-. cbn [fst snd] in *.
    destruct W as (u & en & te & ex & st & ops & strs & nx' & n & t & W1 & W2 & W3 & W4 & W5 & W6 & _).
    assert (L2 : c_log c2 = (c_log c ++ [LPass to out]) ++ [LSlot r i; LStream r i out]) by (cbn; rewrite <- app_assoc; reflexivity).
    assert (I1 : idinv f (c_log c ++ [LPass to out]) (c_next c) us).
    { apply idinv_silent; [|exact I]. intros e [<-|[]]. exact Logic.I. }
    assert (Lr : lies (c_log c ++ [LPass to out]) r scid).
    { subst r. eexists. split; [reflexivity|]. econstructor. apply in_app_iff. left. exact W1. }
    set (k1 := KStream scid par to (Some (standard g i))).
    assert (N2 : c_next c2 = S (S (c_next c))) by reflexivity.
    assert (I2 : idinv (upd f r {| t_conn := k1; t_scope := sc |}) (c_log c2) (c_next c2) us).
    { rewrite L2, N2. eapply idinv_slot; [exact I1|exact Fr|lia| | | | | |].
      - intros e [<-|[<-|[]]]; [left|right; eauto]. exists i. split; [reflexivity|]. split; [cbn; apply standard_slot|exact Lr].
      - intros j y (e & [<-|[<-|[]]] & Y); cbn in Y; destruct Y as [Y|[]]; injection Y as <- <-; right; lia.
      - intros j y z _ (e & A & Y) (e' & B & Z). destruct A as [<-|[<-|[]]], B as [<-|[<-|[]]]; cbn in Y, Z; destruct Y as [Y|[]], Z as [Z|[]]; try congruence;
          injection Y as Y <-; injection Z as Z <-; lia.
      - cbn. auto.
      - cbn [conn_cached k1]. rewrite standard_cached. auto.
      - rewrite <- L2. exists u, en, te, ex, st, ops, strs, nx', n, t.
        assert (M : forall e, In e (c_log c) -> In e (c_log c2)) by (intros e X; rewrite L2, !in_app_iff; auto).
        do 6 (split; [auto|]). rewrite standard_slot. split; [split; [rewrite standard_slot, L2, in_app_iff; cbn; auto|apply standard_wf]|].
        exists out. split; [rewrite L2, !in_app_iff; cbn; auto|]. split; [rewrite L2, !in_app_iff; cbn; auto|]. split; reflexivity. }
    eapply idinv_twice. eapply idinv_std; [exact I2|apply upd_same| |exact E| |reflexivity|reflexivity| |exact Wk].
    + rewrite L2, !in_app_iff. auto.
    + split; [rewrite standard_slot, L2, in_app_iff; cbn; auto|apply standard_wf].
    + cbn. do 3 (split; [reflexivity|]). destruct (std_connect_links _ _ _ _ _ _ _ _ E) as [Z _]. unfold std_same. congruence.
Qed.

Lemma idinv_hand_all r sc os us : forall f k c c' k',
  idinv f (c_log c) (c_next c) us -> f r = Some {| t_conn := k; t_scope := sc |} ->
  hand_all g imp r sc k os c = inl (c', k') ->
  idinv (upd f r {| t_conn := k'; t_scope := sc |}) (c_log c') (c_next c') us.
Proof.
  induction os as [|o os IH]; intros f k c c' k' I Fr H; cbn [hand_all] in H.
  - injection H as <- <-. eapply idinv_same; eauto; [apply evolves_refl|]. exact (i_wf _ _ _ _ _ I _ _ Fr).
  - destruct (connect_into g imp r sc k o (note (LHand r o) c)) as [[c1 k1]|e] eqn:E; [|discriminate].
    assert (I1 : idinv f (c_log (note (LHand r o) c)) (c_next c) us).
    { apply idinv_silent; [|exact I]. intros e [<-|[]]. exact Logic.I. }
    assert (I2 : idinv (upd f r {| t_conn := k1; t_scope := sc |}) (c_log c1) (c_next c1) us).
    { eapply idinv_connect; [exact I1|exact Fr| |exact E]. apply note_in. auto. }
    eapply idinv_twice. eapply IH; [exact I2|apply upd_same|exact H].
Qed.

Definition idc (us : list unf) (c : con) : Prop := idinv (look (c_conns c)) (c_log c) (c_next c) us.

Lemma idinv_pass idle drained us : forall deferred prog c c' deferred' prog',
  idc us c -> pass g imp idle drained deferred prog c = inl (c', deferred', prog') -> idc us c'.
Proof.
  induction drained as [|[r os] rest IH]; intros deferred prog c c' deferred' prog' I H; cbn [pass] in H.
  - injection H as <- _ _. exact I.
  - destruct (look (c_conns c) r) as [t|] eqn:El.
    + destruct (hand_all g imp r (t_scope t) (t_conn t) os c) as [[c1 k1]|e] eqn:E; [|discriminate].
      assert (C : c_conns c1 = c_conns c).
      { clear - E. revert E. generalize (t_conn t). intros k E. revert k c E. induction os as [|o os IHo]; intros k c E; cbn [hand_all] in E; [injection E as <- _; reflexivity|].
        destruct (connect_into g imp r (t_scope t) k o (note (LHand r o) c)) as [[c2 k2]|e] eqn:E2; [|discriminate].
        rewrite (IHo _ _ E). clear - E2.
        assert (St : forall sc x o c c' x', std_connect g imp sc x o c = inl (c', x') -> c_conns c' = c_conns c).
        { intros sc x o1 c3 c4 x' X. destruct (std_connect_links _ _ _ _ _ _ _ _ X) as (_ & L & _ & _ & Y). exact Y. }
        assert (St' : forall sc x o c p, std_connect g imp sc x o c = inl p -> c_conns (fst p) = c_conns c).
        { intros sc x o1 c3 [c4 x'] X. exact (St _ _ _ _ _ _ X). }
        destruct k as [x| |qq j s js ss ts|to seen|scid en start [x|]|scid term ex par nx [x|]|scid par to [x|]]; cbn [connect_into] in E2.
        - destruct (std_connect _ _ _ x _ _) as [pp|e] eqn:E; [|discriminate]. injection E2 as <- _. rewrite (St' _ _ _ _ _ E). reflexivity.
        - injection E2 as <- _. reflexivity.
        - destruct (cancel_links _ _ _ _ _ _ _ _ _ _ _ _ _ E2) as (? & ? & ? & ? & _ & _ & L & _ & _ & Y). rewrite Y. reflexivity.
        - destruct (existsb _ seen); [discriminate|]. injection E2 as <- _. reflexivity.
        - destruct (std_connect _ _ _ x _ _) as [pp|e] eqn:E; [|discriminate]. injection E2 as <- _. rewrite (St' _ _ _ _ _ E). reflexivity.
        - destruct (r_known g (o_ty o)); [|discriminate]. destruct (std_connect _ _ _ _ _ _) as [pp|e] eqn:E; [|discriminate]. injection E2 as <- _. rewrite (St' _ _ _ _ _ E). reflexivity.
        - destruct (std_connect _ _ _ x _ _) as [pp|e] eqn:E; [|discriminate]. injection E2 as <- _. rewrite (St' _ _ _ _ _ E). reflexivity.
        - destruct (r_known g (o_ty o)); [|discriminate]. destruct (std_connect _ _ _ _ _ _) as [pp|e] eqn:E; [|discriminate]. injection E2 as <- _. rewrite (St' _ _ _ _ _ E). reflexivity.
        - destruct (std_connect _ _ _ x _ _) as [pp|e] eqn:E; [|discriminate]. injection E2 as <- _. rewrite (St' _ _ _ _ _ E). reflexivity.
        - destruct (r_known g (o_ty o)); [|discriminate]. cbn [spawn_slot spawn_output spawn] in E2. destruct (std_connect _ _ _ _ _ _) as [pp|e] eqn:E; [|discriminate]. injection E2 as <- _. rewrite (St' _ _ _ _ _ E). reflexivity. }
      eapply IH; [|exact H]. unfold idc. cbn [set_conns c_conns c_log c_next].
      eapply idinv_ext with (us := us); [| |eapply idinv_hand_all; [exact I| |exact E]]; [|auto|rewrite El; destruct t; reflexivity].
      intros x. rewrite look_put, C. unfold upd. destruct (opref_eq_dec x r); reflexivity.
    + destruct idle; [discriminate|]. eapply IH; eauto.
Qed.

Lemma idinv_extend deferred us : forall c, idc us c -> idc us (extend deferred c).
Proof.
  induction deferred as [|[r os] rest IH]; intros c I; cbn [extend]; [exact I|]. apply IH. unfold idc in *.
  destruct (look (c_outs c) r) as [lost|]; [|exact I]. cbn [set_outs set_log c_conns c_log c_next].
  apply idinv_silent; [|exact I]. intros e X. apply in_map_iff in X as (o & <- & _). exact Logic.I.
Qed.

Lemma idinv_connect_loop ord idle us : forall left prog c c' prog' left',
  idc us c -> connect_loop g imp ord idle left prog c = inl (c', prog', left') -> idc us c'.
Proof.
  induction left as [|left IH]; intros prog c c' prog' left' I H; cbn [connect_loop] in H.
  - destruct (pass g imp idle (ord 0 (c_outs c)) [] prog (set_outs [] c)) as [[[c1 def] prog1]|e]; discriminate.
  - destruct (pass g imp idle (ord (S left) (c_outs c)) [] prog (set_outs [] c)) as [[[c1 def] prog1]|e] eqn:E; [|discriminate].
    assert (I1 : idc us c1) by (eapply idinv_pass; [|exact E]; exact I).
    assert (I2 : idc us (extend def (set_new [] (set_outs (c_new c1) c1)))) by (apply idinv_extend; exact I1).
    destruct (c_new c1) as [|w l].
    + injection H as <- _ _. exact I2.
    + eapply IH; [exact I2|exact H].
Qed.

End Inv.
