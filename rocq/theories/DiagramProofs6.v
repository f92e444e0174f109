(** The construction loop and the whole of [create_workflow]. *)
From Verif Require Import Base DiagramModel DiagramSpec DiagramProofs DiagramProofs2 DiagramProofs3 DiagramProofs4
  DiagramProofs5.

Section Whole.
Variable d : diagram.
Variable g : registry.
Notation imp := (implicit d).
Notation tm := (d_templates d).
Variables q p : nat.
Variable ss : list (nat * nat).
Variable ord : nat -> list (opref * list output) -> list (opref * list output).
Hypothesis Hord : forall n l, Permutation (ord n l) l.

Definition has (u : unf) (ns : list nat) (id : nat) (o : op) : Prop :=
  u_ns u = ns /\ u_id u = id /\ u_op u = o.

Definition known (todo : list unf) (log : list entry) (ns : list nat) (id : nat) (o : op) : Prop :=
  (exists u, In u todo /\ has u ns id o) \/
  (exists u ins bufs outs, In (LBuilt u ins bufs outs) log /\ has u ns id o).

(** The request of the workflow was directed to the start, its response has a slot. *)
Definition started (log : list entry) : Prop :=
  exists o t, In (LPut (named [] (d_start d)) o) log /\ o_ty o = q /\ o_scope o = 0 /\
              In (LSlot (RTerminate []) t) log /\ s_ty t = p /\ s_scope t = 0.

Lemma started_mono log log' : (forall e, In e log -> In e log') -> started log -> started log'.
Proof. intros H (o & t & A & B & C & D & E). exists o, t. auto 8. Qed.

Record ginv (todo : list unf) (c : con) : Prop := {
  gi_binv : binv d g c;
  gi_entries : forall e, In e (c_log c) -> entry_ok d g q p ss (c_log c) e;
  gi_bufs : bufs_good d g c;
  gi_gen : c_gen c = [];
  gi_start : forall r, outermost ss r -> look (c_conns c) r <> None;
  gi_request : started (c_log c);
  gi_todo : forall u, In u todo -> occurs d (u_ns u) (u_id u) (u_op u);
  gi_top : forall id o, In (id, o) (d_ops d) -> known todo (c_log c) [] id o;
  gi_inside : forall u ins bufs outs id o, In (LBuilt u ins bufs outs) (c_log c) -> inside d (u_op u) id o ->
              known todo (c_log c) (u_ns u ++ [u_id u]) id o;
  gi_alias : forall u ins bufs outs r r', In (LBuilt u ins bufs outs) (c_log c) ->
             alias d (u_ns u) (u_id u) (u_op u) r r' ->
             exists t seen, look (c_conns c) r = Some t /\ t_conn t = KRedirect r' seen;
  gi_scope : forall u ins bufs outs start ops streams next, In (LBuilt u ins bufs outs) (c_log c) ->
             u_op u = OScope start ops streams next ->
             exists sc en term ex t1 t2,
               In (LScope u sc en term ex) (c_log c) /\
               look (c_conns c) (RNamed (u_ns u) None (u_id u)) = Some t1 /\
               (exists r x, t_conn t1 = KRequest sc en r x) /\
               look (c_conns c) (RTerminate (u_ns u ++ [u_id u])) = Some t2 /\
               (exists par r x, t_conn t2 = KResponse sc term ex par r x)
}.

Lemma known_mono todo todo' log log' ns id o :
  (forall u, In u todo -> In u todo' \/ exists ins bufs outs, In (LBuilt u ins bufs outs) log') ->
  (forall e, In e log -> In e log') -> known todo log ns id o -> known todo' log' ns id o.
Proof.
  intros H1 H2 [(u & A & B)|(u & ins & bufs & outs & A & B)].
  - destruct (H1 u A) as [X|(ins & bufs & outs & X)]; [left; eauto|right; eauto 8].
  - right. eauto 8.
Qed.

Lemma build_op_ginv u rest todo' c c1 fin :
  ginv (u :: rest) c -> build_op g tm imp u c = inl (c1, fin) ->
  (forall v, In v todo' <-> In v rest \/ In v (c_gen c1) \/ (fin = false /\ v = u)) ->
  ginv todo' (set_gen [] c1).
Proof.
  intros G H T.
  assert (Oc : occurs d (u_ns u) (u_id u) (u_op u)) by (apply (gi_todo _ _ G); left; reflexivity).
  destruct (build_op_ok d g q p ss u Oc c c1 fin (gi_bufs _ _ G) H) as [(B1 & B2 & B3) Nw Mi Bf Gn Kp Df Bu Al In_ Sc].
  assert (K : forall ns id o, known (u :: rest) (c_log c) ns id o -> known todo' (c_log (set_gen [] c1)) ns id o).
  { intros ns id o. apply known_mono; [|exact B2]. intros v [<-|X].
    - destruct fin; [right; apply Bu; reflexivity|left; apply T; auto].
    - left. apply T. auto. }
  constructor.
  - destruct (B1 (gi_binv _ _ G)) as ([v1 v2 v3 v4 v5 v6 v7 v8] & ? & ? & ? & ? & ?). split; [constructor; auto|auto 6].
  - intros e X. destruct (Nw e X) as [Y|Y]; [|exact Y]. eapply entry_ok_mono; [exact B2|]. apply (gi_entries _ _ G). exact Y.
  - intros r b X. destruct (Bf r b X) as [Y|Y]; [|exact Y]. eapply buf_ok_mono; [exact B2|]. apply (gi_bufs _ _ G). exact Y.
  - reflexivity.
  - intros r X Y. destruct (look (c_conns c) r) as [t|] eqn:E; [|exact (gi_start _ _ G r X E)].
    change (c_conns (set_gen [] c1)) with (c_conns c1) in Y. rewrite (B3 _ _ E) in Y. discriminate.
  - eapply started_mono; [exact B2|apply (gi_request _ _ G)].
  - intros v X. apply T in X as [X|[X|[_ ->]]]; [apply (gi_todo _ _ G); right; exact X| |exact Oc].
    destruct (Gn v X) as [Y|Y]; [|exact Y]. rewrite (gi_gen _ _ G) in Y. destruct Y.
  - intros id o X. apply K. apply (gi_top _ _ G). exact X.
  - intros v ins bufs outs id o X Y. destruct (Mi _ _ _ _ X) as [Z|[-> ->]].
    + apply K. eapply (gi_inside _ _ G); eauto.
    + destruct (In_ eq_refl id o Y) as (w & W1 & W2 & W3 & W4). left. exists w. split; [apply T; auto|].
      unfold has. auto.
  - intros v ins bufs outs r r' X Y. destruct (Mi _ _ _ _ X) as [Z|[-> ->]].
    + destruct (gi_alias _ _ G _ _ _ _ _ _ Z Y) as (t & seen & A1 & A2). exists t, seen. split; [apply B3; exact A1|exact A2].
    + apply (Al eq_refl). exact Y.
  - intros v ins bufs outs start ops streams next X Y. destruct (Mi _ _ _ _ X) as [Z|[-> ->]].
    + destruct (gi_scope _ _ G _ _ _ _ _ _ _ _ Z Y) as (sc & en & term & ex & t1 & t2 & A1 & A2 & A3 & A4 & A5).
      exists sc, en, term, ex, t1, t2. split; [apply B2; exact A1|]. split; [apply B3; exact A2|]. split; [exact A3|].
      split; [apply B3; exact A4|exact A5].
    + destruct (Sc eq_refl _ _ _ _ Y) as (sc & en & term & ex & t1 & t2 & A1 & A2 & (r1 & A3) & A4 & (par & r2 & A5)).
      exists sc, en, term, ex, t1, t2. split; [exact A1|]. split; [exact A2|]. split; [eauto|]. split; [exact A4|eauto].
Qed.

Lemma ginv_equiv todo todo' c : (forall u, In u todo <-> In u todo') -> ginv todo c -> ginv todo' c.
Proof.
  intros H G.
  assert (K : forall ns id o, known todo (c_log c) ns id o -> known todo' (c_log c) ns id o).
  { intros ns id o. apply known_mono; [intros u X; left; apply H; exact X|auto]. }
  destruct G. constructor; auto.
  - intros u X. apply gi_todo0. apply H. exact X.
  - intros. apply K. eapply gi_inside0; eauto.
Qed.

Lemma build_all_ok todo : forall waiting seen prog c c' waiting' seen' prog',
  ginv (todo ++ waiting) c -> build_all g tm imp todo waiting seen prog c = inl (c', waiting', seen', prog') ->
  ginv waiting' c' /\
  (prog = true -> prog' = true) /\ (forall r, In r seen -> In r seen') /\
  (prog' = false -> forall u, In u waiting' -> In u waiting \/ In (u_ref u) seen').
Proof.
  induction todo as [|u todo IH]; intros waiting seen prog c c' waiting' seen' prog' G H; cbn [build_all] in H.
  - injection H as <- <- <- <-. auto.
  - destruct (build_op g tm imp u c) as [[c1 fin]|e] eqn:E; [|discriminate].
    set (prog1 := prog || negb (match c_gen c1 with [] => true | _ => false end) || fin) in *.
    destruct fin.
    + assert (G1 : ginv (todo ++ waiting ++ c_gen c1) (set_gen [] c1)).
      { eapply build_op_ginv; [exact G|exact E|]. intros v. rewrite !in_app_iff.
        split; [tauto|intros [X|[X|[X _]]]; [tauto|tauto|discriminate]]. }
      destruct (IH _ _ _ _ _ _ _ _ G1 H) as (A1 & A2 & A3 & A4).
      assert (P1 : prog1 = true) by (subst prog1; apply orb_true_r).
      split; [exact A1|]. split; [intros _; apply A2; exact P1|]. split; [exact A3|].
      intros X. rewrite (A2 P1) in X. discriminate.
    + assert (G1 : ginv (todo ++ (waiting ++ c_gen c1) ++ [u]) (set_gen [] c1)).
      { eapply build_op_ginv; [exact G|exact E|]. intros v. rewrite !in_app_iff. cbn.
        split; [intros [X|[[X|X]|[X|[]]]]; auto|intros [X|[X|[_ X]]]; auto; tauto]. }
      destruct (IH _ _ _ _ _ _ _ _ G1 H) as (A1 & A2 & A3 & A4).
      split; [exact A1|]. split; [intros ->; apply A2; reflexivity|].
      split; [intros r X; apply A3; apply in_app_iff; auto|]. intros X v Y. destruct (A4 X v Y) as [Z|Z]; [|auto].
      destruct (c_gen c1) as [|w l] eqn:Eg.
      * rewrite app_nil_r in Z. apply in_app_iff in Z as [Z|[<-|[]]]; [auto|]. right. apply A3. apply in_app_iff. cbn. auto.
      * assert (P1 : prog1 = true) by (subst prog1; cbn; rewrite orb_true_r; reflexivity).
        rewrite (A2 P1) in X. discriminate.
Qed.

Lemma same_targets_look c c' r t : same_targets c c' -> look (c_conns c) r = Some t ->
  exists t', look (c_conns c') r = Some t' /\ evolves (t_conn t) (t_conn t').
Proof.
  intros H E. specialize (H r). rewrite E in H. destruct (look (c_conns c') r) as [t'|]; [|destruct H]. exists t'. tauto.
Qed.

Lemma connect_loop_ginv idle left prog todo c c' prog' left' :
  ginv todo c -> connect_loop g imp ord idle left prog c = inl (c', prog', left') ->
  ginv todo c' /\ left' < left /\ (prog = true -> prog' = true).
Proof.
  intros G H. destruct (gi_binv _ _ G) as (V & ND & Hn & Kp & Sc & Lf & Lo).
  destruct (connect_loop_ok d g ord idle Hord _ _ _ _ _ _ V ND Hn H) as (V' & ND' & Hn' & T & (E1 & E2 & E3 & E4 & M & Nw & Sl) & Lt & P).
  pose proof (connect_loop_kept d g ord idle Hord _ _ _ _ _ _ V ND Hn H Kp) as Kp'.
  destruct (connect_loop_lost d g ord idle Hord _ _ _ _ _ _ V ND Hn Lf H) as (Lf' & Wt & Ls & _).
  split; [|auto].
  assert (Bl : forall u ins bufs outs, In (LBuilt u ins bufs outs) (c_log c') -> In (LBuilt u ins bufs outs) (c_log c)).
  { intros u ins bufs outs X. destruct (Nw _ X) as [Y|[(r & [[]|[(s & Y)|(s & o & Y)]])|[(r & o & Y)|(r & o & Y)]]]; auto; discriminate. }
  assert (Sl2 : forall u sc en te ex, In (LScope u sc en te ex) (c_log c') -> In (LScope u sc en te ex) (c_log c)).
  { intros u sc en te ex X. destruct (Nw _ X) as [Y|[(r & [[]|[(s & Y)|(s & o & Y)]])|[(r & o & Y)|(r & o & Y)]]]; auto; discriminate. }
  assert (K : forall ns id o, known todo (c_log c) ns id o -> known todo (c_log c') ns id o).
  { intros ns id o. apply known_mono; [auto|exact M]. }
  constructor.
  - split; [exact V'|split; [exact ND'|split; [exact Hn'|split; [exact Kp'|]]]].
    split; [eapply scopes_ok_mono; eauto|]. split; [exact Lf'|]. intros r o X. destruct (Ls r o X) as [Y|[_ Y]]; [|exact Y].
    destruct (Lo r o Y) as (o' & [Z|Z]); exists o'; auto.
  - intros e X.
    assert (Hold : In e (c_log c) -> entry_ok d g q p ss (c_log c') e).
    { intros Y. eapply entry_ok_mono; [exact M|]. apply (gi_entries _ _ G). exact Y. }
    destruct (Nw e X) as [Y|[(r & [Y|[(s & ->)|(s & o & ->)]])|[(r & o & ->)|(r & o & ->)]]]; auto; try exact I.
    + destruct e as [ | | | | |k i out [er|]| | | | ]; try destruct Y; try exact I.
      change (In (LPass (directed d [] None) er) (c_log c')). rewrite <- implicit_directed. eapply (connect_loop_errs d g ord idle); [exact H| |exact X].
      intros k1 i1 ok1 er1 Z. pose proof (gi_entries _ _ G _ Z) as Z1. rewrite implicit_directed. exact Z1.
    + cbn. destruct (Sl p ss r s X) as [Y|Y]; [apply Hold in Y; exact Y|exact Y].
    + destruct (Ls r o X) as [Y|[Y _]]; [apply Hold in Y; exact Y|]. intros Z. exact (gi_start _ _ G r Z Y).
  - intros r b. rewrite E1. intros X. eapply buf_ok_mono; [exact M|]. apply (gi_bufs _ _ G). exact X.
  - rewrite E3. apply (gi_gen _ _ G).
  - intros r X Y. specialize (T r). rewrite Y in T. destruct (look (c_conns c) r) eqn:E; [destruct T|exact (gi_start _ _ G r X E)].
  - eapply started_mono; [exact M|apply (gi_request _ _ G)].
  - apply (gi_todo _ _ G).
  - intros id o X. apply K. apply (gi_top _ _ G). exact X.
  - intros u ins bufs outs id o X Y. apply K. eapply (gi_inside _ _ G); eauto.
  - intros u ins bufs outs r r' X Y. destruct (gi_alias _ _ G _ _ _ _ _ _ (Bl _ _ _ _ X) Y) as (t & seen & A1 & A2).
    destruct (same_targets_look _ _ _ _ T A1) as (t' & A3 & A4). rewrite A2 in A4.
    destruct (t_conn t') as [| | |to s'| | |] eqn:Et; cbn in A4; try contradiction. subst to. exists t', s'. auto.
  - intros u ins bufs outs start ops streams next X Y.
    destruct (gi_scope _ _ G _ _ _ _ _ _ _ _ (Bl _ _ _ _ X) Y) as (sc & en & term & ex & t1 & t2 & A1 & A2 & (r1 & x1 & A3) & A4 & (par & r2 & x2 & A5)).
    destruct (same_targets_look _ _ _ _ T A2) as (t1' & B1 & B2). rewrite A3 in B2.
    destruct (same_targets_look _ _ _ _ T A4) as (t2' & B3 & B4). rewrite A5 in B4.
    exists sc, en, term, ex, t1', t2'. split; [apply M; exact A1|]. split; [exact B1|].
    split; [destruct (t_conn t1') eqn:Et; cbn in B2; try contradiction; destruct B2 as (<- & <- & <- & _); eauto|].
    split; [exact B3|].
    destruct (t_conn t2') eqn:Et; cbn in B4; try contradiction. destruct B4 as (<- & <- & <- & <- & <- & _). eauto.
Qed.

(** One round: all operations once, then the connections *)
Definition round (left : nat) (todo : list unf) (seen : list opref) (c : con)
  : res (con * list unf * list opref * bool * nat) :=
  let? x := build_all g tm imp todo [] seen false c in
  let '(c1, todo1, seen1, prog) := x in
  let? y := connect_loop g imp ord (is_nil todo1) left prog c1 in
  let '(c2, prog1, left1) := y in
  inl (c2, todo1, seen1, prog1, left1).

Lemma round_ok left todo seen c c' todo' seen' prog left' :
  ginv todo c -> round left todo seen c = inl (c', todo', seen', prog, left') ->
  ginv todo' c' /\ left' < left /\ (prog = false -> forall u, In u todo' -> In (u_ref u) seen').
Proof.
  unfold round. intros G H.
  destruct (build_all g tm imp todo [] seen false c) as [[[[c1 todo1] seen1] prog1]|e] eqn:E; [|discriminate].
  destruct (connect_loop g imp ord (is_nil todo1) left prog1 c1) as [[[c2 prog2] left1]|e] eqn:F; [|discriminate].
  injection H as <- <- <- <- <-.
  assert (G0 : ginv (todo ++ []) c) by (rewrite app_nil_r; exact G).
  destruct (build_all_ok _ _ _ _ _ _ _ _ _ G0 E) as (G1 & A1 & A2 & A3).
  destruct (connect_loop_ginv _ _ _ _ _ _ _ _ G1 F) as (G2 & L & P).
  split; [exact G2|]. split; [exact L|]. intros X u Y. destruct prog1.
  - rewrite (P eq_refl) in X. discriminate.
  - destruct (A3 eq_refl u Y) as [[]|Z]. exact Z.
Qed.

Lemma build_loop_round fuel left todo seen c :
  build_loop g tm imp ord (S fuel) left todo seen c =
  if is_nil todo && negb (has_outputs (c_outs c)) then inl c
  else match round left todo seen c with
       | inr e => inr e
       | inl (c2, todo1, seen1, prog1, left1) =>
           if prog1 then match left1 with
                         | 0 => inr EExcessive
                         | S left2 => build_loop g tm imp ord fuel left2 todo1 seen1 c2
                         end
           else inr (EBuildHalted seen1)
       end.
Proof.
  cbn [build_loop]. unfold round. destruct (is_nil todo && negb (has_outputs (c_outs c))); [reflexivity|].
  destruct (build_all g tm imp todo [] seen false c) as [[[[c1 todo1] seen1] prog1]|e]; [|reflexivity].
  destruct (connect_loop g imp ord (is_nil todo1) left prog1 c1) as [[[c2 prog2] left1]|e]; reflexivity.
Qed.

Lemma has_outputs_none m : has_outputs m = false -> forall r o, ~ waits m r o.
Proof.
  induction m as [|[r1 [|o1 os]] m IH]; cbn [has_outputs]; intros H r o X; [destruct (waits_nil _ _ X)| |discriminate].
  apply waits_cons in X as [[_ []]|X]. eapply IH; eauto.
Qed.

Lemma build_loop_ok fuel : forall left todo seen c c',
  ginv todo c -> build_loop g tm imp ord fuel left todo seen c = inl c' ->
  ginv [] c' /\ (forall r o, ~ waits (c_outs c') r o).
Proof.
  induction fuel as [|fuel IH]; intros left todo seen c c' G H.
  - cbn [build_loop] in H. destruct (is_nil todo && negb (has_outputs (c_outs c))) eqn:E; [|discriminate].
    injection H as <-. apply andb_true_iff in E as [E1 E2]. destruct todo; [|discriminate]. split; [exact G|].
    apply has_outputs_none. apply negb_true_iff. exact E2.
  - rewrite build_loop_round in H. destruct (is_nil todo && negb (has_outputs (c_outs c))) eqn:E.
    + injection H as <-. apply andb_true_iff in E as [E1 E2]. destruct todo; [|discriminate]. split; [exact G|].
      apply has_outputs_none. apply negb_true_iff. exact E2.
    + destruct (round left todo seen c) as [[[[[c2 todo1] seen1] prog1] left1]|e] eqn:R; [|discriminate].
      destruct prog1; [|discriminate]. destruct left1 as [|left2]; [discriminate|].
      destruct (round_ok _ _ _ _ _ _ _ _ _ G R) as (G2 & _). eapply IH; eauto.
Qed.

(** A halted construction stopped in a round without progress. *)
Inductive rounds : nat -> list unf -> list opref -> con -> nat -> list unf -> list opref -> con -> Prop :=
| rounds_refl left todo seen c : rounds left todo seen c left todo seen c
| rounds_step left todo seen c c1 todo1 seen1 left1 left2 todo2 seen2 c2 :
    round left todo seen c = inl (c1, todo1, seen1, true, S left1) ->
    rounds left1 todo1 seen1 c1 left2 todo2 seen2 c2 ->
    rounds left todo seen c left2 todo2 seen2 c2.

Lemma build_loop_halted fuel : forall left todo seen c rs,
  build_loop g tm imp ord fuel left todo seen c = inr (EBuildHalted rs) ->
  (exists left1 todo1 seen1 c1 c2 todo2 left2,
    rounds left todo seen c left1 todo1 seen1 c1 /\ (is_nil todo1 && negb (has_outputs (c_outs c1))) = false /\
    round left1 todo1 seen1 c1 = inl (c2, todo2, rs, false, left2)) \/
  (exists left1 todo1 seen1 c1,
    rounds left todo seen c left1 todo1 seen1 c1 /\ round left1 todo1 seen1 c1 = inr (EBuildHalted rs)).
Proof.
  induction fuel as [|fuel IH]; intros left todo seen c rs H.
  - cbn [build_loop] in H. destruct (is_nil todo && negb (has_outputs (c_outs c))); discriminate.
  - rewrite build_loop_round in H. destruct (is_nil todo && negb (has_outputs (c_outs c))) eqn:Nn; [discriminate|].
    destruct (round left todo seen c) as [[[[[c2 todo1] seen1] prog1] left1]|e] eqn:R.
    + destruct prog1.
      * destruct left1 as [|left2]; [discriminate|].
        destruct (IH _ _ _ _ _ H) as [(l1 & t1 & s1 & c1 & c3 & t2 & l2 & A & Nz & B)|(l1 & t1 & s1 & c1 & A & B)].
        -- left. exists l1, t1, s1, c1, c3, t2, l2. split; [eapply rounds_step; eauto|auto].
        -- right. exists l1, t1, s1, c1. split; [eapply rounds_step; eauto|exact B].
      * injection H as <-. left. exists left, todo, seen, c, c2, todo1, left1. split; [constructor|auto].
    + injection H as ->. right. exists left, todo, seen, c. split; [constructor|exact R].
Qed.

Lemma rounds_ok left todo seen c left1 todo1 seen1 c1 :
  rounds left todo seen c left1 todo1 seen1 c1 -> ginv todo c -> ginv todo1 c1.
Proof.
  induction 1 as [|left todo seen c c1 todo1 seen1 left1 left2 todo2 seen2 c2 R _ IH]; intros G; [exact G|].
  apply IH. eapply round_ok; [exact G|exact R].
Qed.

(** ** The beginning *)

Lemma empty_binv : binv d g empty_con.
Proof.
  split; [|split; [constructor|split; [reflexivity|split; [intros r o []|split; [split; [intros u sc en te ex []|intros u u' sc en en' te te' ex ex' []]|split; [intros r os []|intros r o []]]]]]].
  constructor; cbn.
  - intros r o [[]|[]].
  - intros r t [=].
  - intros r o X. destruct (waits_nil _ _ X).
  - intros r o [].
  - intros r o [].
  - intros e [].
  - intros o s [].
  - intros r o [].
Qed.

Lemma set_input_conn r s sc c c' : set_input g [] r s sc c = inl c' -> exists t, look (c_conns c') r = Some t.
Proof.
  unfold set_input. rewrite in_ns_nil. destruct (set_conn _ _ _ _) as [c1|e] eqn:E; [|discriminate]. intros [= <-].
  apply set_conn_eq in E as [_ ->]. cbn. rewrite look_put. destruct (opref_eq_dec r r); [eauto|congruence].
Qed.

Lemma root_streams_ok l : forall c c', root_streams g l c = inl c' ->
  bp d g c c' /\ c_bufs c' = c_bufs c /\ c_gen c' = c_gen c /\
  (forall e, In e (c_log c') -> In e (c_log c) \/ exists n s, e = LSlot (RStream [] n) s /\ In (n, s_ty s) l /\ s_scope s = 0) /\
  (forall n ty, In (n, ty) l -> look (c_conns c') (RStream [] n) <> None).
Proof.
  induction l as [|[n ty] l IH]; intros c c' H; cbn [root_streams] in H.
  - injection H as <-. split; [apply bp_refl|]. repeat (split; [auto|]). intros n ty [].
  - cbn [spawn_slot spawn] in H. set (s := {| s_id := c_next c; s_ty := ty; s_scope := 0 |}) in *.
    set (c0 := set_next (S (c_next c)) c) in *.
    destruct (set_input _ _ _ _ _ _) as [c1|e] eqn:S; [|discriminate].
    destruct (bp_set_input d g _ _ _ _ _ _ S) as (B1 & L1 & F1 & G1).
    destruct (IH _ _ H) as (B2 & F2 & G2 & N2 & K2).
    pose proof (set_input_conn _ _ _ _ _ S) as K1.
    split; [eapply bp_trans with (c2 := c0); [apply bp_same; (reflexivity || (cbn; lia))|eapply bp_trans; eauto]|].
    split; [rewrite F2; exact F1|split; [rewrite G2; exact G1|]].
    split.
    + intros e X. destruct (N2 e X) as [Y|(n1 & s1 & -> & Y1 & Y2)]; [|right; exists n1, s1; cbn; auto].
      rewrite L1 in Y. apply in_app_iff in Y as [Y|[<-|[]]]; [auto|]. right. exists n, s. cbn. auto.
    + intros n1 ty1 [[= -> ->]|X]; [|eapply K2; eauto]. destruct K1 as (t & K1).
      destruct B2 as (_ & _ & B2). rewrite (B2 _ _ K1). discriminate.
Qed.

Lemma init_ok c : init g (d_start d) q p ss = inl c ->
  ginv (map top (d_ops d)) c.
Proof.
  intros H. unfold init in H. cbn [spawn_output spawn_slot spawn c_next empty_con set_next] in H.
  match type of H with context [add_output [] _ ?x ?y] => set (o := x) in *; set (c1 := y) in * end.
  set (c2 := add_output [] (to_ref (d_start d)) o c1) in *.
  match type of H with context [set_input g [] (RTerminate []) ?x _ ?y] => set (t := x) in *; set (c3 := y) in * end.
  destruct (set_input _ _ _ _ _ _) as [c4|e] eqn:S4; [|discriminate].
  destruct (root_streams g ss c4) as [c5|e] eqn:S5; [|discriminate].
  destruct (set_conn RDispose KDispose 0 c5) as [c6|e] eqn:S6; [|discriminate].
  match type of H with context [note (LSlot (RCancel []) ?x) (note (LSlot _ ?y) (note (LSlot _ ?z) ?w))] =>
    set (s3 := x) in *; set (s2 := y) in *; set (s1 := z) in *; set (c9 := w) in * end.
  set (c10 := note (LSlot (RCancel []) s3) (note (LSlot (RCancel []) s2) (note (LSlot (RCancel []) s1) c9))) in *.
  destruct (bp_set_input d g _ _ _ _ _ _ S4) as (B4 & L4 & F4 & G4). cbn [in_ns app] in L4.
  destruct (root_streams_ok _ _ _ S5) as (B5 & F5 & G5 & N5 & K5).
  destruct (set_input_conn _ _ _ _ _ S4) as (tt4 & K4).
  destruct (bp_set_conn d g _ _ _ _ _ S6 eq_refl) as (B6 & L6 & F6 & G6 & K6).
  assert (L10 : forall e, In e (c_log c10) <-> In e (c_log c6) \/ e = LSlot (RCancel []) s1 \/ e = LSlot (RCancel []) s2 \/ e = LSlot (RCancel []) s3).
  { intros e. subst c10. rewrite !note_in. change (c_log c9) with (c_log c6). tauto. }
  assert (W : conn_wf d (c_log c10) (RCancel []) (KCancel s1 s2 s3 [] [] [])).
  { split; [reflexivity|]. repeat (split; [apply L10; auto|]). do 3 (split; [reflexivity|]).
    repeat split; intros; contradiction. }
  destruct (bp_set_conn d g _ _ _ _ _ H W) as (B11 & L11 & F11 & G11 & K11).
  assert (Hc : forall r t, look (c_conns c6) r = Some t -> look (c_conns c) r = Some t).
  { intros r x X. apply B11. exact X. }
  assert (L : forall e, In e (c_log c) -> e = LPut (named [] (d_start d)) o \/ e = LSlot (RTerminate []) t \/
              (exists n s, e = LSlot (RStream [] n) s /\ In (n, s_ty s) ss /\ s_scope s = 0) \/
              (e = LSlot (RCancel []) s1 \/ e = LSlot (RCancel []) s2 \/ e = LSlot (RCancel []) s3)).
  { intros e X. rewrite L11 in X. apply L10 in X as [X|X]; [|auto]. rewrite L6 in X.
    destruct (N5 e X) as [Y|Y]; [|auto]. rewrite L4 in Y. apply in_app_iff in Y as [Y|[Y|[]]]; [|auto].
    subst c3 c2. unfold add_output in Y. cbn in Y. rewrite in_ns_named in Y. destruct Y as [Y|[]]; auto. }
  assert (M : forall e, In e (c_log c4) -> In e (c_log c)).
  { intros e X. rewrite L11. apply L10. left. rewrite L6. apply B5. exact X. }
  assert (B : bp d g empty_con c).
  { eapply bp_trans with (c2 := c1); [apply bp_same; (reflexivity || (cbn; lia))|].
    eapply bp_trans with (c2 := c2); [apply bp_add_output|].
    eapply bp_trans with (c2 := c3); [apply bp_same; (reflexivity || (cbn; lia))|].
    eapply bp_trans; [exact B4|]. eapply bp_trans; [exact B5|]. eapply bp_trans; [exact B6|].
    eapply bp_trans with (c2 := c9); [apply bp_same; (reflexivity || (cbn; lia))|].
    eapply bp_trans with (c2 := c10); [|exact B11].
    subst c10. eapply bp_trans; [apply (bp_note d g (LSlot (RCancel []) s1)); exact I|].
    eapply bp_trans; [apply (bp_note d g (LSlot (RCancel []) s2)); exact I|]. apply bp_note. exact I. }
  assert (Nb : forall u ins bufs outs, ~ In (LBuilt u ins bufs outs) (c_log c)).
  { intros u ins bufs outs X. apply L in X as [X|[X|[(n & s & X & _)|[X|[X|X]]]]]; discriminate. }
  assert (St : started (c_log c)).
  { exists o, t. split; [|split; [reflexivity|split; [reflexivity|split; [|split; reflexivity]]]].
    + apply M. rewrite L4. apply in_app_iff. left. subst c3 c2. unfold add_output. cbn. rewrite in_ns_named. auto.
    + apply M. rewrite L4. apply in_app_iff. cbn. auto. }
  constructor.
    + apply B. apply empty_binv.
    + intros e X. apply L in X as [->|[->|[(n & s & -> & X1 & X2)|[->|[->| ->]]]]]; cbn.
      * left. auto.
      * apply slot_response; reflexivity.
      * apply slot_outside; auto.
      * apply slot_cancel; [cbn; auto|reflexivity].
      * apply slot_cancel; [cbn; auto|reflexivity].
      * apply slot_cancel; [cbn; auto|reflexivity].
    + intros r b X. rewrite F11 in X. change (c_bufs c10) with (c_bufs c6) in X. rewrite F6, F5, F4 in X. discriminate.
    + rewrite G11. change (c_gen c10) with (c_gen c6). rewrite G6, G5, G4. reflexivity.
    + intros r X. destruct X as [| | |n ty X].
      * rewrite (Hc _ tt4); [discriminate|]. apply B6, B5. exact K4.
      * rewrite (Hc _ _ K6). discriminate.
      * rewrite K11. discriminate.
      * specialize (K5 n ty X). destruct (look (c_conns c5) (RStream [] n)) as [x|] eqn:Ex; [|congruence].
        rewrite (Hc _ x); [discriminate|]. apply B6. exact Ex.
    + exact St.
    + intros u X. apply in_map_iff in X as ([id op] & <- & X). cbn. constructor. exact X.
    + intros id op X. left. exists (top (id, op)). split; [apply in_map; exact X|]. unfold has. cbn. auto.
    + intros u ins bufs outs id op X. destruct (Nb _ _ _ _ X).
    + intros u ins bufs outs r r' X. destruct (Nb _ _ _ _ X).
    + intros u ins bufs outs st ops strs nx X. destruct (Nb _ _ _ _ X).
Qed.

(** ** The end *)

Lemma all_built c : ginv [] c -> forall ns id o, occurs d ns id o ->
  exists u ins bufs outs, In (LBuilt u ins bufs outs) (c_log c) /\ u_ns u = ns /\ u_id u = id /\ u_op u = o.
Proof.
  intros G. assert (K : forall ns id o, known [] (c_log c) ns id o ->
     exists u ins bufs outs, In (LBuilt u ins bufs outs) (c_log c) /\ u_ns u = ns /\ u_id u = id /\ u_op u = o).
  { intros ns id o [(u & [] & _)|X]. exact X. }
  induction 1 as [id o X|ns s t T cn id o _ (u & ins & bufs & outs & A & B1 & B2 & B3) F X
                 |ns s st ops strs nx id o _ (u & ins & bufs & outs & A & B1 & B2 & B3) X].
  - apply K. apply (gi_top _ _ G). exact X.
  - apply K. rewrite <- B1, <- B2. eapply (gi_inside _ _ G); [exact A|]. rewrite B3. econstructor; eauto.
  - apply K. rewrite <- B1, <- B2. eapply (gi_inside _ _ G); [exact A|]. rewrite B3. constructor. exact X.
Qed.

Lemma goes_functional c : ginv [] c -> forall r r1 r2, goes d r r1 -> goes d r r2 -> r1 = r2.
Proof.
  intros G. assert (X : forall r r', goes d r r' -> exists t seen, look (c_conns c) r = Some t /\ t_conn t = KRedirect r' seen).
  { intros r r' (ns & id & o & A & B). destruct (all_built c G ns id o A) as (u & ins & bufs & outs & C & <- & <- & <-).
    eapply (gi_alias _ _ G); eauto. }
  intros r r1 r2 A B. destruct (X _ _ A) as (t1 & s1 & A1 & A2). destruct (X _ _ B) as (t2 & s2 & B1 & B2). congruence.
Qed.

Lemma create_ok max c : create_workflow g ord max d q p ss = inl c ->
  ginv [] c /\ (forall r o, ~ waits (c_outs c) r o) /\ unfinished (c_conns c) = [].
Proof.
  unfold create_workflow. intros H. destruct (validate_names d); [discriminate|].
  destruct (validate_templates d); [|discriminate].
  destruct (init g (d_start d) q p ss) as [c0|e] eqn:E0; [|discriminate].
  destruct (build_loop g tm imp ord (S max) max (map top (d_ops d)) [] c0) as [c1|e] eqn:E1; [|discriminate].
  destruct (unfinished (c_conns c1)) eqn:E2; [|discriminate]. injection H as <-.
  pose proof (init_ok _ E0) as G. destruct (build_loop_ok _ _ _ _ _ _ G E1) as [G1 W]. auto.
Qed.

End Whole.
