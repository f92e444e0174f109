(** Consequences for a finished construction, and the check of the templates. *)
From Verif Require Import Base DiagramModel DiagramSpec DiagramProofs DiagramProofs2 DiagramProofs3 DiagramProofs4
  DiagramProofs5 DiagramProofs6.

Lemma look_key {A} (m : list (opref * A)) r a : look m r = Some a -> In r (map fst m).
Proof.
  induction m as [|[r' a'] m IH]; cbn; [discriminate|]. destruct (opref_eq_dec r r') as [->|]; auto.
Qed.

Section Finished.
Variable d : diagram.
Variable g : registry.
Variables q p : nat.
Variable ss : list (nat * nat).

Definition final (log : list entry) : Prop :=
  exists c, c_log c = log /\ ginv d g q p ss [] c /\ (forall r o, ~ waits (c_outs c) r o) /\ unfinished (c_conns c) = [].

Lemma builds_final log : builds g d q p ss log -> final log.
Proof.
  intros (ord & max & c & Ho & H & E). exists c. split; [exact E|]. eapply create_ok; eauto.
Qed.

Variable log : list entry.
Hypothesis Fin : final log.

Lemma final_entries e : In e log -> entry_ok d g q p ss log e.
Proof. destruct Fin as (c & <- & G & _). apply (gi_entries _ _ _ _ _ _ _ G). Qed.

Lemma final_built ns id o : occurs d ns id o ->
  exists u ins bufs outs, In (LBuilt u ins bufs outs) log /\ u_ns u = ns /\ u_id u = id /\ u_op u = o /\
                          as_declared d g log u ins bufs outs.
Proof.
  intros H. destruct Fin as (c & E & G & _). destruct (all_built _ _ _ _ _ c G ns id o H) as (u & ins & bufs & outs & A & B1 & B2 & B3).
  rewrite E in A. exists u, ins, bufs, outs. do 4 (split; [assumption|]). exact (final_entries _ A).
Qed.

Lemma final_source r o : In (LPut r o) log \/ In (LPass r o) log ->
  exists r', leadsto d r r' /\ (arrives log r' o \/ (In (LLost r' o) log /\ ~ outermost ss r')).
Proof.
  intros H. pose proof final_entries as En. destruct Fin as (c & <- & G & W & _).
  destruct (gi_binv _ _ _ _ _ _ _ G) as (V & _).
  destruct (v_src _ _ _ _ V r o H) as (r' & A & [B|[B|B]]); [destruct (W _ _ B)| |]; exists r'; (split; [exact A|]); [|auto].
  right. split; [exact B|]. exact (En _ B).
Qed.

Lemma final_hand r o : In (LHand r o) log -> arrives log r o \/ exists to, goes d r to /\ In (LPass to o) log.
Proof.
  destruct Fin as (c & <- & G & W & _). destruct (gi_binv _ _ _ _ _ _ _ G) as (V & _). apply (v_set _ _ _ _ V).
Qed.

Lemma final_put r o : In (LPut r o) log -> arrives log r o \/ exists to, goes d r to /\ In (LPass to o) log.
Proof.
  intros H. apply final_hand. destruct Fin as (c & <- & G & W & _). destruct (gi_binv _ _ _ _ _ _ _ G) as (_ & _ & _ & K & _).
  destruct (K r o H) as [X|X]; [exact X|destruct (W _ _ X)].
Qed.

(** Where something was lost, there is a target to which something else was given. *)
Lemma final_lost r o : In (LLost r o) log -> exists o', arrives log r o' \/ exists to, goes d r to /\ In (LPass to o') log.
Proof.
  intros H. pose proof final_hand as Fh. destruct Fin as (c & <- & G & W & _).
  destruct (gi_binv _ _ _ _ _ _ _ G) as (_ & _ & _ & _ & _ & _ & K).
  destruct (K r o H) as (o' & [X|X]); [|destruct (W _ _ X)]. exists o'. apply Fh. exact X.
Qed.

Lemma final_arrives_slot r o : arrives log r o -> r = RDispose \/ exists s, slot_of log p ss r s.
Proof.
  intros [X|(s & X & _)]; [auto|right]. exists s. exact (final_entries _ X).
Qed.

Lemma final_goes r r1 r2 : goes d r r1 -> goes d r r2 -> r1 = r2.
Proof. destruct Fin as (c & _ & G & _). eapply goes_functional; eauto. Qed.

Lemma final_unambiguous r r1 r2 : leadsto d r r1 -> leadsto d r r2 -> leadsto d r1 r2 \/ leadsto d r2 r1.
Proof.
  intros H. revert r2. induction H as [r|r a b G L IH]; intros r2 H2; [auto|].
  inversion H2 as [x|x y z G2 L2]; subst; [right; eapply leadsto_step; eauto|].
  rewrite (final_goes _ _ _ G2 G) in L2. auto.
Qed.

Lemma final_link o s : In (LConnect o s) log ->
  o_ty o = s_ty s /\
  exists r s0, slot_of log p ss r s0 /\
    ((s = s0 /\ exists k i er, In (LConv k i o er) log) \/
     ((exists r0, (accounted_for d log q r0 o \/ born d log r0 o) /\ leadsto d r0 r) /\
      (s = s0 \/ exists k out er, In (LConv k s out er) log /\ In (LConnect out s0) log))).
Proof.
  intros H. pose proof final_entries as En. destruct Fin as (c & <- & G & _). destruct (gi_binv _ _ _ _ _ _ _ G) as (V & _).
  split; [exact (v_good _ _ _ _ V _ H)|]. destruct (v_link _ _ _ _ V o s H) as (r & s0 & A & B). exists r, s0.
  split; [exact (En _ A)|]. destruct B as [B|[B1 B2]]; [auto|right]. split; [|exact B2].
  destruct (source_origin d g _ _ _ _ V (v_hand _ _ _ _ V _ _ B1)) as (r0 & [X|X] & L); exists r0; (split; [|exact L]); [left|auto].
  exact (En _ X).
Qed.

Lemma final_conv k i out er : In (LConv k i out er) log -> allowed g k i out er.
Proof.
  destruct Fin as (c & <- & G & _). destruct (gi_binv _ _ _ _ _ _ _ G) as (V & _). intros H. exact (v_good _ _ _ _ V _ H).
Qed.

(** Both ends of every scope *)
Lemma final_scope u ins bufs outs start ops streams next :
  In (LBuilt u ins bufs outs) log -> u_op u = OScope start ops streams next ->
  exists sc en term ex s1 s2 o1 o2,
    In (LScope u sc en term ex) log /\
    s_id s1 = sc /\ In (LSlot (RNamed (u_ns u) None (u_id u)) s1) log /\
    o_id o1 = en /\ o_scope o1 = sc /\ o_ty o1 = s_ty s1 /\ In (LPass (named (u_ns u ++ [u_id u]) start) o1) log /\
    s_id s2 = term /\ In (LSlot (RTerminate (u_ns u ++ [u_id u])) s2) log /\
    o_id o2 = ex /\ o_scope o2 = u_scope u /\ o_ty o2 = s_ty s2 /\ In (LPass (named (u_ns u) next) o2) log.
Proof.
  intros H E. destruct Fin as (c & <- & G & _ & U). destruct (gi_binv _ _ _ _ _ _ _ G) as (V & _ & _ & _ & [_ Sc] & _).
  destruct (gi_scope _ _ _ _ _ _ _ G _ _ _ _ _ _ _ _ H E) as (sc & en & term & ex & t1 & t2 & A1 & A2 & (r1 & x1 & A3) & A4 & (par & r2 & x2 & A5)).
  assert (K : In (RNamed (u_ns u) None (u_id u)) (map fst (c_conns c))).
  { eapply look_key; exact A2. }
  assert (Nf : forall r, In r (map fst (c_conns c)) -> ~ In r (unfinished (c_conns c))) by (intros r _; rewrite U; auto).
  specialize (Nf _ K). unfold unfinished in Nf. rewrite filter_In in Nf. rewrite A2 in Nf. destruct t1 as [k1 sc1]. cbn in A3. subst k1.
  destruct x1 as [x1|]; [|exfalso; apply Nf; auto].
  destruct (responded (c_conns c) sc) eqn:R; [|exfalso; apply Nf; auto].
  unfold responded in R. apply existsb_exists in R as (r3 & _ & R).
  destruct (look (c_conns c) r3) as [[k3 sc3]|] eqn:L3; [|discriminate].
  destruct k3 as [| | | | |sc' term' ex' par' nx' [x3|]|]; try discriminate. apply Nat.eqb_eq in R. subst sc'.
  pose proof (v_conn _ _ _ _ V _ _ A2) as W1. cbn in W1.
  destruct W1 as (u1 & te1 & ex1 & st1 & ops1 & strs1 & nx1 & B1 & B2 & B3 & B4 & (B5 & _) & B6 & B7).
  pose proof (v_conn _ _ _ _ V _ _ L3) as W3. cbn in W3.
  destruct W3 as (u3 & en3 & st3 & ops3 & strs3 & nx3 & C1 & C2 & C3 & C4 & C5 & (C6 & _) & C7 & C8).
  destruct (Sc _ _ _ _ _ _ _ _ _ A1 B1) as (<- & _). destruct (Sc _ _ _ _ _ _ _ _ _ A1 C1) as (<- & _ & <- & <-).
  rewrite E in B2, C2. injection B2 as <- <- <- <-. injection C2 as <- <- <- <-.
  exists sc, en, term, ex, (std_slot x1), (std_slot x3).
  exists {| o_id := en; o_ty := s_ty (std_slot x1); o_scope := sc |}, {| o_id := ex; o_ty := s_ty (std_slot x3); o_scope := par' |}.
  subst. cbn. do 12 (split; [solve [auto]|]). auto.
Qed.

(** ** Circular templates never end *)

Lemma final_finite : exists n, forall ns id o, occurs d ns id o -> length ns <= n.
Proof.
  exists (list_max (map (fun e => match e with LBuilt u _ _ _ => length (u_ns u) | _ => 0 end) log)).
  intros ns id o H. destruct (final_built ns id o H) as (u & ins & bufs & outs & A & <- & _).
  assert (X : Forall (fun k => k <= list_max (map (fun e => match e with LBuilt u _ _ _ => length (u_ns u) | _ => 0 end) log))
                     (map (fun e => match e with LBuilt u _ _ _ => length (u_ns u) | _ => 0 end) log)).
  { apply list_max_le. apply le_n. }
  rewrite Forall_forall in X. apply X. apply in_map_iff. eexists. split; [|exact A]. reflexivity.
Qed.

End Finished.

(** ** Halted constructions *)

Section Halted.
Variable d : diagram.
Variable g : registry.
Variables q p : nat.
Variable ss : list (nat * nat).
Variable ord : nat -> list (opref * list output) -> list (opref * list output).
Hypothesis Hord : orders ord.

Lemma build_all_waits todo : forall waiting seen prog c c' waiting' seen' prog',
  build_all g (d_templates d) (implicit d) todo waiting seen prog c = inl (c', waiting', seen', prog') ->
  (prog = true -> prog' = true) /\
  (forall u, In u waiting -> In u waiting') /\ (prog' = false -> forall u, In u todo -> In u waiting').
Proof.
  induction todo as [|u todo IH]; intros waiting seen prog c c' waiting' seen' prog' H; cbn [build_all] in H.
  - injection H as <- <- <- <-. split; [auto|split; [auto|intros _ u []]].
  - destruct (build_op g (d_templates d) (implicit d) u c) as [[c1 fin]|e] eqn:E; [|discriminate].
    destruct fin.
    + destruct (IH _ _ _ _ _ _ _ _ H) as (A1 & A2 & A3). rewrite orb_true_r in A1.
      split; [auto|]. split; [intros v X; apply A2; apply in_app_iff; auto|].
      intros X. rewrite (A1 eq_refl) in X. discriminate.
    + destruct (IH _ _ _ _ _ _ _ _ H) as (A1 & A2 & A3).
      split; [intros ->; apply A1; reflexivity|].
      split; [intros v X; apply A2; rewrite !in_app_iff; auto|].
      intros X v [<-|Y]; [apply A2; rewrite !in_app_iff; cbn; auto|auto].
Qed.

Lemma round_nonempty left todo seen c c' todo' seen' left' :
  ginv d g q p ss todo c -> (is_nil todo && negb (has_outputs (c_outs c))) = false ->
  round d g ord left todo seen c = inl (c', todo', seen', false, left') -> todo' <> [].
Proof.
  intros G N H ->. unfold round in H.
  destruct (build_all _ _ _ _ _ _ _ _) as [[[[c1 todo1] seen1] prog1]|e] eqn:E; [|discriminate].
  destruct (connect_loop _ _ _ _ _ _ _) as [[[c2 prog2] left1]|e] eqn:F; [|discriminate].
  injection H as <- -> <- -> <-.
  destruct (build_all_waits _ _ _ _ _ _ _ _ _ E) as (_ & _ & A).
  assert (G0 : ginv d g q p ss (todo ++ []) c) by (rewrite app_nil_r; exact G).
  destruct (build_all_ok _ _ _ _ _ _ _ _ _ _ _ _ _ _ G0 E) as (G1 & _).
  destruct (connect_loop_ginv _ _ _ _ _ _ Hord _ _ _ _ _ _ _ _ G1 F) as (_ & _ & P).
  destruct prog1; [discriminate (P eq_refl)|].
  destruct todo as [|u todo]; [|destruct (A eq_refl u (or_introl eq_refl))].
  cbn in E. injection E as <- _.
  destruct (gi_binv _ _ _ _ _ _ _ G) as (V & ND & Hn & _ & _ & Lf & _).
  destruct (connect_loop_lost d g ord _ Hord _ _ _ _ _ _ V ND Hn Lf F) as (_ & _ & _ & I).
  rewrite (I eq_refl eq_refl) in N. discriminate.
Qed.

Lemma connect_loop_not_halted idle left rs : forall prog c,
  connect_loop g (implicit d) ord idle left prog c <> inr (EBuildHalted rs).
Proof.
  assert (Std : forall im sc x o c, std_connect g im sc x o c <> inr (EBuildHalted rs)).
  { intros im sc x o c H. destruct x as [s inc|s ser|s]; cbn in H.
    - unfold try_serialize in H. unfold connect_to in H. cbn in H.
      repeat match type of H with context [if ?b then _ else _] => destruct b end; cbn in H; try discriminate H;
      destruct (find (o_ty o) inc); cbn in H;
      repeat match type of H with context [if ?b then _ else _] => destruct b end; discriminate H.
    - unfold deserialize in H. unfold connect_to in H. cbn in H.
      repeat match type of H with context [if ?b then _ else _] => destruct b end; cbn in H; try discriminate H;
      destruct ser; cbn in H;
      repeat match type of H with context [if ?b then _ else _] => destruct b end; discriminate H.
    - unfold connect_to in H. destruct (o_ty o =? s_ty s); discriminate. }
  assert (Can : forall im sc a b s js ss' ts o c, cancel_connect g im sc a b s js ss' ts o c <> inr (EBuildHalted rs)).
  { intros im sc a b s js ss' ts o c H. unfold cancel_connect in H.
    destruct (try_string g sc s ss' o c) as [[c1 [x|]]|e] eqn:E; [discriminate| |].
    - destruct (try_serialize g im sc b js o c) as [[c2 [x|]]|e] eqn:E2; [discriminate| |].
      + unfold connect_to in H. destruct (find (o_ty o) ts); cbn in H;
        repeat match type of H with context [if ?b then _ else _] => destruct b end; discriminate H.
      + apply (Std im sc (SSer b js) o c). cbn. rewrite E2. congruence.
    - injection H as ->. unfold try_string, connect_to in E. destruct (find (o_ty o) ss'); cbn in E;
      repeat match type of E with context [if ?b then _ else _] => destruct b end; discriminate E. }
  assert (Int : forall im r sc k o c, connect_into g im r sc k o c <> inr (EBuildHalted rs)).
  { intros im r sc k o c H.
    destruct k as [x| |a b s js ss' ts|to seen|scid en st [x|]|scid te ex par nx [x|]|scid par to [x|]]; cbn [connect_into] in H.
    - destruct (std_connect _ _ _ _ _ _) eqn:E; [discriminate|]. injection H as ->. destruct (Std _ _ _ _ _ E).
    - discriminate.
    - destruct (Can _ _ _ _ _ _ _ _ _ _ H).
    - destruct (existsb _ _); discriminate.
    - destruct (std_connect _ _ _ _ _ _) eqn:E; [discriminate|]. injection H as ->. destruct (Std _ _ _ _ _ E).
    - destruct (r_known _ _); [|discriminate].
      destruct (std_connect _ _ _ _ _ _) eqn:E; [discriminate|]. injection H as ->. destruct (Std _ _ _ _ _ E).
    - destruct (std_connect _ _ _ _ _ _) eqn:E; [discriminate|]. injection H as ->. destruct (Std _ _ _ _ _ E).
    - destruct (r_known _ _); [|discriminate].
      destruct (std_connect _ _ _ _ _ _) eqn:E; [discriminate|]. injection H as ->. destruct (Std _ _ _ _ _ E).
    - destruct (std_connect _ _ _ _ _ _) eqn:E; [discriminate|]. injection H as ->. destruct (Std _ _ _ _ _ E).
    - destruct (r_known _ _); [|discriminate]. cbn [spawn_slot spawn_output spawn] in H.
      destruct (std_connect _ _ _ _ _ _) eqn:E; [discriminate|]. injection H as ->. destruct (Std _ _ _ _ _ E). }
  assert (Hand : forall r sc os k c, hand_all g (implicit d) r sc k os c <> inr (EBuildHalted rs)).
  { intros r sc os. induction os as [|o os IH]; intros k c H; cbn [hand_all] in H; [discriminate|].
    destruct (connect_into _ _ _ _ _ _ _) as [[c1 k1]|e] eqn:E; [eapply IH; eauto|]. injection H as ->. destruct (Int _ _ _ _ _ _ E). }
  assert (Pass : forall drained deferred prog c, pass g (implicit d) idle drained deferred prog c <> inr (EBuildHalted rs)).
  { induction drained as [|[r os] rest IH]; intros deferred prog c H; cbn [pass] in H; [discriminate|].
    destruct (look (c_conns c) r) as [t|].
    - destruct (hand_all _ _ _ _ _ _ _) as [[c1 k1]|e] eqn:E; [eapply IH; eauto|]. injection H as ->. destruct (Hand _ _ _ _ _ E).
    - destruct idle; [discriminate|eapply IH; eauto]. }
  induction left as [|left IH]; intros prog c H; cbn [connect_loop] in H.
  - destruct (pass _ _ _ _ _ _ _) as [[[c1 def] prog1]|e] eqn:E; [discriminate|]. injection H as ->. destruct (Pass _ _ _ _ E).
  - destruct (pass _ _ _ _ _ _ _) as [[[c1 def] prog1]|e] eqn:E.
    + destruct (match c_new c1 with [] => false | _ :: _ => true end); [eapply IH; eauto|discriminate].
    + injection H as ->. destruct (Pass _ _ _ _ E).
Qed.

End Halted.

(** ** The check of the templates *)

Section Check.
Variable d : diagram.
Notation tm := (d_templates d).

Lemma section_templates_In l t : In t (section_templates l) <-> exists id cn, In (id, OSection (PTemplate t) cn) l.
Proof.
  induction l as [|[id o] l IH]; cbn [section_templates].
  - split; [intros []|intros (? & ? & [])].
  - assert (X : (exists id' cn, In (id', OSection (PTemplate t) cn) ((id, o) :: l)) <->
                (exists cn, o = OSection (PTemplate t) cn) \/ exists id' cn, In (id', OSection (PTemplate t) cn) l).
    { split.
      - intros (i & cn & [[= -> ->]|Y]); [left; eauto|right; eauto].
      - intros [(cn & ->)|(i & cn & Y)]; [exists id, cn; left; reflexivity|exists i, cn; right; exact Y]. }
    rewrite X. destruct o as [| [b|t0] cn0| | | | | | | | | | | ];
      try (rewrite IH; split; [auto|intros [(cn & Y)|Y]; [discriminate|exact Y]]).
    cbn [In]. rewrite IH. split.
    + intros [->|Y]; [left; eauto|auto].
    + intros [(cn & [= ->])|Y]; auto.
Qed.

Lemma uses_kids t t' : uses d t t' <-> exists T, find t tm = Some T /\ In t' (section_templates (t_ops T)).
Proof.
  split.
  - intros (T & id & cn & A & B). exists T. split; [exact A|]. apply section_templates_In. eauto.
  - intros (T & A & B). apply section_templates_In in B as (id & cn & B). exists T, id, cn. auto.
Qed.

Lemma fold_ok {A} (f : A -> res unit) l :
  fold_right (fun k (acc : res unit) => let? _ := acc in f k) (inl tt) l = inl tt <-> forall k, In k l -> f k = inl tt.
Proof.
  induction l as [|k l IH]; cbn [fold_right]; [split; [intros _ k []|reflexivity]|].
  split.
  - intros H. destruct (fold_right _ _ l) as [[]|e]; [|discriminate]. intros k' [<-|X]; [exact H|]. apply IH; auto.
  - intros H. assert (X : fold_right (fun k (acc : res unit) => let? _ := acc in f k) (inl tt) l = inl tt) by (apply IH; intros; apply H; right; auto).
    rewrite X. apply H. left. reflexivity.
Qed.

Lemma fold_err {A} (f : A -> res unit) l e :
  fold_right (fun k (acc : res unit) => let? _ := acc in f k) (inl tt) l = inr e -> exists k, In k l /\ f k = inr e.
Proof.
  induction l as [|k l IH]; cbn [fold_right]; [discriminate|]. intros H.
  destruct (fold_right _ _ l) as [[]|e']; [exists k; split; [left; reflexivity|exact H]|].
  destruct IH as (k' & X & Y); [exact H|]. exists k'. split; [right; exact X|exact Y].
Qed.

Lemma find_none_in l used' : List.find (fun k => existsb (Nat.eqb k) used') l = None -> forall k, In k l -> ~ In k used'.
Proof.
  intros H k X Y. pose proof (find_none _ _ H k X) as Z. cbn in Z.
  assert (existsb (Nat.eqb k) used' = true) by (apply existsb_exists; exists k; split; [exact Y|apply Nat.eqb_refl]). congruence.
Qed.

Lemma check_step fuel used' t : check_template fuel tm used' t = inl tt ->
  find t tm <> None /\
  forall k, uses d t k -> ~ In k used' /\ exists fuel', check_template fuel' tm (k :: used') k = inl tt.
Proof.
  intros H. destruct fuel as [|fuel]; cbn [check_template] in H; destruct (find t tm) as [T|] eqn:E; try discriminate;
    (split; [discriminate|]); intros k U; apply uses_kids in U as (T' & A & B); rewrite E in A; injection A as <-;
    destruct (List.find _ (section_templates (t_ops T))) eqn:F; try discriminate;
    (split; [eapply find_none_in; eauto|]).
  - destruct (section_templates (t_ops T)); [destruct B|discriminate].
  - exists fuel. apply (proj1 (fold_ok (fun k => check_template fuel tm (k :: used') k) _) H). exact B.
Qed.

Lemma check_sound fuel used' t t' : check_template fuel tm used' t = inl tt -> uses_some d t t' ->
  ~ In t' used' /\ find t' tm <> None.
Proof.
  intros H U. revert fuel used' H. induction U as [t t' U|t t1 t' U _ IH]; intros fuel used' H.
  - destruct (check_step _ _ _ H) as (_ & S). destruct (S _ U) as (A & fuel' & B). split; [exact A|].
    eapply check_step; eauto.
  - destruct (check_step _ _ _ H) as (_ & S). destruct (S _ U) as (A & fuel' & B). destruct (IH _ _ B) as (C & D).
    split; [|exact D]. intros X. apply C. right. exact X.
Qed.

Lemma check_own fuel used' t t' : check_template fuel tm (t :: used') t = inl tt -> uses_some d t t' -> ~ uses_some d t' t'.
Proof.
  intros H U. revert fuel used' H. induction U as [t t' U|t t1 t' U _ IH]; intros fuel used' H C.
  - destruct (check_step _ _ _ H) as (_ & S). destruct (S _ U) as (A & fuel' & B).
    destruct (check_sound _ _ _ _ B C) as (X & _). apply X. left. reflexivity.
  - destruct (check_step _ _ _ H) as (_ & S). destruct (S _ U) as (A & fuel' & B). eapply IH; eauto.
Qed.

Lemma validate_ok : validate_templates d = inl tt ->
  forall t, used d t -> find t tm <> None /\ ~ uses_some d t t.
Proof.
  unfold validate_templates. rewrite <- fold_left_rev_right. intros H.
  assert (K : forall t, starts_with d t -> check_template (length tm) tm [t] t = inl tt).
  { intros t X. apply (proj1 (fold_ok (fun k => check_template (length tm) tm [k] k) _) H). apply -> in_rev.
    apply section_templates_In. exact X. }
  intros t [S|(t0 & S & U)].
  - pose proof (K _ S) as C. split; [eapply check_step; eauto|]. intros X.
    destruct (check_sound _ _ _ _ C X) as (Y & _). apply Y. left. reflexivity.
  - pose proof (K _ S) as C. split; [eapply check_sound; eauto|]. eapply check_own; eauto.
Qed.

Lemma uses_some_trans a b c : uses_some d a b -> uses_some d b c -> uses_some d a c.
Proof. induction 1; intros; eapply uses_more; eauto. Qed.

Lemma find_In {A} k (l : list (nat * A)) a : find k l = Some a -> In k (map fst l).
Proof.
  induction l as [|[k' a'] l IH]; cbn; [discriminate|]. destruct (Nat.eqb_spec k k') as [->|]; auto.
Qed.

Lemma check_complete fuel : forall used' t e,
  check_template fuel tm used' t = inr e ->
  (forall x, In x used' -> x = t \/ uses_some d x t) -> NoDup used' -> In t used' ->
  (forall x, In x used' -> x <> t -> find x tm <> None) -> length tm < length used' + fuel ->
  (exists t', (t' = t \/ uses_some d t t') /\ find t' tm = None) \/
  (exists t', (t' = t \/ uses_some d t t') /\ uses_some d t' t').
Proof.
  induction fuel as [|fuel IH]; intros used' t e H Ch ND Ht Fd Len; cbn [check_template] in H;
    destruct (find t tm) as [T|] eqn:E; try (left; exists t; auto; fail).
  - assert (Len' : length used' <= length tm).
    { rewrite <- (map_length fst tm). apply NoDup_incl_length; [exact ND|]. intros x X.
      destruct (Nat.eq_dec x t) as [->|N]; [eapply find_In; eauto|]. specialize (Fd x X N).
      destruct (find x tm) eqn:Ex; [eapply find_In; eauto|congruence]. }
    lia.
  - destruct (List.find _ (section_templates (t_ops T))) as [k|] eqn:F.
    + right. apply find_some in F as [F1 F2]. apply existsb_exists in F2 as (k' & F2 & F3). apply Nat.eqb_eq in F3. subst k'.
      assert (U : uses d t k) by (apply uses_kids; eauto).
      destruct (Ch k F2) as [->|X]; [exists t; split; [auto|constructor; exact U]|].
      exists k. split; [right; constructor; exact U|]. eapply uses_some_trans; [exact X|]. constructor. exact U.
    + apply (fold_err (fun k => check_template fuel tm (k :: used') k)) in H as (k & K1 & K2).
      pose proof (find_none_in _ _ F k K1) as Nk.
      assert (U : uses d t k) by (apply uses_kids; eauto).
      assert (Tr : forall t', t' = k \/ uses_some d k t' -> t' = t \/ uses_some d t t').
      { intros t' [->|X]; right; [constructor; exact U|eapply uses_more; eauto]. }
      destruct (IH (k :: used') k e K2) as [(t' & A & B)|(t' & A & B)].
      * intros x [<-|X]; [auto|]. right. destruct (Ch x X) as [->|Y]; [constructor; exact U|].
        eapply uses_some_trans; [exact Y|]. constructor. exact U.
      * constructor; auto.
      * left. reflexivity.
      * intros x [<-|X] N; [congruence|]. destruct (Nat.eq_dec x t) as [->|N']; [congruence|auto].
      * cbn. lia.
      * left. exists t'. auto.
      * right. exists t'. auto.
Qed.

Lemma validate_err e : validate_templates d = inr e ->
  exists t, used d t /\ (find t tm = None \/ uses_some d t t).
Proof.
  unfold validate_templates. rewrite <- fold_left_rev_right. intros H.
  apply (fold_err (fun k => check_template (length tm) tm [k] k)) in H as (t & K1 & K2).
  apply in_rev in K1. apply section_templates_In in K1.
  assert (St : starts_with d t) by exact K1.
  assert (Us : forall t', t' = t \/ uses_some d t t' -> used d t').
  { intros t' [->|X]; [left; exact St|right; eauto]. }
  destruct (check_complete _ _ _ _ K2) as [(t' & A & B)|(t' & A & B)]; try (exists t'; auto; fail).
  - intros x [->|[]]. auto.
  - constructor; [auto|constructor].
  - left. reflexivity.
  - intros x [->|[]]. congruence.
  - cbn. lia.
Qed.

End Check.
