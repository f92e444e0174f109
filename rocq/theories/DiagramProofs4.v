(** Building operations: what one operation adds to the construction. *)
From Verif Require Import Base DiagramModel DiagramSpec DiagramProofs DiagramProofs2 DiagramProofs3.

Lemma Forall2_weaken {A B} (P Q : A -> B -> Prop) (l : list A) (m : list B) :
  (forall x y, P x y -> Q x y) -> Forall2 P l m -> Forall2 Q l m.
Proof. intros H F. induction F; constructor; auto. Qed.

Section Build.
Variable d : diagram.
Variable g : registry.
Notation imp := (implicit d).
Variables q p : nat.
Variable ss : list (nat * nat).

(** Different scopes have different numbers. *)
Definition scopes_ok (c : con) : Prop :=
  (forall u sc en te ex, In (LScope u sc en te ex) (c_log c) -> sc < c_next c) /\
  (forall u u' sc en en' te te' ex ex',
     In (LScope u sc en te ex) (c_log c) -> In (LScope u' sc en' te' ex') (c_log c) ->
     u = u' /\ en = en' /\ te = te' /\ ex = ex').

Definition binv (c : con) : Prop :=
  linv d g c (c_outs c) /\ NoDup (map fst (c_outs c)) /\ c_new c = [] /\ kept c (c_outs c) /\ scopes_ok c /\
  lost_ok c (c_outs c).

Lemma scopes_ok_mono c c' : scopes_ok c -> c_next c <= c_next c' ->
  (forall u sc en te ex, In (LScope u sc en te ex) (c_log c') -> In (LScope u sc en te ex) (c_log c)) -> scopes_ok c'.
Proof.
  intros [A B] Le H. split; [intros u sc en te ex X|intros u u' sc en en' te te' ex ex' X Y; eapply B; eauto].
  specialize (A _ _ _ _ _ (H _ _ _ _ _ X)). lia.
Qed.

(** Steps of the build phase *)
Definition bp (c c' : con) : Prop :=
  (binv c -> binv c') /\ (forall e, In e (c_log c) -> In e (c_log c')) /\
  (forall r t, look (c_conns c) r = Some t -> look (c_conns c') r = Some t).

Lemma bp_refl c : bp c c.
Proof. split; [auto|split; auto]. Qed.

Lemma bp_trans c1 c2 c3 : bp c1 c2 -> bp c2 c3 -> bp c1 c3.
Proof. intros (a1 & a2 & a3) (b1 & b2 & b3). split; [auto|split; auto]. Qed.

Definition boring (e : entry) : Prop :=
  match e with LSlot _ _ | LStream _ _ _ | LBuilt _ _ _ _ => True | _ => False end.

Definition boring' (e : entry) : Prop := boring e \/ exists u sc en te ex, e = LScope u sc en te ex.

Ltac nb := intros [[]|(?&?&?&?&?&?)]; discriminate.

Lemma linv_boring c c' W :
  linv d g c W -> (forall e, In e (c_log c) -> In e (c_log c')) ->
  (forall e, In e (c_log c') -> In e (c_log c) \/ boring' e) ->
  (forall r t, look (c_conns c') r = Some t -> conn_wf d (c_log c') r (t_conn t)) -> linv d g c' W.
Proof.
  intros V M N Hc.
  assert (B : forall e, In e (c_log c') -> ~ boring' e -> In e (c_log c)).
  { intros e H Hb. destruct (N e H); tauto. }
  assert (Bs : forall r o, source (c_log c') r o -> source (c_log c) r o).
  { intros r o [X|X]; [left|right]; apply B; auto; intros [[]|(?&?&?&?&?&?)]; discriminate. }
  assert (Ms : forall r o, source (c_log c) r o -> source (c_log c') r o).
  { intros r o [X|X]; [left|right]; auto. }
  constructor.
  - intros r o X. destruct (v_src _ _ _ _ V r o (Bs _ _ X)) as (r2 & L & [A|[A|A]]); exists r2; (split; [auto|]).
    + left; auto.
    + right; left; auto.
    + right; right. eapply arrives_mono; eauto.
  - exact Hc.
  - intros r o X. apply Ms. eapply v_wait; eauto.
  - intros r o X. apply Ms. eapply v_hand; [exact V|]. apply B; [auto|nb].
  - intros r o X. eapply origin_mono; [exact M|]. eapply v_origin; [exact V|]. apply B; [auto|nb].
  - intros e X. destruct (N e X) as [Y|Y]; [eapply v_good; eauto|]. destruct Y as [Y|(?&?&?&?&?&->)]; [|exact I]. destruct e; try contradiction; exact I.
  - intros o s X. destruct (v_link _ _ _ _ V o s) as (r & s0 & A & B1); [apply B; [auto|nb]|].
    exists r, s0. split; [auto|]. destruct B1 as [(-> & k & i & er & B1)|[B1 [B2|(k & out & er & B2 & B3)]]].
    + left. split; [auto|]. exists k, i, er. auto.
    + right. auto.
    + right. split; [auto|]. right. exists k, out, er. auto.
  - intros r o X. destruct (v_set _ _ _ _ V r o) as [Y|(to & G & Y)]; [apply B; [auto|nb]| |].
    + left. eapply arrives_mono; eauto.
    + right. eauto.
Qed.

Lemma kept_boring c c' W :
  kept c W -> (forall e, In e (c_log c) -> In e (c_log c')) ->
  (forall e, In e (c_log c') -> In e (c_log c) \/ boring' e) -> kept c' W.
Proof.
  intros K M N r o X. destruct (N _ X) as [Y|[[]|(?&?&?&?&?&?)]]; [|discriminate]. destruct (K r o Y) as [Z|Z]; auto.
Qed.

Lemma lost_boring c c' W :
  lost_ok c W -> (forall e, In e (c_log c) -> In e (c_log c')) ->
  (forall e, In e (c_log c') -> In e (c_log c) \/ boring' e) -> lost_ok c' W.
Proof.
  intros [F K] M N. split; [exact F|]. intros r o X. destruct (N _ X) as [Y|[[]|(?&?&?&?&?&?)]]; [|discriminate].
  destruct (K r o Y) as [o' [Z|Z]]; eauto.
Qed.

Lemma bp_boring c c' :
  c_outs c' = c_outs c -> c_new c' = c_new c -> c_next c <= c_next c' ->
  (forall e, In e (c_log c) -> In e (c_log c')) ->
  (forall e, In e (c_log c') -> In e (c_log c) \/ boring e) ->
  (forall r t, look (c_conns c) r = Some t -> look (c_conns c') r = Some t) ->
  (forall r t, look (c_conns c') r = Some t -> look (c_conns c) r = Some t \/ conn_wf d (c_log c') r (t_conn t)) ->
  bp c c'.
Proof.
  intros E1 E2 Le M N C1 C2. split; [|auto]. intros (V & ND & Hn & K & Sc & Lo).
  assert (N' : forall e, In e (c_log c') -> In e (c_log c) \/ boring' e).
  { intros e X. destruct (N e X); [auto|right; left; auto]. }
  split; [|split; [|split; [|split; [|split]]]].
  - rewrite E1. eapply linv_boring; eauto. intros r t X. destruct (C2 r t X) as [Y|Y]; [|auto].
    eapply conn_wf_mono; [exact M|]. eapply v_conn; eauto.
  - rewrite E1. auto.
  - rewrite E2. auto.
  - rewrite E1. eapply kept_boring; eauto.
  - eapply scopes_ok_mono; [exact Sc|exact Le|]. intros u sc en te ex X. destruct (N _ X) as [Y|[]]. exact Y.
  - rewrite E1. eapply lost_boring; eauto.
Qed.

Lemma bp_same c c' :
  c_log c' = c_log c -> c_conns c' = c_conns c -> c_outs c' = c_outs c -> c_new c' = c_new c ->
  c_next c <= c_next c' -> bp c c'.
Proof.
  intros E1 E2 E3 E4 Le. apply bp_boring; auto; try (intros e; rewrite E1; auto); rewrite E2; auto.
Qed.

Lemma bp_note e c : boring e -> bp c (note e c).
Proof.
  intros H. apply bp_boring; auto; try (intros x X; apply note_in; auto).
  intros x X. apply note_in in X as [X| ->]; auto.
Qed.

Lemma set_conn_eq r k sc c c' :
  set_conn r k sc c = inl c' ->
  look (c_conns c) r = None /\ c' = set_conns (put (c_conns c) r {| t_conn := k; t_scope := sc |}) c.
Proof.
  unfold set_conn. destruct (look (c_conns c) r); [discriminate|]. intros [= <-]. auto.
Qed.

Lemma bp_set_conn r k sc c c' :
  set_conn r k sc c = inl c' -> conn_wf d (c_log c) r k ->
  bp c c' /\ c_log c' = c_log c /\ c_bufs c' = c_bufs c /\ c_gen c' = c_gen c /\
  look (c_conns c') r = Some {| t_conn := k; t_scope := sc |}.
Proof.
  intros H W. apply set_conn_eq in H as [H ->]. split; [|split; [auto|split; [auto|split; [auto|]]]].
  - apply bp_boring; auto.
    + intros r1 t X. cbn. rewrite look_put. destruct (opref_eq_dec r1 r) as [->|]; congruence.
    + intros r1 t X. cbn in X |- *. rewrite look_put in X. destruct (opref_eq_dec r1 r) as [->|]; [|auto].
      injection X as <-. auto.
  - cbn. rewrite look_put. destruct (opref_eq_dec r r); congruence.
Qed.

Lemma bp_set_input ns r s sc c c' :
  set_input g ns r s sc c = inl c' ->
  bp c c' /\ c_log c' = c_log c ++ [LSlot (in_ns ns r) s] /\ c_bufs c' = c_bufs c /\ c_gen c' = c_gen c.
Proof.
  unfold set_input. destruct (set_conn _ _ _ c) as [c1|e] eqn:E; [|discriminate]. intros [= <-].
  apply set_conn_eq in E as [E ->]. split; [|auto].
  apply bp_boring; auto; try (intros x X; apply note_in; auto).
  - intros x X. apply note_in in X as [X| ->]; [auto|right; exact I].
  - intros r1 t X. cbn. rewrite look_put. destruct (opref_eq_dec r1 (in_ns ns r)) as [->|]; congruence.
  - intros r1 t X. cbn [note set_log c_conns set_conns] in X. rewrite look_put in X.
    destruct (opref_eq_dec r1 (in_ns ns r)) as [->|]; [|auto]. injection X as <-. right. cbn [conn_wf t_conn].
    split; [rewrite standard_slot; apply note_in; auto|apply standard_wf].
Qed.

Lemma bp_set_buffer ns r s sc c c' :
  set_buffer g ns r s sc c = inl c' ->
  bp c c' /\ c_log c' = c_log c ++ [LSlot (in_ns ns r) s] /\ c_gen c' = c_gen c /\
  c_bufs c' = put (c_bufs c) (in_ns ns r) (BVal s).
Proof.
  unfold set_buffer. destruct (set_input g ns r s sc c) as [c1|e] eqn:E; [|discriminate].
  destruct (bp_set_input _ _ _ _ _ _ E) as (B & L & F & G).
  destruct (look (c_bufs c1) (in_ns ns r)); [discriminate|]. intros [= <-].
  split; [eapply bp_trans; [exact B|]; apply bp_same; (reflexivity || (cbn; lia))|]. cbn. rewrite F. auto.
Qed.

Lemma bp_add_output ns r o c :
  bp c (add_output ns r o c).
Proof.
  set (r' := in_ns ns r). set (c' := add_output ns r o c).
  assert (L : forall e, In e (c_log c') <-> In e (c_log c) \/ e = LPut r' o).
  { intros e. subst c'. unfold add_output. cbn. rewrite in_app_iff. cbn. intuition. }
  assert (O : c_outs c' = push (c_outs c) r' o) by reflexivity.
  split; [|split; [intros e X; apply L; auto|auto]].
  intros (V & ND & Hn & K & Sc & Lf & Lo). split; [|split; [|split; [|split; [|split; [|split]]]]].
  - rewrite O. constructor.
    + intros r1 o1 X.
      assert (Y : source (c_log c) r1 o1 \/ (r1 = r' /\ o1 = o)).
      { destruct X as [X|X]; apply L in X as [X|X]; try discriminate; [left; left|right|left; right]; auto.
        injection X as -> ->. auto. }
      destruct Y as [Y|[-> ->]].
      * destruct (v_src _ _ _ _ V r1 o1 Y) as (r2 & L2 & [A|[A|A]]); exists r2; (split; [auto|]).
        -- left. apply waits_push. auto.
        -- right; left. apply L. auto.
        -- right; right. eapply arrives_mono; [|exact A]. intros e He. apply L. auto.
      * exists r'. split; [constructor|]. left. apply waits_push. auto.
    + intros r1 t X. eapply conn_wf_mono; [|eapply v_conn; [exact V|exact X]]. intros e He. apply L. auto.
    + intros r1 o1 X. apply waits_push in X as [X|[-> ->]].
      * destruct (v_wait _ _ _ _ V r1 o1 X) as [Y|Y]; [left|right]; apply L; auto.
      * left. apply L. auto.
    + intros r1 o1 X. apply L in X as [X|X]; [|discriminate].
      destruct (v_hand _ _ _ _ V r1 o1 X) as [Y|Y]; [left|right]; apply L; auto.
    + intros r1 o1 X. apply L in X as [X|X]; [|discriminate].
      eapply origin_mono; [|eapply v_origin; eauto]. intros e He. apply L. auto.
    + intros e X. apply L in X as [X| ->]; [eapply v_good; eauto|exact I].
    + intros o1 s X. apply L in X as [X|X]; [|discriminate].
      destruct (v_link _ _ _ _ V o1 s X) as (r1 & s0 & A & B1). exists r1, s0. split; [apply L; auto|].
      destruct B1 as [(-> & k & i & er & B1)|[B1 [B2|(k & out & er & B2 & B3)]]].
      * left. split; [auto|]. exists k, i, er. apply L; auto.
      * right. split; [apply L; auto|auto].
      * right. split; [apply L; auto|]. right. exists k, out, er. split; apply L; auto.
    + intros r1 o1 X. apply L in X as [X|X]; [|discriminate].
      destruct (v_set _ _ _ _ V r1 o1 X) as [Y|(to & G & Y)].
      * left. eapply arrives_mono; [|exact Y]. intros e He. apply L. auto.
      * right. exists to. split; [auto|]. apply L; auto.
  - rewrite O. apply keys_push. auto.
  - exact Hn.
  - rewrite O. intros r1 o1 X. apply L in X as [X|X].
    + destruct (K r1 o1 X) as [Y|Y]; [left; apply L; auto|right; apply waits_push; auto].
    + injection X as -> ->. right. apply waits_push. auto.
  - eapply scopes_ok_mono; [exact Sc|apply le_n|]. intros u sc en te ex X. apply L in X as [X|X]; [auto|discriminate].
  - rewrite O. apply full_push. exact Lf.
  - rewrite O. intros r1 o1 X. apply L in X as [X|X]; [|discriminate].
    destruct (Lo r1 o1 X) as [o' [Z|Z]]; exists o'; [left; apply L; auto|right; apply waits_push; auto].
Qed.

(** A new scope *)
Lemma bp_scope u en te ex n c :
  c_next c < n -> bp c (note (LScope u (c_next c) en te ex) (set_next n c)).
Proof.
  intros Hn. set (c' := note _ _).
  assert (L : forall e, In e (c_log c') <-> In e (c_log c) \/ e = LScope u (c_next c) en te ex).
  { intros e. subst c'. rewrite note_in. reflexivity. }
  assert (M : forall e, In e (c_log c) -> In e (c_log c')) by (intros e X; apply L; auto).
  assert (N : forall e, In e (c_log c') -> In e (c_log c) \/ boring' e).
  { intros e X. apply L in X as [X| ->]; [auto|right; right; eauto 8]. }
  split; [|split; auto]. intros (V & ND & Hw & K & [Sc1 Sc2] & Lo). split; [|split; [|split; [|split; [|split]]]].
  - change (c_outs c') with (c_outs c). eapply linv_boring; eauto. intros r t X.
    eapply conn_wf_mono; [exact M|]. eapply v_conn; [exact V|exact X].
  - exact ND.
  - exact Hw.
  - change (c_outs c') with (c_outs c). eapply kept_boring; eauto.
  - split.
    + intros u1 sc en1 te1 ex1 X. change (c_next c') with n. apply L in X as [X|X]; [specialize (Sc1 _ _ _ _ _ X); lia|].
      injection X. intros. subst. exact Hn.
    + intros u1 u2 sc en1 en2 te1 te2 ex1 ex2 X Y. apply L in X as [X|X]; apply L in Y as [Y|Y].
      * eapply Sc2; eauto.
      * injection Y. intros. subst sc. specialize (Sc1 _ _ _ _ _ X). lia.
      * injection X. intros. subst sc. specialize (Sc1 _ _ _ _ _ Y). lia.
      * injection X. injection Y. intros. subst. auto.
  - change (c_outs c') with (c_outs c). eapply lost_boring; eauto.
Qed.

(** ** Lists of outputs *)

Lemma add_outputs_ok ns l : forall c,
  let c' := add_outputs ns l c in
  bp c c' /\ c_bufs c' = c_bufs c /\ c_gen c' = c_gen c /\
  c_log c' = c_log c ++ map (fun x => LPut (named ns (fst x)) (snd x)) l.
Proof.
  induction l as [|[t o] l IH]; intros c c'; subst c'; cbn [add_outputs map].
  - rewrite app_nil_r. split; [apply bp_refl|auto].
  - destruct (IH (add_output ns (to_ref t) o c)) as (B & F & G & L).
    split; [eapply bp_trans; [apply bp_add_output|exact B]|]. rewrite F, G, L. do 2 (split; [reflexivity|]).
    cbn. rewrite in_ns_named, <- app_assoc. reflexivity.
Qed.

Lemma fresh_outputs_ok l sc : forall c c' os,
  fresh_outputs l sc c = (c', os) ->
  bp c c' /\ c_bufs c' = c_bufs c /\ c_gen c' = c_gen c /\ c_log c' = c_log c /\
  map fst os = map fst l /\ map (fun x => o_ty (snd x)) os = map snd l /\ (forall x, In x os -> o_scope (snd x) = sc).
Proof.
  induction l as [|[t ty] l IH]; intros c c' os H; cbn [fresh_outputs] in H.
  - injection H as <- <-. split; [apply bp_refl|]. repeat (split; [reflexivity|]). intros x [].
  - unfold spawn_output, spawn in H. destruct (fresh_outputs l sc (set_next (S (c_next c)) c)) as [c2 r] eqn:E.
    injection H as <- <-. destruct (IH _ _ _ E) as (B & F & G & L & E1 & E2 & E3).
    split; [eapply bp_trans; [|exact B]; apply bp_same; (reflexivity || (cbn; lia))|]. cbn in F, G, L.
    do 3 (split; [auto|]). cbn. rewrite E1, E2. do 2 (split; [auto|]). intros x [<-|X]; [auto|apply E3; auto].
Qed.

Definition own_slots (sl : list slot) : list (option nat * slot) := map (fun s => (None, s)) sl.
Definition puts (ns : list nat) (os : list (next_op * output)) : list entry :=
  map (fun x => LPut (named ns (fst x)) (snd x)) os.

Lemma finish_ok u inp bufs outs c c' :
  finish g u inp bufs outs c = inl c' ->
  bp c c' /\ c_bufs c' = c_bufs c /\ c_gen c' = c_gen c /\
  exists sl os,
    map fst os = map fst outs /\ map (fun x => o_ty (snd x)) os = map snd outs /\
    (forall x, In x os -> o_scope (snd x) = u_scope u) /\
    (forall s, In s sl -> s_scope s = u_scope u) /\
    match inp with Some ty => exists s, sl = [s] /\ s_ty s = ty | None => sl = [] end /\
    c_log c' = c_log c ++ map (LSlot (u_ref u)) sl ++ puts (u_ns u) os ++
               [LBuilt u (own_slots sl) bufs (declared os)].
Proof.
  unfold finish. intros H.
  destruct (match inp with Some ty => _ | None => _ end) as [[c1 ins]|e] eqn:E; [|discriminate].
  destruct (fresh_outputs outs (u_scope u) c1) as [c2 os] eqn:F. injection H as <-.
  destruct (fresh_outputs_ok _ _ _ _ _ F) as (B2 & F2 & G2 & L2 & E1 & E2 & E3).
  destruct (add_outputs_ok (u_ns u) os c2) as (B3 & F3 & G3 & L3).
  assert (X : exists sl, ins = own_slots sl /\ bp c c1 /\ c_bufs c1 = c_bufs c /\ c_gen c1 = c_gen c /\
             c_log c1 = c_log c ++ map (LSlot (u_ref u)) sl /\ (forall s, In s sl -> s_scope s = u_scope u) /\
             match inp with Some ty => exists s, sl = [s] /\ s_ty s = ty | None => sl = [] end).
  { destruct inp as [ty|].
    - unfold spawn_slot, spawn in E. destruct (set_input g (u_ns u) _ _ _ _) as [c0|e] eqn:S; [|discriminate].
      injection E as <- <-. destruct (bp_set_input _ _ _ _ _ _ S) as (B & L & Fb & Gb).
      eexists [_]. split; [reflexivity|]. split; [eapply bp_trans; [|exact B]; apply bp_same; (reflexivity || (cbn; lia))|].
      split; [exact Fb|split; [exact Gb|split; [|split]]].
      + rewrite L. cbn. rewrite app_nil_r. reflexivity.
      + intros s [<-|[]]. reflexivity.
      + eexists. split; reflexivity.
    - injection E as <- <-. exists []. split; [reflexivity|split; [apply bp_refl|]].
      do 2 (split; [reflexivity|]). cbn. rewrite app_nil_r. split; [reflexivity|split; [intros s []|reflexivity]]. }
  destruct X as (sl & -> & B1 & F1 & G1 & L1 & S1 & I1).
  split; [eapply bp_trans; [exact B1|eapply bp_trans; [exact B2|eapply bp_trans; [exact B3|apply bp_note; exact I]]]|].
  cbn [note set_log c_bufs c_gen]. split; [congruence|split; [congruence|]].
  exists sl, os. do 5 (split; [auto|]). cbn [c_log note set_log]. rewrite L3, L2, L1. unfold puts.
  rewrite <- !app_assoc. reflexivity.
Qed.

(** ** What the new entries of the log are *)

Definition entry_ok (log : list entry) (e : entry) : Prop :=
  match e with
  | LSlot r s => slot_of log p ss r s
  | LBuilt u ins bufs outs => as_declared d g log u ins bufs outs
  | LScope u _ _ _ _ =>
      occurs d (u_ns u) (u_id u) (u_op u) /\ In (LBuilt u [] [] []) log /\
      exists start ops streams next, u_op u = OScope start ops streams next
  | LPut r o => accounted_for d log q r o
  | LLost r o => ~ outermost ss r
  | LConv _ _ _ (Some er) => In (LPass (directed d [] None) er) log
  | _ => True
  end.

Definition new_ok (c c' : con) : Prop :=
  forall e, In e (c_log c') -> In e (c_log c) \/ entry_ok (c_log c') e.

Definition buf_ok (log : list entry) (r : opref) (b : bufref) : Prop :=
  match b with BVal s => buffer_of g log r s | BRef r' => goes d r r' end.

Definition bufs_ok (c c' : con) : Prop :=
  forall r b, look (c_bufs c') r = Some b -> look (c_bufs c) r = Some b \/ buf_ok (c_log c') r b.

Lemma buffer_of_mono log log' r s :
  (forall e, In e log -> In e log') -> buffer_of g log r s -> buffer_of g log' r s.
Proof. intros H Y. destruct Y; [eapply buffer_own|eapply buffer_exposed]; eauto. Qed.

Lemma buf_ok_mono log log' r b : (forall e, In e log -> In e log') -> buf_ok log r b -> buf_ok log' r b.
Proof. destruct b; cbn; [auto|apply buffer_of_mono]. Qed.

Lemma accounted_for_mono log log' r o :
  (forall e, In e log -> In e log') -> accounted_for d log q r o -> accounted_for d log' q r o.
Proof.
  intros H [X|(u & ins & bufs & outs & t & A & B)]; [left; auto|right]. exists u, ins, bufs, outs, t. auto.
Qed.

Lemma as_declared_mono log log' u ins bufs outs :
  (forall e, In e log -> In e log') -> as_declared d g log u ins bufs outs -> as_declared d g log' u ins bufs outs.
Proof.
  intros H [a1 a2 a3 a4 a5 a6]. constructor; auto.
  - intros t o X. destruct (a4 t o X) as (r & A & B). exists r. auto.
  - eapply Forall2_weaken; [|exact a5]. cbn. intros x y (A & r & B & C). split; [auto|]. exists r. split; [auto|].
    eapply buffer_of_mono; eauto.
Qed.

Lemma entry_ok_mono log log' e : (forall x, In x log -> In x log') -> entry_ok log e -> entry_ok log' e.
Proof.
  intros H. destruct e; cbn; auto.
  - apply accounted_for_mono; auto.
  - destruct err; auto.
  - intros (A & B & C). auto.
  - apply slot_of_mono; auto.
  - apply as_declared_mono; auto.
Qed.

Lemma finish_entries u bufs (outs : list (next_op * nat)) c c' sl os :
  bp c c' ->
  c_log c' = c_log c ++ map (LSlot (u_ref u)) sl ++ puts (u_ns u) os ++ [LBuilt u (own_slots sl) bufs (declared os)] ->
  map fst os = map fst outs -> 
  (forall x, In x os -> o_scope (snd x) = u_scope u) -> (forall s, In s sl -> s_scope s = u_scope u) ->
  occurs d (u_ns u) (u_id u) (u_op u) ->
  map Some (map fst outs) = declares g (u_op u) ->
  Forall2 (fun x y => fst x = fst y /\ exists r, leadsto d (named (u_ns u) (snd x)) r /\ buffer_of g (c_log c) r (snd y))
          (selects (u_op u)) bufs ->
  shaped d g (u_op u) (own_slots sl) bufs (declared os) ->
  match u_op u with OTransform _ _ => False | _ => True end ->
  new_ok c c' /\ In (LBuilt u (own_slots sl) bufs (declared os)) (c_log c').
Proof.
  intros B L E1 E3 S1 Oc D Sel Sh Nt.
  assert (Pt : forall t o, put_to d u (Some t) o (named (u_ns u) t)).
  { intros t o. unfold put_to. destruct (u_op u); try contradiction; reflexivity. }
  assert (Hb : In (LBuilt u (own_slots sl) bufs (declared os)) (c_log c')).
  { rewrite L. rewrite !in_app_iff. cbn. auto. }
  split; [|exact Hb]. intros e X. rewrite L in X. rewrite !in_app_iff in X. cbn in X.
  destruct X as [X|[X|[X|[X|[]]]]]; [auto| | |]; right.
  - apply in_map_iff in X as (s & <- & X). cbn. eapply slot_own; [exact Hb|]. apply in_map_iff. eauto.
  - apply in_map_iff in X as ([t o] & <- & X). cbn. right. exists u, (own_slots sl), bufs, (declared os), (Some t).
    split; [exact Hb|]. split; [|apply Pt]. apply in_map_iff. exists (t, o). auto.
  - subst e. cbn. constructor; auto.
    + unfold declared. rewrite map_map. cbn. rewrite <- D, <- E1, !map_map. reflexivity.
    + intros t o X. apply in_map_iff in X as ([t' o'] & [= <- <-] & X). exists (named (u_ns u) t').
      split; [|apply Pt]. rewrite L, !in_app_iff. right; right; left. apply in_map_iff. exists (t', o'). auto.
    + eapply Forall2_weaken; [|exact Sel]. cbn. intros x y (A & r & B1 & B2). split; [auto|]. exists r. split; [auto|].
      eapply buffer_of_mono; [|exact B2]. apply B.
    + split.
      * intros x s X. apply in_map_iff in X as (s' & [= <- <-] & X). auto.
      * intros t o X. apply in_map_iff in X as ([t' o'] & [= <- <-] & X). apply (E3 (t', o')). auto.
Qed.

(** ** Looking up buffers *)

Lemma find_buffer_ok c : (forall r b, look (c_bufs c) r = Some b -> buf_ok (c_log c) r b) ->
  forall fuel visited r s, find_buffer fuel (c_bufs c) visited r = Some s ->
  exists r', leadsto d r r' /\ buffer_of g (c_log c) r' s.
Proof.
  intros Hb. induction fuel as [|fuel IH]; intros visited r s H; cbn [find_buffer] in H; [discriminate|].
  destruct (mem r visited); [discriminate|]. destruct (look (c_bufs c) r) as [[r1|s1]|] eqn:E; [| |discriminate].
  - destruct (IH _ _ _ H) as (r' & A & B). exists r'. split; [|auto]. eapply leadsto_step; [|exact A]. apply (Hb _ _ E).
  - injection H as ->. exists r. split; [constructor|]. apply (Hb _ _ E).
Qed.

Lemma buffer_map_ok c ns : (forall r b, look (c_bufs c) r = Some b -> buf_ok (c_log c) r b) ->
  forall sel m, buffer_map ns c sel = Some m ->
  Forall2 (fun x y => fst x = fst y /\ exists r, leadsto d (named ns (snd x)) r /\ buffer_of g (c_log c) r (snd y)) sel m.
Proof.
  intros Hb. induction sel as [|[k t] sel IH]; intros m H; cbn [buffer_map] in H; [injection H as <-; constructor|].
  destruct (find_buffer _ _ _ _) as [s|] eqn:E; [|discriminate].
  destruct (buffer_map ns c sel) as [m'|]; [|discriminate]. injection H as <-.
  constructor; [|apply IH; auto]. split; [auto|]. rewrite in_ns_named in E. eapply find_buffer_ok; eauto.
Qed.

(** ** One operation *)

Inductive inside : op -> nat -> op -> Prop :=
| inside_template t T cn id o :
    find t (d_templates d) = Some T -> In (id, o) (t_ops T) -> inside (OSection (PTemplate t) cn) id o
| inside_scope start ops streams next id o : In (id, o) ops -> inside (OScope start ops streams next) id o.

Record built (u : unf) (c c' : con) (fin : bool) : Prop := {
  bu_bp : bp c c';
  bu_new : new_ok c c';
  bu_mine : forall u' ins bufs outs, In (LBuilt u' ins bufs outs) (c_log c') ->
            In (LBuilt u' ins bufs outs) (c_log c) \/ (u' = u /\ fin = true);
  bu_bufs : bufs_ok c c';
  bu_gen : forall v, In v (c_gen c') -> In v (c_gen c) \/ occurs d (u_ns v) (u_id v) (u_op v);
  bu_keep : forall v, In v (c_gen c) -> In v (c_gen c');
  bu_defer : fin = false -> c_log c' = c_log c /\ c_conns c' = c_conns c /\ c_outs c' = c_outs c /\
                            c_gen c' = c_gen c;
  bu_built : fin = true -> exists ins bufs outs, In (LBuilt u ins bufs outs) (c_log c');
  bu_alias : fin = true -> forall r r', alias d (u_ns u) (u_id u) (u_op u) r r' ->
             exists t seen, look (c_conns c') r = Some t /\ t_conn t = KRedirect r' seen;
  bu_inside : fin = true -> forall id o, inside (u_op u) id o ->
              exists v, In v (c_gen c') /\ u_id v = id /\ u_ns v = u_ns u ++ [u_id u] /\ u_op v = o;
  bu_scope : fin = true -> forall start ops streams next, u_op u = OScope start ops streams next ->
             exists sc en term ex t1 t2,
               In (LScope u sc en term ex) (c_log c') /\
               look (c_conns c') (RNamed (u_ns u) None (u_id u)) = Some t1 /\
               (exists r, t_conn t1 = KRequest sc en r None) /\
               look (c_conns c') (RTerminate (u_ns u ++ [u_id u])) = Some t2 /\
               (exists par r, t_conn t2 = KResponse sc term ex par r None)
}.

Definition plain_op (o : op) : Prop :=
  match o with OSection _ _ | OScope _ _ _ _ | OStreamOut _ | OTransform _ _ => False | _ => True end.

Lemma deferred_ok u c c' :
  c_log c' = c_log c -> c_conns c' = c_conns c -> c_outs c' = c_outs c -> c_new c' = c_new c ->
  c_bufs c' = c_bufs c -> c_gen c' = c_gen c -> c_next c' = c_next c -> built u c c' false.
Proof.
  intros E1 E2 E3 E4 E5 E6 E7. constructor; try discriminate; auto.
  - apply bp_same; auto. lia.
  - intros e. rewrite E1. auto.
  - intros u' ins bufs outs. rewrite E1. auto.
  - intros r b. rewrite E5. auto.
  - intros v. rewrite E6. auto.
  - intros v. rewrite E6. auto.
Qed.

Lemma finish_built u inp bufs outs c0 c c' :
  c_log c = c_log c0 -> c_conns c = c_conns c0 -> c_outs c = c_outs c0 -> c_new c = c_new c0 ->
  c_bufs c = c_bufs c0 -> c_gen c = c_gen c0 -> c_next c = c_next c0 ->
  finish g u inp bufs outs c = inl c' -> occurs d (u_ns u) (u_id u) (u_op u) -> plain_op (u_op u) ->
  map Some (map fst outs) = declares g (u_op u) ->
  Forall2 (fun x y => fst x = fst y /\ exists r, leadsto d (named (u_ns u) (snd x)) r /\ buffer_of g (c_log c) r (snd y))
          (selects (u_op u)) bufs ->
  (forall sl os, map (fun x => o_ty (snd x)) os = map snd outs ->
     match inp with Some ty => exists s, sl = [s] /\ s_ty s = ty | None => sl = [] end ->
     shaped d g (u_op u) (own_slots sl) bufs (declared os)) ->
  built u c0 c' true.
Proof.
  intros Q1 Q2 Q3 Q4 Q5 Q6 Q7 H Oc Pl D Sel Sh.
  destruct (finish_ok _ _ _ _ _ _ H) as (B & F & G & sl & os & E1 & E2 & E3 & S1 & I1 & L).
  destruct (finish_entries u bufs outs c c' sl os) as (N & Hb); auto; [destruct (u_op u); auto|].
  assert (B0 : bp c0 c) by (apply bp_same; auto; lia).
  constructor; try discriminate.
  - eapply bp_trans; eauto.
  - intros e X. destruct (N e X) as [Y|Y]; [rewrite <- Q1|]; auto.
  - intros u' i1 b1 o1 X. rewrite L in X. rewrite !in_app_iff in X. cbn in X. destruct X as [X|[X|[X|[X|[]]]]].
    + rewrite Q1 in X. auto.
    + apply in_map_iff in X as (? & ? & _). discriminate.
    + apply in_map_iff in X as (? & ? & _). discriminate.
    + injection X as <- _ _ _. auto.
  - intros r b. rewrite F, Q5. auto.
  - intros v. rewrite G, Q6. auto.
  - intros v. rewrite G, Q6. auto.
  - intros _. eauto.
  - intros _ r r' X. destruct (u_op u); cbn in Pl; try contradiction; inversion X.
  - intros _ id o X. destruct (u_op u); cbn in Pl; try contradiction; inversion X.
  - intros _ st ops strs nx X. rewrite X in Pl. destruct Pl.
Qed.

Lemma output_types_declared os : output_types (declared os) = map (fun x => o_ty (snd x)) os.
Proof. unfold output_types, declared. rewrite map_map. reflexivity. Qed.

Lemma declared_In t o os : In (t, o) (declared os) -> exists t', t = Some t' /\ In (t', o) os.
Proof. intros H. apply in_map_iff in H as ([t' o'] & [= <- <-] & X). eauto. Qed.

Lemma types_const {A} (os : list (next_op * output)) (l : list A) ty t o :
  map (fun x => o_ty (snd x)) os = map (fun _ => ty) l -> In (t, o) os -> o_ty o = ty.
Proof.
  intros H X. assert (Y : In (o_ty o) (map (fun x => o_ty (snd x)) os)) by (apply in_map_iff; exists (t, o); auto).
  rewrite H in Y. apply in_map_iff in Y as (? & ? & _). auto.
Qed.

Lemma named_streams_ok have l outs : named_streams have l = Some outs ->
  map fst outs = map snd l /\ Forall2 (fun x ty => find (fst x) have = Some ty) l (map snd outs).
Proof.
  revert outs. induction l as [|[n t] l IH]; intros outs H; cbn [named_streams] in H; [injection H as <-; cbn; auto|].
  destruct (find n have) as [ty|] eqn:E; [|discriminate]. destruct (named_streams have l) as [r|]; [|discriminate].
  injection H as <-. destruct (IH r eq_refl) as [A B]. cbn. rewrite A. split; [auto|]. constructor; auto.
Qed.

Lemma combine_fst {A B} (l : list A) (m : list B) : length m = length l -> map fst (combine l m) = l.
Proof. revert m. induction l as [|a l IH]; intros [|b m] H; cbn in *; try discriminate; auto. rewrite IH; auto. Qed.

Lemma combine_snd {A B} (l : list A) (m : list B) : length m = length l -> map snd (combine l m) = m.
Proof. revert m. induction l as [|a l IH]; intros [|b m] H; cbn in *; try discriminate; auto. rewrite IH; auto. Qed.

Lemma add_hints_same ns sel : forall hs c,
  let c' := add_hints ns sel hs c in
  c_log c' = c_log c /\ c_conns c' = c_conns c /\ c_outs c' = c_outs c /\ c_new c' = c_new c /\
  c_bufs c' = c_bufs c /\ c_gen c' = c_gen c /\ c_next c' = c_next c.
Proof.
  induction sel as [|[k t] sel IH]; intros hs c c'; subst c'; cbn [add_hints]; [destruct hs; auto 8|].
  destruct hs as [|h hs]; [auto 8|]. destruct (IH hs (set_hints (push (c_hints c) (in_ns ns (to_ref t)) h) c)) as (A & B & C & D & E & F & G).
  repeat split; auto.
Qed.

Lemma set_type_hints_same h ns ty sel c c' : set_type_hints h ns ty sel c = inl c' ->
  c_log c' = c_log c /\ c_conns c' = c_conns c /\ c_outs c' = c_outs c /\ c_new c' = c_new c /\
  c_bufs c' = c_bufs c /\ c_gen c' = c_gen c /\ c_next c' = c_next c.
Proof.
  unfold set_type_hints. destruct (h ty (map fst sel)) as [hs|]; [|discriminate]. intros [= <-]. apply add_hints_same.
Qed.

Lemma buf_types_eq m : buf_types m = buffer_types m.
Proof. reflexivity. Qed.

Definition bufs_good (c : con) : Prop := forall r b, look (c_bufs c) r = Some b -> buf_ok (c_log c) r b.

Section Cases.
Variable u : unf.
Hypothesis Oc : occurs d (u_ns u) (u_id u) (u_op u).

Lemma op_node b next streams c c' fin : u_op u = ONode b next streams ->
  build_op g (d_templates d) imp u c = inl (c', fin) -> built u c c' fin.
Proof.
  intros E H. unfold build_op in H. rewrite E in H.
  destruct (r_node g b) as [[[rq rp] have]|] eqn:Er; [|discriminate].
  destruct (named_streams have streams) as [outs|] eqn:Es; [|discriminate].
  destruct (finish _ _ _ _ _ _) as [c1|e] eqn:F; [|discriminate]. injection H as <- <-.
  destruct (named_streams_ok _ _ _ Es) as [A1 A2].
  eapply finish_built; [reflexivity..|exact F|exact Oc|rewrite E; exact I| | |]; rewrite E.
  - cbn. f_equal. rewrite A1, map_map. reflexivity.
  - constructor.
  - intros sl os T (s & -> & Ts). eapply shaped_node; [rewrite Ts; exact Er| |exact A2].
    rewrite output_types_declared, T. reflexivity.
Qed.

Lemma op_fork nexts c c' fin : u_op u = OFork nexts ->
  build_op g (d_templates d) imp u c = inl (c', fin) -> built u c c' fin.
Proof.
  intros E H. unfold build_op in H. rewrite E in H.
  destruct (infer_first _ _ _) as [[ty|]|e]; [| |discriminate].
  2:{ injection H as <- <-. apply deferred_ok; auto. }
  destruct (r_clone g ty) eqn:Er; [|discriminate].
  destruct (finish _ _ _ _ _ _) as [c1|e] eqn:F; [|discriminate]. injection H as <- <-.
  eapply finish_built; [reflexivity..|exact F|exact Oc|rewrite E; exact I| | |]; rewrite E.
  - cbn. rewrite !map_map. cbn. reflexivity.
  - constructor.
  - intros sl os T (s & -> & Ts). apply shaped_fork; [congruence|]. intros t o X. apply declared_In in X as (t' & -> & X).
    rewrite Ts. eapply (types_const os nexts); [|exact X]. rewrite T, map_map. reflexivity.
Qed.

Lemma op_unzip nexts c c' fin : u_op u = OUnzip nexts ->
  build_op g (d_templates d) imp u c = inl (c', fin) -> built u c c' fin.
Proof.
  intros E H. unfold build_op in H. rewrite E in H.
  destruct (infer_into _ _ _) as [[ty|]|e]; [| |discriminate].
  2:{ injection H as <- <-. apply deferred_ok; auto. }
  destruct (r_unzip g ty) as [tys|] eqn:Er; [|discriminate].
  destruct (Nat.eqb_spec (length tys) (length nexts)) as [El|]; [|discriminate].
  destruct (finish _ _ _ _ _ _) as [c1|e] eqn:F; [|discriminate]. injection H as <- <-.
  eapply finish_built; [reflexivity..|exact F|exact Oc|rewrite E; exact I| | |]; rewrite E.
  - cbn. rewrite combine_fst; auto.
  - constructor.
  - intros sl os T (s & -> & Ts). apply shaped_unzip. rewrite Ts, output_types_declared, T, combine_snd; auto.
Qed.

Lemma op_result ok er c c' fin : u_op u = OResult ok er ->
  build_op g (d_templates d) imp u c = inl (c', fin) -> built u c c' fin.
Proof.
  intros E H. unfold build_op in H. rewrite E in H.
  destruct (infer_into _ _ _) as [[ty|]|e]; [| |discriminate].
  2:{ injection H as <- <-. apply deferred_ok; auto. }
  destruct (r_result g ty) as [[t1 t2]|] eqn:Er; [|discriminate].
  destruct (finish _ _ _ _ _ _) as [c1|e] eqn:F; [|discriminate]. injection H as <- <-.
  eapply finish_built; [reflexivity..|exact F|exact Oc|rewrite E; exact I| | |]; rewrite E.
  - reflexivity.
  - constructor.
  - intros sl os T (s & -> & Ts). eapply shaped_result; [rewrite Ts; exact Er|]. rewrite output_types_declared, T. reflexivity.
Qed.

Lemma op_split keyed seq rem c c' fin : u_op u = OSplit keyed seq rem ->
  build_op g (d_templates d) imp u c = inl (c', fin) -> built u c c' fin.
Proof.
  intros E H. unfold build_op in H. rewrite E in H.
  destruct (infer_into _ _ _) as [[ty|]|e]; [| |discriminate].
  2:{ injection H as <- <-. apply deferred_ok; auto. }
  destruct (r_split _ _ _ _ _) as [item|] eqn:Er; [|discriminate].
  destruct (finish _ _ _ _ _ _) as [c1|e] eqn:F; [|discriminate]. injection H as <- <-.
  eapply finish_built; [reflexivity..|exact F|exact Oc|rewrite E; exact I| | |]; rewrite E.
  - cbn. rewrite !map_map. cbn. rewrite !map_app, map_map. destruct rem; reflexivity.
  - constructor.
  - intros sl os T (s & -> & Ts). eapply shaped_split; [rewrite Ts; exact Er|].
    intros t o X. apply declared_In in X as (t' & -> & X).
    eapply (types_const os); [|exact X]. rewrite T, map_map. reflexivity.
Qed.

Lemma op_join next sel ser c c' fin : u_op u = OJoin next sel ser -> bufs_good c ->
  build_op g (d_templates d) imp u c = inl (c', fin) -> built u c c' fin.
Proof.
  intros E Hb H. unfold build_op in H. rewrite E in H.
  destruct sel as [|x sel]; [discriminate|]. set (sl := x :: sel) in *.
  destruct (buffer_map (u_ns u) c sl) as [m|] eqn:Em.
  2:{ injection H as <- <-. apply deferred_ok; auto. }
  pose proof (buffer_map_ok c (u_ns u) Hb sl m Em) as Sel.
  assert (K : exists ty, finish g u None m [(next, ty)] c = inl c' /\ fin = true /\
                         r_join g ty (buf_types m) = true /\ (ser = true -> ty = TJson) \/ (c' = c /\ fin = false)).
  { destruct ser.
    - destruct (r_join g TJson (buf_types m)) eqn:Er; [|discriminate].
      destruct (finish _ _ _ _ _ _) as [c1|e] eqn:F; [|discriminate]. injection H as <- <-. exists TJson. auto 6.
    - destruct (infer_into _ _ _) as [[ty|]|e]; [| |discriminate].
      + destruct (r_join g ty (buf_types m)) eqn:Er; [|discriminate].
        destruct (finish _ _ _ _ _ _) as [c1|e] eqn:F; [|discriminate]. injection H as <- <-. exists ty.
        left. repeat (split; [auto|]). discriminate.
      + injection H as <- <-. exists 0. auto. }
  destruct K as (ty & [(F & -> & Er & Es)|(-> & ->)]); [|apply deferred_ok; auto].
  eapply finish_built; [reflexivity..|exact F|exact Oc|rewrite E; exact I| | |]; rewrite E.
  - reflexivity.
  - exact Sel.
  - intros s1 os T ->. eapply shaped_join; [rewrite output_types_declared, T; reflexivity|exact Er|exact Es].
Qed.

Lemma op_access next sel c c' fin : u_op u = OAccess next sel -> bufs_good c ->
  build_op g (d_templates d) imp u c = inl (c', fin) -> built u c c' fin.
Proof.
  intros E Hb H. unfold build_op in H. rewrite E in H.
  destruct (infer_into _ _ _) as [[ty|]|e]; [| |discriminate].
  2:{ injection H as <- <-. apply deferred_ok; auto. }
  destruct (set_type_hints _ _ _ _ c) as [c1|e] eqn:Eh; [|discriminate].
  destruct (set_type_hints_same _ _ _ _ _ _ Eh) as (Q1 & Q2 & Q3 & Q4 & Q5 & Q6 & Q7).
  destruct (buffer_map (u_ns u) c1 sel) as [m|] eqn:Em.
  2:{ injection H as <- <-. apply deferred_ok; auto. }
  assert (Hb1 : bufs_good c1) by (intros r b; rewrite Q5, Q1; apply Hb).
  pose proof (buffer_map_ok c1 (u_ns u) Hb1 sel m Em) as Sel.
  destruct (r_access g ty (buf_types m)) as [rq|] eqn:Er; [|discriminate].
  destruct (finish _ _ _ _ _ _) as [c2|e] eqn:F; [|discriminate]. injection H as <- <-.
  eapply finish_built; [exact Q1|exact Q2|exact Q3|exact Q4|exact Q5|exact Q6|exact Q7|exact F|exact Oc|rewrite E; exact I| | |]; rewrite E.
  - reflexivity.
  - exact Sel.
  - intros s1 os T (s & -> & Ts). eapply shaped_access; [rewrite output_types_declared, T; reflexivity|rewrite Ts; exact Er].
Qed.

Lemma op_listen next sel c c' fin : u_op u = OListen next sel -> bufs_good c ->
  build_op g (d_templates d) imp u c = inl (c', fin) -> built u c c' fin.
Proof.
  intros E Hb H. unfold build_op in H. rewrite E in H.
  destruct (infer_into _ _ _) as [[ty|]|e]; [| |discriminate].
  2:{ injection H as <- <-. apply deferred_ok; auto. }
  destruct (set_type_hints _ _ _ _ c) as [c1|e] eqn:Eh; [|discriminate].
  destruct (set_type_hints_same _ _ _ _ _ _ Eh) as (Q1 & Q2 & Q3 & Q4 & Q5 & Q6 & Q7).
  destruct (buffer_map (u_ns u) c1 sel) as [m|] eqn:Em.
  2:{ injection H as <- <-. apply deferred_ok; auto. }
  assert (Hb1 : bufs_good c1) by (intros r b; rewrite Q5, Q1; apply Hb).
  pose proof (buffer_map_ok c1 (u_ns u) Hb1 sel m Em) as Sel.
  destruct (r_listen g ty (buf_types m)) eqn:Er; [|discriminate].
  destruct (finish _ _ _ _ _ _) as [c2|e] eqn:F; [|discriminate]. injection H as <- <-.
  eapply finish_built; [exact Q1|exact Q2|exact Q3|exact Q4|exact Q5|exact Q6|exact Q7|exact F|exact Oc|rewrite E; exact I| | |]; rewrite E.
  - reflexivity.
  - exact Sel.
  - intros s1 os T ->. eapply shaped_listen; [rewrite output_types_declared, T; reflexivity|exact Er].
Qed.

End Cases.

End Build.
