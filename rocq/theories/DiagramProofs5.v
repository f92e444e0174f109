(** Building operations, continued: transforms, buffers, sections, scopes. *)
From Verif Require Import Base DiagramModel DiagramSpec DiagramProofs DiagramProofs2 DiagramProofs3 DiagramProofs4.

Section Build.
Variable d : diagram.
Variable g : registry.
Notation imp := (implicit d).
Variables q p : nat.
Variable ss : list (nat * nat).
Notation built := (built d g q p ss).
Notation bp := (bp d g).

Lemma self_ref (u : unf) : in_ns (u_ns u) (RNamed [] None (u_id u)) = u_ref u.
Proof. cbn. rewrite app_nil_r. reflexivity. Qed.

Section Cases.
Variable u : unf.
Hypothesis Oc : occurs d (u_ns u) (u_id u) (u_op u).

Lemma op_transform next er c c' fin : u_op u = OTransform next er ->
  build_op g (d_templates d) imp u c = inl (c', fin) -> built u c c' fin.
Proof.
  intros E H. unfold build_op in H. rewrite E in H. cbn [spawn_output spawn_slot spawn] in H.
  set (tgt := match er with Some t => in_ns (u_ns u) (to_ref t) | None => imp end) in *.
  assert (Et : tgt = directed d (u_ns u) er).
  { subst tgt. destruct er as [t|]; [apply in_ns_named|]. rewrite implicit_directed. reflexivity. }
  match type of H with context [add_output (u_ns u) tgt ?x ?c0] => set (oe := x) in *; set (c1 := c0) in * end.
  match type of H with context [set_input g (u_ns u) _ ?x _ ?c0] => set (s := x) in *; set (c3 := c0) in * end.
  destruct (set_input _ _ _ _ _ _) as [c4|e] eqn:S; [|discriminate].
  match type of H with context [add_output (u_ns u) (to_ref next) ?x ?c0] => set (ok := x) in *; set (c5 := c0) in * end.
  injection H as <- <-.
  destruct (bp_set_input d g _ _ _ _ _ _ S) as (B4 & L4 & F4 & G4).
  rewrite self_ref in L4.
  set (c' := note _ _).
  assert (L : c_log c' = c_log c ++ [LPut (in_ns (u_ns u) tgt) oe; LSlot (u_ref u) s; LPut (named (u_ns u) next) ok;
                LBuilt u [(None, s)] [] [(Some next, ok); (er, oe)]]).
  { subst c' c5. unfold note, add_output. cbn. rewrite L4. cbn. rewrite in_ns_named, <- !app_assoc. reflexivity. }
  assert (B : bp c c').
  { eapply bp_trans with (c2 := c1); [apply bp_same; (reflexivity || (cbn; lia))|].
    eapply bp_trans with (c2 := c3); [eapply bp_trans; [apply bp_add_output|]; apply bp_same; (reflexivity || (cbn; lia))|].
    eapply bp_trans; [exact B4|]. eapply bp_trans with (c2 := c5); [apply bp_same; (reflexivity || (cbn; lia))|].
    eapply bp_trans; [apply bp_add_output|]. apply bp_note. exact I. }
  assert (Fb : c_bufs c' = c_bufs c) by (subst c' c5; cbn; exact F4).
  assert (Gb : c_gen c' = c_gen c) by (subst c' c5; cbn; exact G4).
  clearbody c'.
  assert (Hb : In (LBuilt u [(None, s)] [] [(Some next, ok); (er, oe)]) (c_log c')).
  { rewrite L. apply in_app_iff. cbn. auto 6. }
  constructor; try discriminate.
  - exact B.
  - intros e X. rewrite L in X. apply in_app_iff in X as [X|X]; [auto|right].
    destruct X as [<-|[<-|[<-|[<-|[]]]]]; cbn.
    + right. do 4 eexists. exists er. split; [exact Hb|]. split; [cbn; auto|]. unfold put_to. rewrite E. cbn. congruence.
    + eapply slot_own; [exact Hb|cbn; auto].
    + right. do 4 eexists. exists (Some next). split; [exact Hb|]. split; [cbn; auto|]. unfold put_to. rewrite E. reflexivity.
    + constructor; auto.
      * rewrite E. apply shaped_transform; reflexivity.
      * rewrite E. reflexivity.
      * intros t o [[= <- <-]|[[= <- <-]|[]]].
        -- exists (named (u_ns u) next). split; [rewrite L; apply in_app_iff; cbn; auto|unfold put_to; rewrite E; reflexivity].
        -- exists (in_ns (u_ns u) tgt). split; [rewrite L; apply in_app_iff; cbn; auto|].
           unfold put_to. rewrite E. cbn. congruence.
      * rewrite E. constructor.
      * split; [intros x s1 [[= <- <-]|[]]; reflexivity|intros t o [[= <- <-]|[[= <- <-]|[]]]; reflexivity].
  - intros u' i1 b1 o1 X. rewrite L in X. apply in_app_iff in X as [X|[X|[X|[X|[X|[]]]]]]; try discriminate; [auto|].
    injection X as <- _ _ _. auto.
  - intros r b X. rewrite Fb in X. auto.
  - intros v X. rewrite Gb in X. auto.
  - intros v X. rewrite Gb. auto.
  - intros _. eauto.
  - intros _ r r' X. rewrite E in X. inversion X.
  - intros _ id o X. rewrite E in X. inversion X.
  - intros _ st ops strs nx X. congruence.
Qed.

Lemma op_buffer ser c c' fin : u_op u = OBuffer ser ->
  build_op g (d_templates d) imp u c = inl (c', fin) -> built u c c' fin.
Proof.
  intros E H. unfold build_op in H. rewrite E in H.
  match type of H with (match ?x with inl _ => _ | inr _ => _ end) = _ => destruct x as [[ty|]|e] eqn:Ea end; [| |discriminate].
  2:{ injection H as <- <-. apply deferred_ok; auto. }
  destruct (r_known g ty) eqn:Er; [|discriminate]. cbn [spawn_slot spawn] in H.
  match type of H with context [set_buffer g (u_ns u) _ ?x _ ?c0] => set (s := x) in *; set (c1 := c0) in * end.
  destruct (set_buffer _ _ _ _ _ _) as [c2|e] eqn:S; [|discriminate]. injection H as <- <-.
  destruct (bp_set_buffer d g _ _ _ _ _ _ S) as (B & L & G & F). rewrite self_ref in L, F.
  assert (Hb : In (LBuilt u [(None, s)] [] []) (c_log (note (LBuilt u [(None, s)] [] []) c2))) by (apply note_in; auto).
  assert (Hs : ser = true -> ty = TJson) by (intros X; rewrite X in Ea; injection Ea as <-; reflexivity).
  constructor; try discriminate.
  - eapply bp_trans with (c2 := c1); [apply bp_same; (reflexivity || (cbn; lia))|]. eapply bp_trans; [exact B|]. apply bp_note. exact I.
  - intros e X. apply note_in in X as [X| ->].
    + rewrite L in X. apply in_app_iff in X as [X|[<-|[]]]; [auto|right]. cbn. eapply slot_own; [exact Hb|cbn; auto].
    + right. constructor; auto.
      * rewrite E. apply shaped_buffer; auto.
      * rewrite E. reflexivity.
      * intros t o [].
      * rewrite E. constructor.
      * split; [intros x s1 [[= <- <-]|[]]; reflexivity|intros t o []].
  - intros u' i1 b1 o1 X. apply note_in in X as [X|X]; [|injection X as -> _ _ _; auto].
    rewrite L in X. apply in_app_iff in X as [X|[X|[]]]; [auto|discriminate].
  - intros r b X. cbn in X. rewrite F, look_put in X. destruct (opref_eq_dec r (u_ref u)) as [->|N]; [|auto].
    injection X as <-. right. cbn. eapply buffer_own; [exact Hb|exact E|cbn; auto].
  - intros v X. cbn in X. rewrite G in X. auto.
  - intros v X. cbn. rewrite G. auto.
  - intros _. eauto.
  - intros _ r r' X. rewrite E in X. inversion X.
  - intros _ id o X. rewrite E in X. inversion X.
  - intros _ st ops strs nx X. congruence.
Qed.

Lemma op_stream_out n c c' fin : u_op u = OStreamOut n ->
  build_op g (d_templates d) imp u c = inl (c', fin) -> built u c c' fin.
Proof.
  intros E H. unfold build_op in H. rewrite E in H. rewrite self_ref in H.
  destruct (set_conn _ _ _ _) as [c1|e] eqn:S; [|discriminate]. injection H as <- <-.
  assert (G : goes d (u_ref u) (RStream (u_ns u) n)).
  { exists (u_ns u), (u_id u), (u_op u). split; [exact Oc|]. rewrite E. constructor. }
  assert (Er : in_ns (u_ns u) (RStream [] n) = RStream (u_ns u) n) by (cbn; rewrite app_nil_r; reflexivity).
  rewrite Er in S. destruct (bp_set_conn d g _ _ _ _ _ S G) as (B & L & F & Gn & Lk).
  assert (Hb : In (LBuilt u [] [] []) (c_log (note (LBuilt u [] [] []) c1))) by (apply note_in; auto).
  constructor; try discriminate.
  - eapply bp_trans; [exact B|]. apply bp_note. exact I.
  - intros e X. apply note_in in X as [X| ->]; [rewrite L in X; auto|]. right. constructor; auto.
    + rewrite E. constructor.
    + rewrite E. reflexivity.
    + intros t o [].
    + rewrite E. constructor.
    + split; [intros x s1 []|intros t o []].
  - intros u' i1 b1 o1 X. apply note_in in X as [X|X]; [rewrite L in X; auto|injection X as -> _ _ _; auto].
  - intros r b X. cbn in X. rewrite F in X. auto.
  - intros v X. cbn in X. rewrite Gn in X. auto.
  - intros v X. cbn. rewrite Gn. auto.
  - intros _. eauto.
  - intros _ r r' X. rewrite E in X. inversion X; subst. exists {| t_conn := KRedirect (RStream (u_ns u) n) []; t_scope := u_scope u |}, [].
    split; [exact Lk|reflexivity].
  - intros _ id o X. rewrite E in X. inversion X.
  - intros _ st ops strs nx X. congruence.
Qed.

(** *** Sections made by a builder *)

Lemma section_inputs_ok l : forall c c' ins,
  section_inputs g u l c = inl (c', ins) ->
  bp c c' /\ c_bufs c' = c_bufs c /\ c_gen c' = c_gen c /\
  map (fun x => (fst x, s_ty (snd x))) ins = map (fun x => (Some (fst x), snd x)) l /\
  (forall x s, In (x, s) ins -> s_scope s = u_scope u) /\
  (forall e, In e (c_log c') -> In e (c_log c) \/
     exists x s, e = LSlot (RNamed (u_ns u) (Some (u_id u)) x) s /\ In (Some x, s) ins).
Proof.
  induction l as [|[x ty] l IH]; intros c c' ins H; cbn [section_inputs] in H.
  - injection H as <- <-. split; [apply bp_refl|]. do 3 (split; [reflexivity|]). split; [intros x s []|auto].
  - cbn [spawn_slot spawn] in H. set (s := {| s_id := c_next c; s_ty := ty; s_scope := u_scope u |}) in *.
    set (c0 := set_next (S (c_next c)) c) in *.
    destruct (set_input _ _ _ _ _ _) as [c1|e] eqn:S; [|discriminate].
    destruct (section_inputs g u l c1) as [[c2 r]|e] eqn:R; [|discriminate]. injection H as <- <-.
    destruct (bp_set_input d g _ _ _ _ _ _ S) as (B1 & L1 & F1 & G1).
    destruct (IH _ _ _ R) as (B2 & F2 & G2 & T2 & S2 & N2). cbn [fst snd].
    split; [eapply bp_trans with (c2 := c0); [apply bp_same; (reflexivity || (cbn; lia))|eapply bp_trans; eauto]|].
    split; [rewrite F2; exact F1|split; [rewrite G2; exact G1|]].
    split; [cbn; rewrite T2; reflexivity|]. split; [intros x1 s1 [[= <- <-]|X]; [reflexivity|eapply S2; eauto]|].
    intros e X. destruct (N2 e X) as [Y|(x1 & s1 & -> & Y)]; [|right; exists x1, s1; split; [auto|right; auto]].
    rewrite L1 in Y. apply in_app_iff in Y as [Y|[<-|[]]]; [auto|]. right. exists x, s.
    split; [cbn; rewrite app_nil_r; reflexivity|left; reflexivity].
Qed.

Lemma section_buffers_ok l : forall c c' ins,
  section_buffers g u l c = inl (c', ins) ->
  bp c c' /\ c_gen c' = c_gen c /\
  map (fun x => (fst x, s_ty (snd x))) ins = map (fun x => (Some (fst x), snd x)) l /\
  (forall x s, In (x, s) ins -> s_scope s = u_scope u) /\
  (forall e, In e (c_log c') -> In e (c_log c) \/
     exists x s, e = LSlot (RNamed (u_ns u) (Some (u_id u)) x) s /\ In (Some x, s) ins) /\
  (forall r b, look (c_bufs c') r = Some b -> look (c_bufs c) r = Some b \/
     exists x s, r = RNamed (u_ns u) (Some (u_id u)) x /\ b = BVal s /\ In (x, s_ty s) l /\ In (Some x, s) ins).
Proof.
  induction l as [|[x ty] l IH]; intros c c' ins H; cbn [section_buffers] in H.
  - injection H as <- <-. split; [apply bp_refl|]. do 2 (split; [reflexivity|]). split; [intros x s []|split; auto].
  - cbn [spawn_slot spawn] in H. set (s := {| s_id := c_next c; s_ty := ty; s_scope := u_scope u |}) in *.
    set (c0 := set_next (S (c_next c)) c) in *.
    destruct (set_buffer _ _ _ _ _ _) as [c1|e] eqn:S; [|discriminate].
    destruct (section_buffers g u l c1) as [[c2 r]|e] eqn:R; [|discriminate]. injection H as <- <-.
    destruct (bp_set_buffer d g _ _ _ _ _ _ S) as (B1 & L1 & G1 & F1).
    destruct (IH _ _ _ R) as (B2 & G2 & T2 & S2 & N2 & F2). cbn [fst snd].
    assert (Er : in_ns (u_ns u) (RNamed [] (Some (u_id u)) x) = RNamed (u_ns u) (Some (u_id u)) x) by (cbn; rewrite app_nil_r; reflexivity).
    rewrite Er in *.
    split; [eapply bp_trans with (c2 := c0); [apply bp_same; (reflexivity || (cbn; lia))|eapply bp_trans; eauto]|].
    split; [rewrite G2; exact G1|].
    split; [cbn; rewrite T2; reflexivity|]. split; [intros x1 s1 [[= <- <-]|X]; [reflexivity|eapply S2; eauto]|]. split.
    + intros e X. destruct (N2 e X) as [Y|(x1 & s1 & -> & Y)]; [|right; exists x1, s1; split; [auto|right; auto]].
      rewrite L1 in Y. apply in_app_iff in Y as [Y|[<-|[]]]; [auto|]. right. exists x, s. split; [auto|left; reflexivity].
    + intros r1 b X. destruct (F2 r1 b X) as [Y|(x1 & s1 & Y1 & Y2 & Y3 & Y4)].
      * rewrite F1, look_put in Y. destruct (opref_eq_dec r1 (RNamed (u_ns u) (Some (u_id u)) x)) as [->|N]; [|auto].
        injection Y as <-. right. exists x, s. split; [auto|split; [auto|split; left; reflexivity]].
      * right. exists x1, s1. do 2 (split; [auto|]). split; right; auto.
Qed.

Lemma section_targets_ok cn l :
  map Some (map fst (section_targets cn l)) =
    flat_map (fun x => match find (fst x) cn with Some t => [Some t] | None => [] end) l /\
  map snd (section_targets cn l) =
    flat_map (fun x => match find (fst x) cn with Some _ => [snd x] | None => [] end) l.
Proof.
  induction l as [|[x ty] l [IH1 IH2]]; cbn [section_targets flat_map fst snd]; [auto|].
  destruct (find x cn); cbn; rewrite ?IH1, ?IH2; auto.
Qed.

Lemma unknown_output_ok cn have : unknown_output cn have = None -> forall x t, In (x, t) cn -> In x have.
Proof.
  induction cn as [|[y t'] cn IH]; cbn [unknown_output]; intros H x t X; [destruct X|].
  destruct (existsb (Nat.eqb y) have) eqn:E; [|discriminate]. destruct X as [[= <- <-]|X]; [|eapply IH; eauto].
  apply existsb_exists in E as (z & A & B). apply Nat.eqb_eq in B. subst. auto.
Qed.

Lemma op_builder b cn c c' fin : u_op u = OSection (PBuilder b) cn ->
  build_op g (d_templates d) imp u c = inl (c', fin) -> built u c c' fin.
Proof.
  intros E H. unfold build_op in H. rewrite E in H.
  destruct (r_section g b) as [[[i o] f]|] eqn:Er; [|discriminate].
  destruct (section_inputs g u i c) as [[c1 ins]|e] eqn:S1; [|discriminate].
  destruct (unknown_output cn (map fst o)) eqn:U; [discriminate|]. cbn [fst snd] in H.
  destruct (fresh_outputs (section_targets cn o) (u_scope u) c1) as [c2 os] eqn:Fo.
  destruct (section_buffers g u f (add_outputs (u_ns u) os c2)) as [[c3 bs]|e] eqn:S3; [|discriminate]. cbn [fst snd] in H.
  destruct (set_conn _ _ _ c3) as [c4|e] eqn:S4; [|discriminate]. injection H as <- <-.
  destruct (section_inputs_ok _ _ _ _ S1) as (B1 & F1 & G1 & T1 & Sc1 & N1).
  destruct (fresh_outputs_ok d g _ _ _ _ _ Fo) as (B2 & F2 & G2 & L2 & E1 & E2 & E3).
  destruct (add_outputs_ok d g (u_ns u) os c2) as (B2' & F2' & G2' & L2').
  destruct (section_buffers_ok _ _ _ _ S3) as (B3 & G3 & T3 & Sc3 & N3 & F3).
  assert (Et : in_ns (u_ns u) (RTerminate [u_id u]) = RTerminate (u_ns u ++ [u_id u])) by reflexivity.
  rewrite Et in S4.
  assert (Go : goes d (RTerminate (u_ns u ++ [u_id u])) (RTerminate (u_ns u))).
  { exists (u_ns u), (u_id u), (u_op u). split; [exact Oc|]. rewrite E. constructor. }
  destruct (bp_set_conn d g _ _ _ _ _ S4 Go) as (B4 & L4 & F4 & G4 & Lk).
  set (bl := LBuilt u (ins ++ bs) [] (declared os)) in *.
  assert (Hb : In bl (c_log (note bl c4))) by (apply note_in; auto).
  assert (M4 : forall e, In e (c_log c4) -> In e (c_log (note bl c4))) by (intros e X; apply note_in; auto).
  destruct (section_targets_ok cn o) as [D1 D2].
  assert (Hput : forall t o1, In (t, o1) os -> In (LPut (named (u_ns u) t) o1) (c_log (note bl c4))).
  { intros t o1 X. apply M4. rewrite L4. apply B3. rewrite L2'. apply in_app_iff. right.
    apply in_map_iff. exists (t, o1). auto. }
  constructor; try discriminate.
  - eapply bp_trans; [exact B1|eapply bp_trans; [exact B2|eapply bp_trans; [exact B2'|eapply bp_trans; [exact B3|eapply bp_trans; [exact B4|apply bp_note; exact I]]]]].
  - intros e X. apply note_in in X as [X| ->].
    + rewrite L4 in X. destruct (N3 e X) as [Y|(x & s & -> & Y)].
      * rewrite L2' in Y. apply in_app_iff in Y as [Y|Y].
        -- rewrite L2 in Y. destruct (N1 e Y) as [Z|(x & s & -> & Z)]; [auto|]. right. cbn.
           eapply slot_exposed; [exact Hb|]. apply in_app_iff. auto.
        -- right. apply in_map_iff in Y as ([t o1] & <- & Y). cbn. right. do 4 eexists. exists (Some t).
           split; [exact Hb|]. split; [|unfold put_to; rewrite E; reflexivity]. apply in_map_iff. exists (t, o1). auto.
      * right. cbn. eapply slot_exposed; [exact Hb|]. apply in_app_iff. auto.
    + right. constructor; auto.
      * rewrite E. eapply shaped_builder; [exact Er| | |].
        -- rewrite !map_app, T1, T3. reflexivity.
        -- rewrite output_types_declared, E2. exact D2.
        -- eapply unknown_output_ok; eauto.
      * rewrite E. cbn [declares]. rewrite Er, <- D1, <- E1. unfold declared. rewrite !map_map. reflexivity.
      * intros t o1 X. apply declared_In in X as (t' & -> & X). exists (named (u_ns u) t'). split; [auto|unfold put_to; rewrite E; reflexivity].
      * rewrite E. constructor.
      * split.
        -- intros x s X. apply in_app_iff in X as [X|X]; eauto.
        -- intros t o1 X. apply declared_In in X as (t' & -> & X). apply (E3 (t', o1)). auto.
  - intros u' i1 b1 o1 X. apply note_in in X as [X|X]; [|injection X as -> _ _ _; auto].
    rewrite L4 in X. destruct (N3 _ X) as [Y|(? & ? & Y & _)]; [|discriminate].
    rewrite L2' in Y. apply in_app_iff in Y as [Y|Y]; [|apply in_map_iff in Y as (? & ? & _); discriminate].
    rewrite L2 in Y. destruct (N1 _ Y) as [Z|(? & ? & Z & _)]; [auto|discriminate].
  - intros r b0 X. cbn in X. rewrite F4 in X. destruct (F3 r b0 X) as [Y|(x & s & -> & -> & Y1 & Y2)].
    + left. rewrite F2', F2, F1 in Y. auto.
    + right. cbn. eapply buffer_exposed; [exact Hb|exact E|exact Er|exact Y1|]. apply in_app_iff. auto.
  - intros v X. cbn in X. rewrite G4, G3, G2', G2, G1 in X. auto.
  - intros v X. cbn. rewrite G4, G3, G2', G2, G1. auto.
  - intros _. do 3 eexists. exact Hb.
  - intros _ r r' X. rewrite E in X. inversion X; subst.
    eexists. exists []. split; [exact Lk|reflexivity].
  - intros _ id o1 X. rewrite E in X. inversion X.
  - intros _ st ops strs nx X. congruence.
Qed.

(** *** Sections made from a template *)

Section Template.
Variables (t : nat) (T : template) (cn : list (nat * next_op)).
Hypothesis E : u_op u = OSection (PTemplate t) cn.
Hypothesis Ft : find t (d_templates d) = Some T.

Lemma goes_alias r r' : alias d (u_ns u) (u_id u) (u_op u) r r' -> goes d r r'.
Proof. intros H. exists (u_ns u), (u_id u), (u_op u). auto. Qed.

Lemma child_inputs_ok l : forall c c', (forall x, In x l -> In x (t_inputs T)) ->
  child_inputs u l c = inl c' ->
  bp c c' /\ c_bufs c' = c_bufs c /\ c_gen c' = c_gen c /\ c_log c' = c_log c /\
  (forall x y, In (x, y) l -> exists tt, look (c_conns c') (RNamed (u_ns u) (Some (u_id u)) x) = Some tt /\
                 t_conn tt = KRedirect (named (u_ns u ++ [u_id u]) y) []).
Proof.
  induction l as [|[x y] l IH]; intros c c' Sub H; cbn [child_inputs] in H.
  - injection H as <-. split; [apply bp_refl|]. repeat (split; [reflexivity|]). intros x y [].
  - destruct (set_conn _ _ _ c) as [c1|e] eqn:S; [|discriminate]. rewrite in_ns_named in S.
    assert (G : goes d (RNamed (u_ns u) (Some (u_id u)) x) (named (u_ns u ++ [u_id u]) y)).
    { apply goes_alias. rewrite E. eapply alias_input; [exact Ft|]. apply Sub. left. reflexivity. }
    destruct (bp_set_conn d g _ _ _ _ _ S G) as (B1 & L1 & F1 & G1 & Lk).
    destruct (IH c1 c') as (B2 & F2 & G2 & L2 & A2); [intros z Z; apply Sub; right; auto|exact H|].
    split; [eapply bp_trans; eauto|]. do 3 (split; [congruence|]).
    intros x1 y1 [[= <- <-]|X]; [|eauto]. eexists. split; [apply B2; exact Lk|reflexivity].
Qed.

Lemma child_buffers_ok l : forall c c', (forall x, In x l -> In x (t_buffers T)) ->
  child_buffers u l c = inl c' ->
  bp c c' /\ c_gen c' = c_gen c /\ c_log c' = c_log c /\
  (forall r b, look (c_bufs c') r = Some b -> look (c_bufs c) r = Some b \/ exists r', b = BRef r' /\ goes d r r') /\
  (forall x y, In (x, y) l -> exists tt, look (c_conns c') (RNamed (u_ns u) (Some (u_id u)) x) = Some tt /\
                 t_conn tt = KRedirect (named (u_ns u ++ [u_id u]) y) []).
Proof.
  induction l as [|[x y] l IH]; intros c c' Sub H; cbn [child_buffers] in H.
  - injection H as <-. split; [apply bp_refl|]. do 2 (split; [reflexivity|]). split; [auto|intros x y []].
  - destruct (set_conn _ _ _ c) as [c1|e] eqn:S; [|discriminate]. rewrite in_ns_named in S, H.
    assert (G : goes d (RNamed (u_ns u) (Some (u_id u)) x) (named (u_ns u ++ [u_id u]) y)).
    { apply goes_alias. rewrite E. eapply alias_buffer; [exact Ft|]. apply Sub. left. reflexivity. }
    destruct (look (c_bufs c1) (RNamed (u_ns u) (Some (u_id u)) x)); [discriminate|].
    destruct (bp_set_conn d g _ _ _ _ _ S G) as (B1 & L1 & F1 & G1 & Lk).
    set (c2 := set_bufs _ c1) in *.
    assert (B2 : bp c1 c2) by (apply bp_same; (reflexivity || (cbn; lia))).
    destruct (IH c2 c') as (B3 & G3 & L3 & F3 & A3); [intros z Z; apply Sub; right; auto|exact H|].
    split; [eapply bp_trans; [exact B1|eapply bp_trans; eauto]|]. split; [rewrite G3; exact G1|].
    split; [rewrite L3; exact L1|]. split.
    + intros r b X. destruct (F3 r b X) as [Y|Y]; [|auto]. subst c2. cbn in Y. rewrite look_put, F1 in Y.
      destruct (opref_eq_dec r (RNamed (u_ns u) (Some (u_id u)) x)) as [->|N]; [|auto].
      injection Y as <-. right. eauto.
    + intros x1 y1 [[= <- <-]|X]; [|eauto]. eexists. split; [apply B3, B2; exact Lk|reflexivity].
Qed.

Definition out_target (x : nat) : opref :=
  match find x cn with Some y => named (u_ns u) y | None => RDispose end.

Lemma child_outputs_ok l : forall c c', (forall x, In x l -> In x (t_outputs T)) ->
  child_outputs u cn l c = inl c' ->
  bp c c' /\ c_bufs c' = c_bufs c /\ c_gen c' = c_gen c /\ c_log c' = c_log c /\
  (forall x, In x l -> exists tt, look (c_conns c') (RNamed (u_ns u ++ [u_id u]) None x) = Some tt /\
                 t_conn tt = KRedirect (out_target x) []).
Proof.
  induction l as [|x l IH]; intros c c' Sub H; cbn [child_outputs] in H.
  - injection H as <-. split; [apply bp_refl|]. repeat (split; [reflexivity|]). intros x [].
  - destruct (set_conn _ _ _ c) as [c1|e] eqn:S; [|discriminate]. rewrite in_ns_named in S.
    assert (Eo : named (u_ns u) (match find x cn with Some t => t | None => NBuiltin BDispose end) = out_target x).
    { unfold out_target. destruct (find x cn); reflexivity. }
    rewrite Eo in S.
    assert (G : goes d (RNamed (u_ns u ++ [u_id u]) None x) (out_target x)).
    { apply goes_alias. rewrite E. unfold out_target. destruct (find x cn) as [y|] eqn:Fx.
      - eapply alias_output; [exact Ft| |exact Fx]. apply Sub. left. reflexivity.
      - eapply alias_unused; [exact Ft| |exact Fx]. apply Sub. left. reflexivity. }
    destruct (bp_set_conn d g _ _ _ _ _ S G) as (B1 & L1 & F1 & G1 & Lk).
    destruct (IH c1 c') as (B2 & F2 & G2 & L2 & A2); [intros z Z; apply Sub; right; auto|exact H|].
    split; [eapply bp_trans; eauto|]. do 3 (split; [congruence|]).
    intros x1 [<-|X]; [|eauto]. eexists. split; [apply B2; exact Lk|reflexivity].
Qed.

Lemma op_template c c' fin :
  build_op g (d_templates d) imp u c = inl (c', fin) -> built u c c' fin.
Proof.
  intros H. unfold build_op in H. rewrite E, Ft in H.
  set (c1 := add_children u (t_ops T) (u_scope u) c) in *.
  destruct (child_inputs u (t_inputs T) c1) as [c2|e] eqn:S2; [|discriminate].
  destruct (child_buffers u (t_buffers T) c2) as [c3|e] eqn:S3; [|discriminate].
  destruct (unknown_output cn (t_outputs T)) eqn:U; [discriminate|].
  destruct (child_outputs u cn (t_outputs T) c3) as [c4|e] eqn:S4; [|discriminate].
  destruct (set_conn _ _ _ c4) as [c5|e] eqn:S5; [|discriminate]. injection H as <- <-.
  destruct (child_inputs_ok _ _ _ (fun x X => X) S2) as (B2 & F2 & G2 & L2 & A2).
  destruct (child_buffers_ok _ _ _ (fun x X => X) S3) as (B3 & G3 & L3 & F3 & A3).
  destruct (child_outputs_ok _ _ _ (fun x X => X) S4) as (B4 & F4 & G4 & L4 & A4).
  assert (Et : in_ns (u_ns u) (RTerminate [u_id u]) = RTerminate (u_ns u ++ [u_id u])) by reflexivity.
  rewrite Et in S5.
  assert (Go : goes d (RTerminate (u_ns u ++ [u_id u])) (RTerminate (u_ns u))).
  { apply goes_alias. rewrite E. constructor. }
  destruct (bp_set_conn d g _ _ _ _ _ S5 Go) as (B5 & L5 & F5 & G5 & Lk).
  assert (B1 : bp c c1) by (apply bp_same; (reflexivity || (cbn; lia))).
  set (bl := LBuilt u [] [] []) in *.
  assert (Hb : In bl (c_log (note bl c5))) by (apply note_in; auto).
  assert (Eg : c_gen (note bl c5) = c_gen c1) by (change (c_gen c5 = c_gen c1); congruence).
  constructor; try discriminate.
  - eapply bp_trans; [exact B1|eapply bp_trans; [exact B2|eapply bp_trans; [exact B3|eapply bp_trans; [exact B4|eapply bp_trans; [exact B5|apply bp_note; exact I]]]]].
  - intros e X. apply note_in in X as [X| ->].
    + left. rewrite L5, L4, L3, L2 in X. exact X.
    + right. constructor; auto.
      * rewrite E. eapply shaped_template; [exact Ft|]. eapply unknown_output_ok; eauto.
      * rewrite E. reflexivity.
      * intros t0 o [].
      * rewrite E. constructor.
      * split; [intros x s []|intros t0 o []].
  - intros u' i1 b1 o1 X. apply note_in in X as [X|X]; [|injection X as -> _ _ _; auto].
    left. rewrite L5, L4, L3, L2 in X. exact X.
  - intros r b X. cbn in X. rewrite F5, F4 in X. destruct (F3 r b X) as [Y|(r' & -> & Y)]; [|right; exact Y].
    left. rewrite F2 in Y. exact Y.
  - intros v X. rewrite Eg in X. cbn in X. apply in_app_iff in X as [X|X]; [auto|right].
    apply in_map_iff in X as ([id o] & <- & X). cbn. eapply occurs_template; [rewrite <- E; exact Oc|exact Ft|exact X].
  - intros v X. rewrite Eg. cbn. apply in_app_iff. auto.
  - intros _. do 3 eexists. exact Hb.
  - intros _ r r' X. rewrite E in X.
    assert (M : forall r t, look (c_conns c2) r = Some t -> look (c_conns c5) r = Some t).
    { intros r0 t0 Y. apply B5, B4, B3. exact Y. }
    assert (M3 : forall r t, look (c_conns c3) r = Some t -> look (c_conns c5) r = Some t).
    { intros r0 t0 Y. apply B5, B4. exact Y. }
    inversion X as [t0 T0 cn0 x y Q1 Q2|t0 T0 cn0 x y Q1 Q2|t0 T0 cn0 x y Q1 Q2 Q3|t0 T0 cn0 x Q1 Q2 Q3| |]; subst;
      try (assert (T0 = T) by congruence; subst T0).
    + destruct (A2 x y Q2) as (tt & K1 & K2). exists tt, []. split; [apply M; exact K1|exact K2].
    + destruct (A3 x y Q2) as (tt & K1 & K2). exists tt, []. split; [apply M3; exact K1|exact K2].
    + destruct (A4 x Q2) as (tt & K1 & K2). unfold out_target in K2. rewrite Q3 in K2.
      exists tt, []. split; [apply B5; exact K1|exact K2].
    + destruct (A4 x Q2) as (tt & K1 & K2). unfold out_target in K2. rewrite Q3 in K2.
      exists tt, []. split; [apply B5; exact K1|exact K2].
    + eexists. exists []. split; [exact Lk|reflexivity].
  - intros _ id o X. rewrite E in X. inversion X as [t0 T0 cn0 id0 o0 Q1 Q2|]; subst. assert (T0 = T) by congruence. subst T0.
    eexists. split; [rewrite Eg; cbn; apply in_app_iff; right; apply in_map_iff; exists (id, o); split; [reflexivity|exact Q2]|].
    cbn. auto.
  - intros _ st ops strs nx X. congruence.
Qed.

End Template.

(** *** Scopes *)

Lemma scope_streams_ok sc en term ex start ops streams next l : u_op u = OScope start ops streams next ->
  forall c c', In (LScope u sc en term ex) (c_log c) -> (forall x, In x l -> In x streams) ->
  scope_streams u sc l c = inl c' ->
  bp c c' /\ c_bufs c' = c_bufs c /\ c_gen c' = c_gen c /\ c_log c' = c_log c.
Proof.
  intros E. induction l as [|[n t] l IH]; intros c c' Hs Sub H; cbn [scope_streams] in H.
  - injection H as <-. split; [apply bp_refl|]. auto.
  - destruct (set_conn _ _ _ c) as [c1|e] eqn:S; [|discriminate].
    rewrite in_ns_named in S.
    match type of S with set_conn ?r ?k _ _ = _ => assert (W : conn_wf d (c_log c) r k) end.
    { cbn [conn_wf in_ns]. exists u, en, term, ex, start, ops, streams, next, n, t. split; [exact Hs|].
      split; [exact E|]. split; [apply Sub; left; reflexivity|]. repeat (split; [reflexivity|]). exact I. }
    destruct (bp_set_conn d g _ _ _ _ _ S W) as (B1 & L1 & F1 & G1 & Lk).
    destruct (IH c1 c') as (B2 & F2 & G2 & L2); [rewrite L1; exact Hs|intros z Z; apply Sub; right; auto|exact H|].
    split; [eapply bp_trans; eauto|]. do 2 (split; [congruence|]). congruence.
Qed.

Lemma op_scope start ops streams next c c' fin : u_op u = OScope start ops streams next ->
  build_op g (d_templates d) imp u c = inl (c', fin) -> built u c c' fin.
Proof.
  intros E H. unfold build_op in H. rewrite E in H. cbn [spawn c_next set_next] in H. rewrite self_ref in H.
  set (sc := c_next c) in *. set (ex := S sc) in *. set (en := S ex) in *. set (term := S en) in *.
  match type of H with context [note (LScope u sc en term ex) ?c0] => set (c4 := c0) in * end.
  set (c5 := note (LScope u sc en term ex) c4) in *.
  destruct (scope_streams u sc streams c5) as [c6|e] eqn:S6; [|discriminate].
  set (c7 := add_children u ops sc c6) in *.
  destruct (set_conn (u_ref u) _ _ c7) as [c8|e] eqn:S8; [|discriminate].
  destruct (set_conn _ _ _ c8) as [c9|e] eqn:S9; [|discriminate]. injection H as <- <-.
  assert (Hs : In (LScope u sc en term ex) (c_log c5)) by (apply note_in; auto).
  destruct (scope_streams_ok sc en term ex _ _ _ _ streams E c5 c6 Hs (fun x X => X) S6) as (B6 & F6 & G6 & L6).
  assert (B5 : bp c c5).
  { subst c5 c4. refine (bp_scope d g u en term ex (S term) c _). unfold term, en, ex, sc. lia. }
  assert (B7 : bp c6 c7) by (apply bp_same; (reflexivity || (cbn; lia))).
  assert (L7 : c_log c7 = c_log c5) by exact L6.
  rewrite in_ns_app, in_ns_named in S8. rewrite in_ns_named in S9.
  match type of S8 with set_conn ?r ?k _ _ = _ => assert (W8 : conn_wf d (c_log c7) r k) end.
  { cbn [conn_wf]. exists u, term, ex, start, ops, streams, next. rewrite L7. split; [exact Hs|]. split; [exact E|].
    repeat (split; [reflexivity|]). exact I. }
  destruct (bp_set_conn d g _ _ _ _ _ S8 W8) as (B8 & L8 & F8 & G8 & Lk8).
  assert (Et : in_ns (u_ns u) (RTerminate [u_id u]) = RTerminate (u_ns u ++ [u_id u])) by reflexivity.
  rewrite Et in S9.
  match type of S9 with set_conn ?r ?k _ _ = _ => assert (W9 : conn_wf d (c_log c8) r k) end.
  { cbn [conn_wf]. exists u, en, start, ops, streams, next. rewrite L8, L7. split; [exact Hs|]. split; [exact E|].
    repeat (split; [reflexivity|]). exact I. }
  destruct (bp_set_conn d g _ _ _ _ _ S9 W9) as (B9 & L9 & F9 & G9 & Lk9).
  set (bl := LBuilt u [] [] []) in *.
  assert (Hb : In bl (c_log (note bl c9))) by (apply note_in; auto).
  assert (Eg : c_gen (note bl c9) = c_gen c7) by (change (c_gen c9 = c_gen c7); congruence).
  constructor; try discriminate.
  - eapply bp_trans; [exact B5|eapply bp_trans; [exact B6|eapply bp_trans; [exact B7|eapply bp_trans; [exact B8|eapply bp_trans; [exact B9|apply bp_note; exact I]]]]].
  - intros e X. apply note_in in X as [X| ->].
    + rewrite L9, L8, L7 in X. apply note_in in X as [X| ->]; [left; exact X|right]. cbn. split; [exact Oc|]. split; [exact Hb|].
      rewrite E. eauto.
    + right. constructor; auto.
      * rewrite E. constructor.
      * rewrite E. reflexivity.
      * intros t0 o [].
      * rewrite E. constructor.
      * split; [intros x s []|intros t0 o []].
  - intros u' i1 b1 o1 X. apply note_in in X as [X|X]; [|injection X as -> _ _ _; auto].
    rewrite L9, L8, L7 in X. apply note_in in X as [X|X]; [left; exact X|discriminate].
  - intros r b X. cbn in X. rewrite F9, F8 in X. cbn in X. rewrite F6 in X. left. exact X.
  - intros v X. rewrite Eg in X. cbn in X. rewrite G6 in X. apply in_app_iff in X as [X|X]; [auto|right].
    apply in_map_iff in X as ([id o] & <- & X). cbn. eapply occurs_scope; [rewrite <- E; exact Oc|exact X].
  - intros v X. rewrite Eg. cbn. rewrite G6. apply in_app_iff. auto.
  - intros _. do 3 eexists. exact Hb.
  - intros _ r r' X. rewrite E in X. inversion X.
  - intros _ id o X. rewrite E in X. inversion X as [|st0 ops0 strs0 nx0 id0 o0 Q]; subst.
    eexists. split; [rewrite Eg; cbn; apply in_app_iff; right; apply in_map_iff; exists (id, o); split; [reflexivity|exact Q]|].
    cbn. auto.
  - intros _ st0 ops0 strs0 nx0 X. exists sc, en, term, ex. do 2 eexists. split; [|split; [apply B9; exact Lk8|split; [eexists; reflexivity|split; [exact Lk9|do 2 eexists; reflexivity]]]].
    cbn. apply in_app_iff. left. rewrite L9, L8, L7. exact Hs.
Qed.

Theorem build_op_ok c c' fin : bufs_good d g c ->
  build_op g (d_templates d) imp u c = inl (c', fin) -> built u c c' fin.
Proof.
  intros Hb H. assert (X : exists o, u_op u = o) by eauto. destruct X as [o E].
  destruct o as [b next streams|[b|t] cn|start ops streams next|n|nexts|nexts|ok er|k s r|next sel ser|next er|ser|next sel|next sel].
  - eapply op_node; eauto.
  - eapply op_builder; eauto.
  - destruct (find t (d_templates d)) as [T|] eqn:Ft.
    + eapply op_template; eauto.
    + unfold build_op in H. rewrite E, Ft in H. discriminate.
  - eapply op_scope; eauto.
  - eapply op_stream_out; eauto.
  - eapply op_fork; eauto.
  - eapply op_unzip; eauto.
  - eapply op_result; eauto.
  - eapply op_split; eauto.
  - eapply op_join; eauto.
  - eapply op_transform; eauto.
  - eapply op_buffer; eauto.
  - eapply op_access; eauto.
  - eapply op_listen; eauto.
Qed.

End Cases.
End Build.
