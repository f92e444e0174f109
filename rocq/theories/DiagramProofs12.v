(** The invariant of [DiagramProofs10] during the build phase, and for the whole construction. *)
From Verif Require Import Base DiagramModel DiagramSpec DiagramSpec2 DiagramProofs DiagramProofs2 DiagramProofs3 DiagramProofs4
  DiagramProofs5 DiagramProofs6 DiagramProofs7 DiagramProofs9 DiagramProofs10 DiagramProofs11.

(** What building the operation [u] adds to the log ([L]); [R] are new entities
    which have no role yet; new operations are in the scope [cs]. *)
Record grow (u : unf) (cs : nat) (L : list entry) (R : list nat) (c c' : con) : Prop := {
  g_log : c_log c' = c_log c ++ L;
  g_next : c_next c <= c_next c';
  g_old : forall r t, look (c_conns c) r = Some t -> look (c_conns c') r = Some t;
  g_roles : fresh_roles (c_next c) (c_next c') L;
  g_fun : forall i x y, role_of L i x -> role_of L i y -> x = y;
  g_res : forall i, In i R -> c_next c <= i < c_next c' /\ forall x, ~ role_of L i x;
  g_nc : forall o s, ~ In (LConnect o s) L;
  g_slot : forall r s, In (LSlot r s) L ->
    (exists t, look (c_conns c') r = Some t /\ conn_slot (t_conn t) s) /\ namespaces r = Some (u_ns u) /\ s_scope s = u_scope u;
  g_new : forall r t, look (c_conns c') r = Some t -> look (c_conns c) r = Some t \/
    (t_scope t = u_scope u /\ conn_cached (t_conn t) = [] /\
     match t_conn t with KStd _ | KRequest _ _ _ _ | KCancel _ _ _ _ _ _ => namespaces r = Some (u_ns u) | _ => True end);
  g_built : forall v ins bufs outs, In (LBuilt v ins bufs outs) L -> v = u;
  g_scoped : forall v sc en te ex, In (LScope v sc en te ex) L -> v = u;
  g_gen : forall v, In v (c_gen c') -> In v (c_gen c) \/ (u_ns v = u_ns u ++ [u_id u] /\ u_scope v = cs)
}.

Lemma grow_trans u cs L1 L2 R1 R2 c1 c2 c3 :
  grow u cs L1 R1 c1 c2 -> grow u cs L2 R2 c2 c3 -> grow u cs (L1 ++ L2) (R1 ++ R2) c1 c3.
Proof.
  intros [a1 a2 a3 a4 a5 a6 a7 a8 a9 a10 a11 a12] [b1 b2 b3 b4 b5 b6 b7 b8 b9 b10 b11 b12].
  assert (F1 : forall i x, role_of L1 i x -> c_next c1 <= i < c_next c2) by (intros i x (e & A & B); eapply a4; eauto).
  assert (F2 : forall i x, role_of L2 i x -> c_next c2 <= i < c_next c3) by (intros i x (e & A & B); eapply b4; eauto).
  constructor.
  - rewrite b1, a1, app_assoc. reflexivity.
  - lia.
  - auto.
  - intros e i x A B. apply in_app_iff in A as [A|A]; [specialize (a4 _ _ _ A B); lia|specialize (b4 _ _ _ A B); lia].
  - intros i x y X Y. apply role_app in X as [X|X]; apply role_app in Y as [Y|Y]; eauto.
    + specialize (F1 _ _ X). specialize (F2 _ _ Y). lia.
    + specialize (F1 _ _ Y). specialize (F2 _ _ X). lia.
  - intros i X. apply in_app_iff in X as [X|X].
    + destruct (a6 _ X) as [A B]. split; [lia|]. intros x Y. apply role_app in Y as [Y|Y]; [exact (B x Y)|]. specialize (F2 _ _ Y). lia.
    + destruct (b6 _ X) as [A B]. split; [lia|]. intros x Y. apply role_app in Y as [Y|Y]; [|exact (B x Y)]. specialize (F1 _ _ Y). lia.
  - intros o s X. apply in_app_iff in X as [X|X]; [eapply a7|eapply b7]; eauto.
  - intros r s X. apply in_app_iff in X as [X|X]; [|auto]. destruct (a8 _ _ X) as [(t & A & B) C]. split; [eauto|exact C].
  - intros r t X. destruct (b9 _ _ X) as [Y|Y]; [auto|right; exact Y].
  - intros v ins bufs outs X. apply in_app_iff in X as [X|X]; eauto.
  - intros v sc en te ex X. apply in_app_iff in X as [X|X]; eauto.
  - intros v X. destruct (b12 _ X) as [Y|Y]; [auto|right; exact Y].
Qed.

Lemma nil_role i x : ~ role_of [] i x.
Proof. intros (e & [] & _). Qed.

(** Nothing which matters changes. *)
Lemma grow_same u cs c c' :
  c_log c' = c_log c -> c_conns c' = c_conns c -> c_next c <= c_next c' ->
  (forall v, In v (c_gen c') -> In v (c_gen c) \/ (u_ns v = u_ns u ++ [u_id u] /\ u_scope v = cs)) ->
  grow u cs [] [] c c'.
Proof.
  intros E1 E2 Le G. constructor.
  - rewrite app_nil_r. exact E1.
  - exact Le.
  - rewrite E2. auto.
  - intros e i x [].
  - intros i x y X. destruct (nil_role _ _ X).
  - intros i [].
  - intros o s [].
  - intros r s [].
  - rewrite E2. auto.
  - intros v ins bufs outs [].
  - intros v sc en te ex [].
  - exact G.
Qed.

Lemma grow_refl u cs c : grow u cs [] [] c c.
Proof. apply grow_same; auto. Qed.

(** A new entity *)
Lemma grow_spawn u cs c : grow u cs [] [c_next c] c (set_next (S (c_next c)) c).
Proof.
  destruct (grow_same u cs c (set_next (S (c_next c)) c)) as [a1 a2 a3 a4 a5 a6 a7 a8 a9 a10 a11 a12]; try reflexivity; try (cbn; auto; fail).
  constructor; auto. intros i [<-|[]]. cbn. split; [lia|]. intros x X. destruct (nil_role _ _ X).
Qed.

(** A new connector *)
Lemma grow_conn u cs r k c c' :
  set_conn r k (u_scope u) c = inl c' -> conn_cached k = [] ->
  match k with KStd _ | KRequest _ _ _ _ | KCancel _ _ _ _ _ _ => namespaces r = Some (u_ns u) | _ => True end ->
  grow u cs [] [] c c'.
Proof.
  intros H Hc Hp. apply set_conn_eq in H as [H ->].
  destruct (grow_same u cs c c) as [a1 a2 a3 a4 a5 a6 a7 a8 a9 a10 a11 a12]; auto.
  constructor; auto.
  - intros r1 t X. cbn. rewrite look_put. destruct (opref_eq_dec r1 r) as [->|]; congruence.
  - intros r1 s1 [].
  - intros r1 t X. cbn in X. rewrite look_put in X. destruct (opref_eq_dec r1 r) as [->|]; [|auto].
    injection X as <-. right. auto.
Qed.

(** A new entry of the log, about reserved entities *)
Lemma grow_note u cs L R e c c' :
  grow u cs L R c c' ->
  (forall i x, In (i, x) (roles e) -> In i R) -> (forall i x y, In (i, x) (roles e) -> In (i, y) (roles e) -> x = y) ->
  (forall o s, e <> LConnect o s) ->
  (forall r s, e = LSlot r s -> (exists t, look (c_conns c') r = Some t /\ conn_slot (t_conn t) s) /\ namespaces r = Some (u_ns u) /\ s_scope s = u_scope u) ->
  (forall v ins bufs outs, e = LBuilt v ins bufs outs -> v = u) ->
  (forall v sc en te ex, e = LScope v sc en te ex -> v = u) ->
  grow u cs (L ++ [e]) [] c (note e c').
Proof.
  intros [a1 a2 a3 a4 a5 a6 a7 a8 a9 a10 a11 a12] Hr Hf Hn Hs Hb Hc.
  assert (I1 : forall x, In x (L ++ [e]) -> In x L \/ x = e).
  { intros x X. apply in_app_iff in X as [X|[X|[]]]; auto. }
  assert (Re : forall i x, role_of [e] i x -> In (i, x) (roles e)) by (intros i x (e1 & [<-|[]] & X); exact X).
  constructor.
  - cbn. rewrite a1, app_assoc. reflexivity.
  - exact a2.
  - exact a3.
  - intros e1 i x A B. apply I1 in A as [A| ->]; [exact (a4 _ _ _ A B)|]. apply Hr in B. apply a6 in B. cbn. tauto.
  - intros i x y X Y. apply role_app in X as [X|X]; apply role_app in Y as [Y|Y]; eauto.
    + apply Re in Y. apply Hr in Y. apply a6 in Y. destruct (proj2 Y x X).
    + apply Re in X. apply Hr in X. apply a6 in X. destruct (proj2 X y Y).
  - intros i [].
  - intros o s X. apply I1 in X as [X|X]; [exact (a7 _ _ X)|exact (Hn o s (eq_sym X))].
  - intros r s X. apply I1 in X as [X|X]; [exact (a8 _ _ X)|exact (Hs r s (eq_sym X))].
  - exact a9.
  - intros v ins bufs outs X. apply I1 in X as [X|X]; [eauto|]. eapply Hb. symmetry. exact X.
  - intros v sc en te ex X. apply I1 in X as [X|X]; [eauto|]. eapply Hc. symmetry. exact X.
  - exact a12.
Qed.

Lemma grow_silent u cs e c : silent e -> grow u cs [e] [] c (note e c).
Proof.
  intros S. change [e] with ([] ++ [e]). eapply grow_note; [apply grow_refl|..]; destruct e; try destruct S; try discriminate; intros; contradiction.
Qed.

Lemma grow_output u cs ns r o c : grow u cs [LPut (in_ns ns r) o] [] c (add_output ns r o c).
Proof.
  unfold add_output. change [LPut (in_ns ns r) o] with ([] ++ [LPut (in_ns ns r) o]).
  change (@nil nat) with (@nil nat ++ []). eapply grow_trans; [apply grow_same|apply grow_silent; exact I]; auto.
Qed.

Lemma grow_outputs u cs ns l : forall c, exists L, grow u cs L [] c (add_outputs ns l c) /\ forall e, In e L -> silent e.
Proof.
  induction l as [|[t o] l IH]; intros c; cbn [add_outputs].
  - exists []. split; [apply grow_refl|intros e []].
  - destruct (IH (add_output ns (to_ref t) o c)) as (L & A & B). exists ([LPut (in_ns ns (to_ref t)) o] ++ L).
    split; [exact (grow_trans _ _ _ _ _ _ _ _ _ (grow_output u cs ns (to_ref t) o c) A)|].
    intros e X. apply in_app_iff in X as [[<-|[]]|X]; [exact I|auto].
Qed.

Lemma grow_fresh u cs l sc : forall c c' os, fresh_outputs l sc c = (c', os) ->
  grow u cs [] (map (fun x => o_id (snd x)) os) c c' /\ NoDup (map (fun x => o_id (snd x)) os).
Proof.
  induction l as [|[t ty] l IH]; intros c c' os H; cbn [fresh_outputs] in H.
  - injection H as <- <-. split; [apply grow_refl|constructor].
  - unfold spawn_output, spawn in H. destruct (fresh_outputs l sc (set_next (S (c_next c)) c)) as [c2 r] eqn:E.
    injection H as <- <-. destruct (IH _ _ _ E) as [A B]. split.
    + exact (grow_trans _ _ _ _ _ _ _ _ _ (grow_spawn u cs c) A).
    + cbn. constructor; [|exact B]. intros X. apply (g_res _ _ _ _ _ _ A) in X. cbn in X. lia.
Qed.

Section Build.
Variable d : diagram.
Variable g : registry.
Notation imp := (implicit d).
Notation tm := (d_templates d).

Lemma grow_input u cs r ty c c' :
  set_input g (u_ns u) r {| s_id := c_next c; s_ty := ty; s_scope := u_scope u |} (u_scope u) (set_next (S (c_next c)) c) = inl c' ->
  namespaces (in_ns (u_ns u) r) = Some (u_ns u) ->
  exists L, grow u cs L [] c c'.
Proof.
  set (s := {| s_id := c_next c; s_ty := ty; s_scope := u_scope u |}).
  unfold set_input. destruct (set_conn _ _ _ _) as [c1|e] eqn:E; [|discriminate]. intros [= <-] Hn.
  pose proof (set_conn_eq _ _ _ _ _ E) as [_ Ec].
  assert (G1 : grow u cs ([] ++ []) ([c_next c] ++ []) c c1).
  { eapply grow_trans; [apply grow_spawn|]. eapply grow_conn; [exact E| |exact Hn]. apply standard_cached. }
  eexists. eapply grow_note; [exact G1|..]; try discriminate.
  - intros i x [X|[]]. injection X as <- _. cbn. auto.
  - intros i x y [X|[]] [Y|[]]. congruence.
  - intros r1 s1 [= <- <-]. split; [|auto]. eexists. rewrite Ec. cbn [set_conns c_conns]. rewrite look_put.
    destruct (opref_eq_dec _ _); [|congruence]. split; [reflexivity|]. cbn. apply standard_slot.
Qed.

Lemma grow_buffer u cs r ty c c' :
  set_buffer g (u_ns u) r {| s_id := c_next c; s_ty := ty; s_scope := u_scope u |} (u_scope u) (set_next (S (c_next c)) c) = inl c' ->
  namespaces (in_ns (u_ns u) r) = Some (u_ns u) ->
  exists L, grow u cs L [] c c'.
Proof.
  unfold set_buffer. destruct (set_input g (u_ns u) r _ _ _) as [c1|e] eqn:E; [|discriminate].
  destruct (look (c_bufs c1) _); [discriminate|]. intros [= <-] Hn.
  destruct (grow_input _ cs _ _ _ _ E Hn) as [L A]. exists (L ++ []). change (@nil nat) with (@nil nat ++ []).
  eapply grow_trans; [exact A|apply grow_same; auto].
Qed.

(** The roles of the outputs of an operation *)
Lemma numbered_in ns id outs i x : In (i, x) (numbered ns id outs) -> In i (map (fun x => o_id (snd x)) outs).
Proof. apply in_combine_l. Qed.

Lemma combine_fun {A B} (l : list A) : forall (m : list B) a x y, NoDup l -> In (a, x) (combine l m) -> In (a, y) (combine l m) -> x = y.
Proof.
  induction l as [|b l IH]; intros [|z m] a x y ND X Y; cbn in *; try contradiction. inversion ND as [|? ? N1 N2]; subst.
  destruct X as [X|X], Y as [Y|Y].
  - congruence.
  - injection X as -> ->. apply in_combine_l in Y. contradiction.
  - injection Y as -> ->. apply in_combine_l in X. contradiction.
  - eauto.
Qed.

Lemma grow_built u cs L R ins bufs outs c c' :
  grow u cs L R c c' -> (forall i, In i (map (fun x => o_id (snd x)) outs) -> In i R) -> NoDup (map (fun x => o_id (snd x)) outs) ->
  grow u cs (L ++ [LBuilt u ins bufs outs]) [] c (note (LBuilt u ins bufs outs) c').
Proof.
  intros G H N. eapply grow_note; [exact G|..]; try discriminate.
  - intros i x X. apply H. eapply numbered_in. exact X.
  - intros i x y. apply combine_fun. exact N.
  - congruence.
Qed.

Lemma declared_ids os : map (fun x : option next_op * output => o_id (snd x)) (declared os) = map (fun x => o_id (snd x)) os.
Proof. unfold declared. rewrite map_map. reflexivity. Qed.

Lemma grow_finish u cs inp bufs outs c c' : finish g u inp bufs outs c = inl c' -> exists L, grow u cs L [] c c'.
Proof.
  unfold finish. intros H.
  destruct (match inp with Some ty => _ | None => _ end) as [[c1 ins]|e] eqn:E; [|discriminate].
  destruct (fresh_outputs outs (u_scope u) c1) as [c2 os] eqn:F. injection H as <-.
  assert (X : exists L, grow u cs L [] c c1).
  { destruct inp as [ty|]; [|injection E as <- _; exists []; apply grow_refl].
    unfold spawn_slot, spawn in E. destruct (set_input g (u_ns u) _ _ _ _) as [c0|e] eqn:S; [|discriminate].
    injection E as <- _. eapply grow_input; [exact S|]. cbn. rewrite app_nil_r. reflexivity. }
  destruct X as [L1 G1]. destruct (grow_fresh u cs _ _ _ _ _ F) as [G2 N]. destruct (grow_outputs u cs (u_ns u) os c2) as (L3 & G3 & _).
  eexists. eapply grow_built.
  - eapply grow_trans; [exact G1|]. eapply grow_trans; [exact G2|exact G3].
  - intros i X. rewrite declared_ids in X. cbn. rewrite app_nil_r. exact X.
  - rewrite declared_ids. exact N.
Qed.

Lemma grow_section_inputs u cs l : forall c c' ins, section_inputs g u l c = inl (c', ins) -> exists L, grow u cs L [] c c'.
Proof.
  induction l as [|[x ty] l IH]; intros c c' ins H; cbn [section_inputs] in H.
  - injection H as <- _. exists []. apply grow_refl.
  - cbn [spawn_slot spawn] in H. destruct (set_input _ _ _ _ _ _) as [c1|e] eqn:S; [|discriminate].
    destruct (section_inputs g u l c1) as [[c2 ins2]|e] eqn:E; [|discriminate]. injection H as <- _.
    destruct (IH _ _ _ E) as [L2 G2]. destruct (grow_input _ cs _ _ _ _ S) as [L1 G1]; [cbn; rewrite app_nil_r; reflexivity|].
    eexists. exact (grow_trans _ _ _ _ _ _ _ _ _ G1 G2).
Qed.

Lemma grow_section_buffers u cs l : forall c c' ins, section_buffers g u l c = inl (c', ins) -> exists L, grow u cs L [] c c'.
Proof.
  induction l as [|[x ty] l IH]; intros c c' ins H; cbn [section_buffers] in H.
  - injection H as <- _. exists []. apply grow_refl.
  - cbn [spawn_slot spawn] in H. destruct (set_buffer _ _ _ _ _ _) as [c1|e] eqn:S; [|discriminate].
    destruct (section_buffers g u l c1) as [[c2 ins2]|e] eqn:E; [|discriminate]. injection H as <- _.
    destruct (IH _ _ _ E) as [L2 G2]. destruct (grow_buffer _ cs _ _ _ _ S) as [L1 G1]; [cbn; rewrite app_nil_r; reflexivity|].
    eexists. exact (grow_trans _ _ _ _ _ _ _ _ _ G1 G2).
Qed.

Lemma grow_child_inputs u cs l : forall c c', child_inputs u l c = inl c' -> grow u cs [] [] c c'.
Proof.
  induction l as [|[x t] l IH]; intros c c' H; cbn [child_inputs] in H.
  - injection H as <-. apply grow_refl.
  - destruct (set_conn _ _ _ c) as [c1|e] eqn:S; [|discriminate].
    exact (grow_trans _ _ [] [] [] [] _ _ _ (grow_conn u cs _ _ _ _ S eq_refl I) (IH _ _ H)).
Qed.

Lemma grow_child_buffers u cs l : forall c c', child_buffers u l c = inl c' -> grow u cs [] [] c c'.
Proof.
  induction l as [|[x t] l IH]; intros c c' H; cbn [child_buffers] in H.
  - injection H as <-. apply grow_refl.
  - destruct (set_conn _ _ _ c) as [c1|e] eqn:S; [|discriminate]. destruct (look (c_bufs c1) _); [discriminate|].
    refine (grow_trans _ _ [] [] [] [] _ _ _ (grow_conn u cs _ _ _ _ S eq_refl I) _).
    refine (grow_trans _ _ [] [] [] [] _ _ _ _ (IH _ _ H)). apply grow_same; auto.
Qed.

Lemma grow_child_outputs u cs cn l : forall c c', child_outputs u cn l c = inl c' -> grow u cs [] [] c c'.
Proof.
  induction l as [|x l IH]; intros c c' H; cbn [child_outputs] in H.
  - injection H as <-. apply grow_refl.
  - destruct (set_conn _ _ _ c) as [c1|e] eqn:S; [|discriminate].
    exact (grow_trans _ _ [] [] [] [] _ _ _ (grow_conn u cs _ _ _ _ S eq_refl I) (IH _ _ H)).
Qed.

Lemma grow_scope_streams u cs sc l : forall c c', scope_streams u sc l c = inl c' -> grow u cs [] [] c c'.
Proof.
  induction l as [|[x t] l IH]; intros c c' H; cbn [scope_streams] in H.
  - injection H as <-. apply grow_refl.
  - destruct (set_conn _ _ _ c) as [c1|e] eqn:S; [|discriminate].
    exact (grow_trans _ _ [] [] [] [] _ _ _ (grow_conn u cs _ _ _ _ S eq_refl I) (IH _ _ H)).
Qed.

Lemma grow_hints u cs h ns ty sel c c' : set_type_hints h ns ty sel c = inl c' -> grow u cs [] [] c c'.
Proof.
  unfold set_type_hints. destruct (h ty (map fst sel)) as [hs|]; [|discriminate]. intros [= <-].
  assert (H : forall l c, c_log (add_hints ns sel l c) = c_log c /\ c_conns (add_hints ns sel l c) = c_conns c /\
                          c_next (add_hints ns sel l c) = c_next c /\ c_gen (add_hints ns sel l c) = c_gen c).
  { induction sel as [|[x t] sel IH]; intros [|y l] c0; cbn [add_hints]; auto.
    destruct (IH l (set_hints (push (c_hints c0) (in_ns ns (to_ref t)) y) c0)) as (A & B & C & D). rewrite A, B, C, D. auto. }
  destruct (H hs c) as (A & B & C & D). apply grow_same; auto; [lia|]. rewrite D. auto.
Qed.

(** Building one operation *)
Definition closing (u : unf) (L : list entry) (c : con) : Prop :=
  (forall ins bufs outs p cn, In (LBuilt u ins bufs outs) L -> u_op u = OSection p cn ->
     exists t, look (c_conns c) (RTerminate (u_ns u ++ [u_id u])) = Some t /\ inner t = Some (u_scope u)) /\
  (forall sc en te ex start ops streams next, In (LScope u sc en te ex) L -> u_op u = OScope start ops streams next ->
     exists t, look (c_conns c) (RTerminate (u_ns u ++ [u_id u])) = Some t /\ inner t = Some sc) /\
  (forall v, In v (c_gen c) -> placed (c_log c) (u_ns v) (u_scope v)).

Definition grown (u : unf) (c c' : con) : Prop := exists cs L, grow u cs L [] c c' /\ closing u L c'.

Lemma put_same {A} (m : list (opref * A)) r a : look (put m r a) r = Some a.
Proof. rewrite look_put. destruct (opref_eq_dec r r); congruence. Qed.

(** Operations which are neither sections nor scopes *)
Definition ordinary (u : unf) : Prop :=
  match u_op u with OSection _ _ | OScope _ _ _ _ => False | _ => True end.

Lemma grown_plain u L c c' : grow u 0 L [] c c' -> ordinary u -> c_gen c' = [] -> grown u c c'.
Proof.
  unfold ordinary. intros G N E. exists 0, L. split; [exact G|].
  split; [intros ins bufs outs p cn _ X; rewrite X in N; destruct N|].
  split; [intros sc en te ex start ops streams next _ X; rewrite X in N; destruct N|rewrite E; intros v []].
Qed.

Lemma grown_refl u c : c_gen c = [] -> grown u c c.
Proof.
  intros E. exists 0, []. split; [apply grow_refl|]. split; [intros ins bufs outs p cn []|].
  split; [intros sc en te ex start ops streams next []|]. rewrite E. intros v [].
Qed.

Lemma grown_finish u c c1 c' inp bufs outs L0 :
  grow u 0 L0 [] c c1 -> c_gen c1 = [] -> finish g u inp bufs outs c1 = inl c' -> ordinary u -> grown u c c'.
Proof.
  intros G0 E H N. destruct (grow_finish _ 0 _ _ _ _ _ H) as [L G].
  destruct (finish_ok d g _ _ _ _ _ _ H) as (_ & _ & E' & _).
  eapply grown_plain; [exact (grow_trans _ _ _ _ _ _ _ _ _ G0 G)|exact N|congruence].
Qed.

Lemma hints_gen h ns ty sel c c' : set_type_hints h ns ty sel c = inl c' -> c_gen c' = c_gen c.
Proof.
  unfold set_type_hints. destruct (h ty _) as [hs|]; [|discriminate]. intros [= <-]. revert hs c.
  induction sel as [|[x t] sel IH]; intros [|y l0] c0; cbn [add_hints]; auto. rewrite IH. reflexivity.
Qed.

Lemma build_op_grown u c c' fin : c_gen c = [] -> build_op g tm imp u c = inl (c', fin) -> grown u c c'.
Proof.
  intros E0 H. unfold build_op in H.
  assert (Fin : forall X : res con, (let? c1 := X in Ok (c1, true)) = inl (c', fin) -> X = inl c').
  { intros [c1|e] Y; [|discriminate]. injection Y as -> _. reflexivity. }
  assert (Ord : (forall x, ordinary x = match u_op x with OSection _ _ | OScope _ _ _ _ => False | _ => True end)) by reflexivity.
  assert (F0 : forall inp bufs outs, ordinary u -> (let? c1 := finish g u inp bufs outs c in Ok (c1, true)) = inl (c', fin) -> grown u c c').
  { intros inp bufs outs O X. apply Fin in X. eapply grown_finish; [apply grow_refl|exact E0|exact X|exact O]. }
  specialize (Ord u).
  destruct (u_op u) as [b next streams|[b|t] connect|start ops streams next|n|nexts|nexts|ok er|keyed seq rem|next sel ser|next on_error|ser|next sel|next sel] eqn:Eo;
    try (assert (Or : ordinary u) by (rewrite Ord; exact I)); clear Ord.
  - destruct (r_node g b) as [[[q p] have]|]; [|discriminate]. destruct (named_streams have streams) as [outs|]; [|discriminate]. eapply F0; eauto.
  - destruct (r_section g b) as [[[ins outs] bufs]|]; [|discriminate].
    destruct (section_inputs g u ins c) as [[c1 p1]|e] eqn:S1; [|discriminate]. cbn [fst snd] in H.
    destruct (unknown_output connect (map fst outs)) as [x|]; [discriminate|].
    destruct (fresh_outputs (section_targets connect outs) (u_scope u) c1) as [c2 os] eqn:F.
    destruct (section_buffers g u bufs (add_outputs (u_ns u) os c2)) as [[c3 p3]|e] eqn:S3; [|discriminate]. cbn [fst snd] in H.
    destruct (set_conn _ _ _ c3) as [c4|e] eqn:S4; [|discriminate]. injection H as <- _.
    destruct (section_inputs_ok d g u _ _ _ _ S1) as (_ & _ & Ga & _).
    destruct (section_buffers_ok d g u _ _ _ _ S3) as (_ & Gb & _).
    destruct (fresh_outputs_ok d g _ _ _ _ _ F) as (_ & _ & Gf & _).
    destruct (add_outputs_ok d g (u_ns u) os c2) as (_ & _ & Go & _).
    destruct (grow_section_inputs _ 0 _ _ _ _ S1) as [L1 G1].
    destruct (grow_fresh u 0 _ _ _ _ _ F) as [G2 N]. destruct (grow_outputs u 0 (u_ns u) os c2) as (L3 & G3 & _).
    destruct (grow_section_buffers _ 0 _ _ _ _ S3) as [L4 G4].
    pose proof (grow_conn u 0 _ _ _ _ S4 eq_refl I) as G5.
    pose proof (grow_trans _ _ _ _ _ _ _ _ _ G1 (grow_trans _ _ _ _ _ _ _ _ _ G2 (grow_trans _ _ _ _ _ _ _ _ _ G3 (grow_trans _ _ _ _ _ _ _ _ _ G4 G5)))) as Gt.
    apply set_conn_eq in S4 as [_ ->].
    eexists 0, _. split; [eapply grow_built; [exact Gt| |]|].
    + rewrite declared_ids. cbn. intros i X. rewrite !app_nil_r. exact X.
    + rewrite declared_ids. exact N.
    + split; [|split].
      * intros ins' bufs' outs' p cn _ _. cbn. eexists. split; [apply put_same|reflexivity].
      * intros sc en te ex s1 s2 s3 s4 _ X. rewrite Eo in X. discriminate.
      * cbn. rewrite Gb, Go, Gf, Ga, E0. intros v [].
  - destruct (find t tm) as [T|]; [|discriminate].
    destruct (child_inputs u (t_inputs T) _) as [c2|e] eqn:S2; [|discriminate].
    destruct (child_buffers u (t_buffers T) c2) as [c3|e] eqn:S3; [|discriminate].
    destruct (unknown_output connect (t_outputs T)) as [x|]; [discriminate|].
    destruct (child_outputs u connect (t_outputs T) c3) as [c4|e] eqn:S4; [|discriminate].
    destruct (set_conn _ _ _ c4) as [c5|e] eqn:S5; [|discriminate]. injection H as <- _.
    set (cs := u_scope u).
    assert (G1 : grow u cs [] [] c (add_children u (t_ops T) (u_scope u) c)).
    { apply grow_same; auto. intros v X. unfold add_children in X. cbn in X. apply in_app_iff in X as [X|X]; [auto|].
      apply in_map_iff in X as (y & <- & _). right. split; reflexivity. }
    pose proof (grow_trans _ _ _ _ _ _ _ _ _ G1 (grow_trans _ _ _ _ _ _ _ _ _ (grow_child_inputs u cs _ _ _ S2) (grow_trans _ _ _ _ _ _ _ _ _ (grow_child_buffers u cs _ _ _ S3)
      (grow_trans _ _ _ _ _ _ _ _ _ (grow_child_outputs u cs _ _ _ _ S4) (grow_conn u cs _ _ _ _ S5 eq_refl I))))) as Gt.
    apply set_conn_eq in S5 as [_ ->].
    set (e := LBuilt u [] [] []). eexists cs, _. split; [eapply grow_built; [exact Gt|intros i []|constructor]|].
    split; [|split].
    + intros ins' bufs' outs' p cn _ _. cbn. eexists. split; [apply put_same|reflexivity].
    + intros sc en te ex s1 s2 s3 s4 _ X. rewrite Eo in X. discriminate.
    + intros v X. apply (g_gen _ _ _ _ _ _ Gt) in X as [X|[X1 X2]]; [rewrite E0 in X; destruct X|].
      rewrite X1, X2. eapply placed_section; [|exact Eo]. apply note_in. right. reflexivity.
  - cbn [spawn] in H. set (scid := c_next c) in *.
    match type of H with context [note ?e ?x] => set (c5 := note e x) in * end.
    destruct (scope_streams u _ streams c5) as [c6|e] eqn:S6; [|discriminate].
    destruct (set_conn _ _ _ (add_children u ops _ c6)) as [c8|e] eqn:S8; [|discriminate].
    destruct (set_conn _ _ _ c8) as [c9|e] eqn:S9; [|discriminate]. injection H as <- _.
    set (cs := scid) in *.
    pose proof (grow_spawn u cs c) as G1.
    pose proof (grow_trans _ _ _ _ _ _ _ _ _ G1 (grow_spawn u cs _)) as G2.
    pose proof (grow_trans _ _ _ _ _ _ _ _ _ G2 (grow_spawn u cs _)) as G3.
    pose proof (grow_trans _ _ _ _ _ _ _ _ _ G3 (grow_spawn u cs _)) as G4. cbn in G4. fold scid in G4.
    assert (G5 : grow u cs ([] ++ [LScope u scid (S (S scid)) (S (S (S scid))) (S scid)]) [] c c5).
    { subst c5. eapply grow_note; [exact G4|..]; try discriminate.
      - cbn. intros i x X. repeat (destruct X as [X|X]; [injection X as <- _; tauto|]). destruct X.
      - cbn. intros i x y X Y. repeat (destruct X as [X|X]); repeat (destruct Y as [Y|Y]); try contradiction; try congruence; injection X as <- _; injection Y as Y _; lia.
      - congruence. }
    assert (G7 : grow u cs [] [] c6 (add_children u ops scid c6)).
    { apply grow_same; auto. intros v X. unfold add_children in X. cbn in X. apply in_app_iff in X as [X|X]; [auto|].
      apply in_map_iff in X as (y & <- & _). right. split; reflexivity. }
    assert (G8 : grow u cs [] [] (add_children u ops scid c6) c8).
    { eapply grow_conn; [exact S8|reflexivity|]. cbn. rewrite app_nil_r. reflexivity. }
    pose proof (grow_trans _ _ _ _ _ _ _ _ _ G5 (grow_trans _ _ _ _ _ _ _ _ _ (grow_scope_streams u cs _ _ _ _ S6)
      (grow_trans _ _ _ _ _ _ _ _ _ G7 (grow_trans _ _ _ _ _ _ _ _ _ G8 (grow_conn u cs _ _ _ _ S9 eq_refl I))))) as Gt.
    apply set_conn_eq in S9 as [_ ->].
    eexists cs, _. split; [eapply grow_built; [exact Gt|intros i []|constructor]|].
    split; [|split].
    + intros ins' bufs' outs' p cn _ X. rewrite Eo in X. discriminate.
    + intros sc en te ex s1 s2 s3 s4 X _. cbn in X. destruct X as [X|[X|[]]]; [|discriminate]. injection X as <- _ _ _.
      cbn. eexists. split; [apply put_same|reflexivity].
    + intros v X. apply (g_gen _ _ _ _ _ _ Gt) in X as [X|[X1 X2]]; [rewrite E0 in X; destruct X|].
      rewrite X1, X2. eapply placed_scope. apply note_in. left. rewrite (g_log _ _ _ _ _ _ Gt), in_app_iff. right. left. reflexivity.
  - destruct (set_conn _ _ _ c) as [c1|e] eqn:S; [|discriminate]. injection H as <- _.
    eapply grown_plain; [eapply grow_built; [eapply grow_conn; [exact S|reflexivity|exact I]| |constructor]|exact Or|].
    + intros i [].
    + apply set_conn_eq in S as [_ ->]. exact E0.
  - destruct (infer_first _ _ c) as [[ty|]|e]; [|injection H as <- _; apply grown_refl; exact E0|discriminate].
    destruct (r_clone g ty); [|discriminate]. eapply F0; eauto.
  - destruct (infer_into _ _ c) as [[ty|]|e]; [|injection H as <- _; apply grown_refl; exact E0|discriminate].
    destruct (r_unzip g ty) as [tys|]; [|discriminate]. destruct (_ =? _); [|discriminate]. eapply F0; eauto.
  - destruct (infer_into _ _ c) as [[ty|]|e]; [|injection H as <- _; apply grown_refl; exact E0|discriminate].
    destruct (r_result g ty) as [[t1 t2]|]; [|discriminate]. eapply F0; eauto.
  - destruct (infer_into _ _ c) as [[ty|]|e]; [|injection H as <- _; apply grown_refl; exact E0|discriminate].
    destruct (r_split g _ _ _ _) as [item|]; [|discriminate]. eapply F0; eauto.
  - destruct sel as [|x0 sel0]; [discriminate|]. destruct (buffer_map _ c _) as [m|]; [|injection H as <- _; apply grown_refl; exact E0].
    destruct ser.
    + destruct (r_join g TJson _); [|discriminate]. eapply F0; eauto.
    + destruct (infer_into _ _ c) as [[ty|]|e]; [|injection H as <- _; apply grown_refl; exact E0|discriminate].
      destruct (r_join g ty _); [|discriminate]. eapply F0; eauto.
  - cbn [spawn_output spawn_slot spawn] in H.
    set (target := match on_error with Some t => _ | None => _ end) in *.
    set (er := {| o_id := c_next c; o_ty := TFailed; o_scope := u_scope u |}) in *.
    set (c2 := add_output (u_ns u) target er (set_next (S (c_next c)) c)) in *.
    destruct (set_input g (u_ns u) (RNamed [] None (u_id u)) _ (u_scope u) _) as [c4|e] eqn:S; [|discriminate].
    injection H as <- _.
    destruct (bp_set_input d g _ _ _ _ _ _ S) as (_ & _ & _ & Gg).
    destruct (grow_input _ 0 _ _ _ _ S) as [L1 G1]; [cbn; rewrite app_nil_r; reflexivity|].
    pose proof (grow_trans _ _ _ _ _ _ _ _ _ (grow_spawn u 0 c) (grow_output u 0 (u_ns u) target er _)) as Ga.
    pose proof (grow_trans _ _ _ _ _ _ _ _ _ Ga G1) as Gb.
    pose proof (grow_trans _ _ _ _ _ _ _ _ _ Gb (grow_spawn u 0 c4)) as Gc.
    set (ok := {| o_id := c_next c4; o_ty := TJson; o_scope := u_scope u |}).
    pose proof (grow_trans _ _ _ _ _ _ _ _ _ Gc (grow_output u 0 (u_ns u) (to_ref next) ok _)) as Gd.
    assert (Lt : c_next c < c_next c4) by (pose proof (g_next _ _ _ _ _ _ G1); cbn in *; lia).
    eapply grown_plain; [eapply grow_built; [exact Gd| |]|exact Or|].
    + cbn. intros i [<-|[<-|[]]]; auto.
    + cbn. constructor; [intros [X|[]]; lia|constructor; [intros []|constructor]].
    + cbn. rewrite Gg. cbn. exact E0.
  - destruct (if ser then _ else _) as [[ty|]|e]; [|injection H as <- _; apply grown_refl; exact E0|discriminate].
    destruct (r_known g ty); [|discriminate]. cbn [spawn_slot spawn] in H.
    destruct (set_buffer _ _ _ _ _ _) as [c1|e] eqn:S; [|discriminate]. injection H as <- _.
    destruct (bp_set_buffer d g _ _ _ _ _ _ S) as (_ & _ & Gg & _).
    destruct (grow_buffer _ 0 _ _ _ _ S) as [L1 G1]; [cbn; rewrite app_nil_r; reflexivity|].
    eapply grown_plain; [eapply grow_built; [exact G1| |constructor]|exact Or|].
    + intros i [].
    + cbn. rewrite Gg. exact E0.
  - destruct (infer_into _ _ c) as [[ty|]|e]; [|injection H as <- _; apply grown_refl; exact E0|discriminate].
    destruct (set_type_hints _ _ _ _ c) as [c1|e] eqn:Hh; [|discriminate]. pose proof (grow_hints u 0 _ _ _ _ _ _ Hh) as Gh.
    pose proof (hints_gen _ _ _ _ _ _ Hh) as E1. rewrite E0 in E1.
    destruct (buffer_map _ c1 _) as [m|].
    + destruct (r_access g ty _) as [q|]; [|discriminate]. apply Fin in H. eapply grown_finish; eauto.
    + injection H as <- _. eapply grown_plain; eauto.
  - destruct (infer_into _ _ c) as [[ty|]|e]; [|injection H as <- _; apply grown_refl; exact E0|discriminate].
    destruct (set_type_hints _ _ _ _ c) as [c1|e] eqn:Hh; [|discriminate]. pose proof (grow_hints u 0 _ _ _ _ _ _ Hh) as Gh.
    pose proof (hints_gen _ _ _ _ _ _ Hh) as E1. rewrite E0 in E1.
    destruct (buffer_map _ c1 _) as [m|].
    + destruct (r_listen g ty _); [|discriminate]. apply Fin in H. eapply grown_finish; eauto.
    + injection H as <- _. eapply grown_plain; eauto.
Qed.

Notation idc := (idc d).

Lemma idc_grow u cs L us us' c c' :
  idc us c -> grow u cs L [] c c' -> closing u L c' -> placed (c_log c') (u_ns u) (u_scope u) ->
  (forall r t, look (c_conns c') r = Some t -> conn_wf d (c_log c') r (t_conn t)) ->
  (forall v sc en te ex, In (LScope v sc en te ex) (c_log c') -> exists st ops strs nx, u_op v = OScope st ops strs nx) ->
  (forall v, In v us' -> In v us \/ In v (c_gen c') \/ v = u) ->
  idc us' c'.
Proof.
  unfold DiagramProofs11.idc. intros Hi [a1 a2 a3 a4 a5 a6 a7 a8 a9 a10 a11 a12] (C1 & C2 & C3) P W Sc U. rewrite a1 in *.
  eapply idinv_build; eauto.
  - intros r s X. destruct (a8 _ _ X) as (A & B & C). split; [exact A|]. exists (u_ns u). rewrite C. auto.
  - intros r t X. destruct (a9 _ _ X) as [Y|(A & B & C)]; [auto|]. right. split; [exact B|]. unfold place_ok. rewrite A.
    destruct (t_conn t); auto; exists (u_ns u); auto.
  - intros v ins bufs outs X. pose proof (a10 _ _ _ _ X) as E. subst v. split; [exact P|]. intros p cn Y. eapply C1; eauto.
  - intros v sc en te ex X. pose proof (a11 _ _ _ _ _ X) as E. subst v.
    destruct (Sc u sc en te ex) as (st & ops & strs & nx & Eo); [apply in_app_iff; auto|]. eapply C2; eauto.
  - intros v X. destruct (U v X) as [Y|[Y| ->]]; auto.
Qed.

Variables q p : nat.
Variable ss : list (nat * nat).
Notation ginv := (ginv d g q p ss).

Lemma ginv_wf todo c r t : ginv todo c -> look (c_conns c) r = Some t -> conn_wf d (c_log c) r (t_conn t).
Proof. intros G. destruct (gi_binv _ _ _ _ _ _ _ G) as (V & _). apply (v_conn _ _ _ _ V). Qed.

Lemma ginv_scoped todo c v sc en te ex : ginv todo c -> In (LScope v sc en te ex) (c_log c) -> exists st ops strs nx, u_op v = OScope st ops strs nx.
Proof. intros G X. apply (gi_entries _ _ _ _ _ _ _ G) in X. destruct X as (_ & _ & X). exact X. Qed.

Lemma build_op_idc u rest todo' c c1 fin :
  ginv (u :: rest) c -> idc (u :: rest) c -> build_op g tm imp u c = inl (c1, fin) ->
  (forall v, In v todo' <-> In v rest \/ In v (c_gen c1) \/ (fin = false /\ v = u)) ->
  idc todo' (set_gen [] c1).
Proof.
  intros G Hi H T. pose proof (build_op_ginv d g q p ss _ _ _ _ _ _ G H T) as G'.
  destruct (build_op_grown _ _ _ _ (gi_gen _ _ _ _ _ _ _ G) H) as (cs & L & Gr & Cl).
  change (idc todo' c1). eapply idc_grow; [exact Hi|exact Gr|exact Cl| | | |].
  - rewrite (g_log _ _ _ _ _ _ Gr). eapply placed_mono; [intros e X; apply in_app_iff; left; exact X|].
    apply (i_us _ _ _ _ _ Hi). left. reflexivity.
  - intros r t X. exact (ginv_wf _ _ _ _ G' X).
  - intros v sc en te ex X. exact (ginv_scoped _ _ _ _ _ _ _ G' X).
  - intros v X. apply T in X as [X|[X|[_ X]]]; auto. left. right. exact X.
Qed.

Lemma build_all_idc todo : forall waiting seen prog c c' waiting' seen' prog',
  ginv (todo ++ waiting) c -> idc (todo ++ waiting) c -> build_all g tm imp todo waiting seen prog c = inl (c', waiting', seen', prog') ->
  idc waiting' c'.
Proof.
  induction todo as [|u todo IH]; intros waiting seen prog c c' waiting' seen' prog' G Hi H; cbn [build_all] in H.
  - injection H as <- <- _ _. exact Hi.
  - destruct (build_op g tm imp u c) as [[c1 fin]|e] eqn:E; [|discriminate]. destruct fin.
    + assert (T : forall v, In v (todo ++ waiting ++ c_gen c1) <-> In v (todo ++ waiting) \/ In v (c_gen c1) \/ (true = false /\ v = u)).
      { intros v. rewrite !in_app_iff. split; [tauto|intros [X|[X|[X _]]]; [tauto|tauto|discriminate]]. }
      eapply IH; [eapply build_op_ginv; [exact G|exact E|exact T]|eapply build_op_idc; [exact G|exact Hi|exact E|exact T]|exact H].
    + assert (T : forall v, In v (todo ++ (waiting ++ c_gen c1) ++ [u]) <-> In v (todo ++ waiting) \/ In v (c_gen c1) \/ (false = false /\ v = u)).
      { intros v. rewrite !in_app_iff. cbn. split; [intros [X|[[X|X]|[X|[]]]]; auto|intros [X|[X|[_ X]]]; auto; tauto]. }
      eapply IH; [eapply build_op_ginv; [exact G|exact E|exact T]|eapply build_op_idc; [exact G|exact Hi|exact E|exact T]|exact H].
Qed.

(** The beginning *)
Lemma grow_root_streams u cs l : u_ns u = [] -> u_scope u = 0 ->
  forall c c', root_streams g l c = inl c' -> exists L, grow u cs L [] c c'.
Proof.
  intros En Es. induction l as [|[n ty] l IH]; intros c c' H; cbn [root_streams] in H.
  - injection H as <-. exists []. apply grow_refl.
  - cbn [spawn_slot spawn] in H. destruct (set_input _ _ _ _ _ _) as [c1|e] eqn:S; [|discriminate].
    destruct (IH _ _ H) as [L2 G2]. pose proof (grow_input u cs (RStream [] n) ty c c1) as X. rewrite En, Es in X.
    destruct (X S eq_refl) as [L1 G1]. eexists. exact (grow_trans _ _ _ _ _ _ _ _ _ G1 G2).
Qed.

Lemma grow_cancel u cs s1 s2 s3 L R c c0 c' :
  u_ns u = [] -> u_scope u = 0 -> grow u cs L R c c0 ->
  In (s_id s1) R -> In (s_id s2) R -> In (s_id s3) R -> s_scope s1 = 0 -> s_scope s2 = 0 -> s_scope s3 = 0 ->
  set_conn (RCancel []) (KCancel s1 s2 s3 [] [] []) 0
    (note (LSlot (RCancel []) s3) (note (LSlot (RCancel []) s2) (note (LSlot (RCancel []) s1) c0))) = inl c' ->
  exists L', grow u cs L' [] c c'.
Proof.
  intros En Es [a1 a2 a3 a4 a5 a6 a7 a8 a9 a10 a11 a12] R1 R2 R3 Z1 Z2 Z3 H. apply set_conn_eq in H as [H ->].
  exists (L ++ [LSlot (RCancel []) s1; LSlot (RCancel []) s2; LSlot (RCancel []) s3]).
  set (L3 := [LSlot (RCancel []) s1; LSlot (RCancel []) s2; LSlot (RCancel []) s3]).
  assert (Ro : forall i x, role_of L3 i x -> In i R /\ x = IsInput (RCancel [])).
  { intros i x (e & X & Y). cbn in X. destruct X as [<-|[<-|[<-|[]]]]; cbn in Y; destruct Y as [Y|[]]; injection Y as <- <-; auto. }
  constructor.
  - cbn. rewrite a1, <- !app_assoc. reflexivity.
  - exact a2.
  - intros r t X. cbn. rewrite look_put. destruct (opref_eq_dec r (RCancel [])) as [->|]; [|auto]. cbn in H. rewrite (a3 _ _ X) in H. discriminate.
  - intros e i x X Y. apply in_app_iff in X as [X|X]; [exact (a4 _ _ _ X Y)|]. destruct (Ro i x) as [Z _]; [exists e; auto|].
    apply a6 in Z. cbn. tauto.
  - intros i x y X Y. apply role_app in X as [X|X]; apply role_app in Y as [Y|Y]; eauto.
    + apply Ro in Y as [Y _]. apply a6 in Y. destruct (proj2 Y x X).
    + apply Ro in X as [X _]. apply a6 in X. destruct (proj2 X y Y).
    + apply Ro in X as [_ ->]. apply Ro in Y as [_ ->]. reflexivity.
  - intros i [].
  - intros o s X. apply in_app_iff in X as [X|X]; [exact (a7 _ _ X)|]. cbn in X. destruct X as [X|[X|[X|[]]]]; discriminate.
  - intros r s X. apply in_app_iff in X as [X|X].
    + destruct (a8 _ _ X) as ((t & A & B) & C). split; [|exact C]. exists t. split; [|exact B]. cbn. rewrite look_put.
      destruct (opref_eq_dec r (RCancel [])) as [->|]; [|auto]. cbn in H. congruence.
    + cbn [set_conns c_conns]. rewrite En, Es.
      cbn in X. destruct X as [X|[X|[X|[]]]]; injection X as <- <-; (split; [eexists; split; [apply put_same|cbn; auto]|auto]).
  - intros r t X. cbn in X. rewrite look_put in X. destruct (opref_eq_dec r (RCancel [])) as [->|]; [|exact (a9 _ _ X)].
    injection X as <-. right. rewrite En, Es. cbn. auto.
  - intros v ins bufs outs X. apply in_app_iff in X as [X|X]; [eauto|]. cbn in X. destruct X as [X|[X|[X|[]]]]; discriminate.
  - intros v sc en te ex X. apply in_app_iff in X as [X|X]; [eauto|]. cbn in X. destruct X as [X|[X|[X|[]]]]; discriminate.
  - exact a12.
Qed.

Lemma init_idc c : init g (d_start d) q p ss = inl c -> idc (map top (d_ops d)) c.
Proof.
  intros H. pose proof (init_ok d g q p ss _ H) as G. unfold init in H. cbn [spawn_output spawn_slot spawn c_next empty_con set_next] in H.
  match type of H with context [add_output [] _ ?x ?y] => set (o := x) in *; set (c1 := y) in * end.
  set (c2 := add_output [] (to_ref (d_start d)) o c1) in *.
  destruct (set_input _ _ _ _ _ _) as [c4|e] eqn:S4; [|discriminate].
  destruct (root_streams g ss c4) as [c5|e] eqn:S5; [|discriminate].
  destruct (set_conn RDispose KDispose 0 c5) as [c6|e] eqn:S6; [|discriminate].
  set (u := {| u_id := 0; u_ns := []; u_op := OFork []; u_scope := 0 |}).
  assert (I2 : idc (map top (d_ops d)) c2).
  { assert (Ro : forall i x, ~ role_of [LPut (in_ns [] (to_ref (d_start d))) o] i x).
    { intros i x (e & [<-|[]] & []). }
    constructor; cbn.
    - intros i x X. destruct (Ro _ _ X).
    - intros i x y X. destruct (Ro _ _ X).
    - intros r s [X|[]]. discriminate.
    - intros r t X. discriminate.
    - intros r t i X. discriminate.
    - intros o1 s [X|[]]. discriminate.
    - intros ns sc X. destruct X as [|v ins bufs outs pr cn X E|v sc en te ex X]; [auto| |]; destruct X as [X|[]]; discriminate.
    - intros v X. apply in_map_iff in X as (y & <- & _). constructor.
    - intros v ins bufs outs [X|[]]. discriminate.
    - intros r s [X|[]]. discriminate.
    - intros r t X. discriminate.
    - split; [lia|]. split; [intros i x X; destruct (Ro _ _ X)|]. exists o. split; [|reflexivity]. left. f_equal. apply (in_ns_named []). }
  destruct (grow_input u 0 (RTerminate []) p c2 c4) as [L1 G1]; [exact S4|reflexivity|].
  destruct (grow_root_streams u 0 ss eq_refl eq_refl _ _ S5) as [L2 G2].
  pose proof (grow_conn u 0 _ _ _ _ S6 eq_refl Logic.I) as G3.
  pose proof (grow_trans _ _ _ _ _ _ _ _ _ G1 (grow_trans _ _ _ _ _ _ _ _ _ G2 G3)) as G4. cbn [app] in G4.
  pose proof (grow_trans _ _ _ _ _ _ _ _ _ (grow_spawn u 0 c6) (grow_trans _ _ _ _ _ _ _ _ _ (grow_spawn u 0 _) (grow_spawn u 0 _))) as G5.
  pose proof (grow_trans _ _ _ _ _ _ _ _ _ G4 G5) as G6. cbn [app] in G6.
  edestruct (grow_cancel u 0) as [L G7]; [reflexivity|reflexivity|exact G6| | | | | | |exact H|]; try reflexivity; try (cbn; tauto).
  eapply idc_grow; [exact I2|exact G7| | | | |].
  - split; [intros ins bufs outs pr cn _ X; discriminate|]. split; [intros sc en te ex st ops strs nx _ X; discriminate|].
    rewrite (gi_gen _ _ _ _ _ _ _ G). intros v [].
  - constructor.
  - intros r t X. exact (ginv_wf _ _ _ _ G X).
  - intros v sc en te ex X. exact (ginv_scoped _ _ _ _ _ _ _ G X).
  - auto.
Qed.

Variable ord : nat -> list (opref * list output) -> list (opref * list output).
Hypothesis Hord : forall n l, Permutation (ord n l) l.

Lemma round_idc left todo seen c c' todo' seen' prog left' :
  ginv todo c -> idc todo c -> round d g ord left todo seen c = inl (c', todo', seen', prog, left') -> idc todo' c'.
Proof.
  unfold round. intros G Hi H.
  destruct (build_all g tm imp todo [] seen false c) as [[[[c1 todo1] seen1] prog1]|e] eqn:E; [|discriminate].
  destruct (connect_loop g imp ord (is_nil todo1) left prog1 c1) as [[[c2 prog2] left1]|e] eqn:F; [|discriminate].
  injection H as <- <- _ _ _. rewrite <- (app_nil_r todo) in G, Hi.
  eapply idinv_connect_loop; [|exact F]. eapply build_all_idc; [exact G|exact Hi|exact E].
Qed.

Lemma build_loop_idc fuel : forall left todo seen c c',
  ginv todo c -> idc todo c -> build_loop g tm imp ord fuel left todo seen c = inl c' -> idc [] c'.
Proof.
  induction fuel as [|fuel IH]; intros left todo seen c c' G Hi H.
  - cbn [build_loop] in H. destruct (is_nil todo && negb (has_outputs (c_outs c))) eqn:E; [|discriminate].
    injection H as <-. apply andb_true_iff in E as [E1 _]. destruct todo; [exact Hi|discriminate].
  - rewrite build_loop_round in H. destruct (is_nil todo && negb (has_outputs (c_outs c))) eqn:E.
    + injection H as <-. apply andb_true_iff in E as [E1 _]. destruct todo; [exact Hi|discriminate].
    + destruct (round d g ord left todo seen c) as [[[[[c2 todo1] seen1] prog1] left1]|e] eqn:R; [|discriminate].
      destruct prog1; [|discriminate]. destruct left1 as [|left2]; [discriminate|].
      destruct (round_ok d g q p ss ord Hord _ _ _ _ _ _ _ _ _ G R) as (G2 & _).
      eapply IH; [exact G2|eapply round_idc; [exact G|exact Hi|exact R]|exact H].
Qed.

Lemma create_idc max c : create_workflow g ord max d q p ss = inl c -> idc [] c /\ ginv [] c /\ forall r o, ~ waits (c_outs c) r o.
Proof.
  intros H. destruct (create_ok d g q p ss ord Hord _ _ H) as (G1 & W & _). split; [|auto].
  unfold create_workflow in H. destruct (validate_names d); [discriminate|].
  destruct (validate_templates d); [|discriminate].
  destruct (init g (d_start d) q p ss) as [c0|e] eqn:E0; [|discriminate].
  destruct (build_loop g tm imp ord (S max) max (map top (d_ops d)) [] c0) as [c1|e] eqn:E1; [|discriminate].
  destruct (unfinished (c_conns c1)) eqn:E2; [|discriminate]. injection H as <-.
  eapply build_loop_idc; [exact (init_ok d g q p ss _ E0)|exact (init_idc _ E0)|exact E1].
Qed.

End Build.
