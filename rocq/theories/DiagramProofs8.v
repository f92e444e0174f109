(** Why a construction halts, flat diagrams, and what can be reached from where. *)
From Verif Require Import Base DiagramModel DiagramSpec DiagramProofs DiagramProofs2 DiagramProofs3 DiagramProofs4
  DiagramProofs5 DiagramProofs6 DiagramProofs7.

(** ** Only the construction loop reports that it halted *)

Definition nh {A} (r : res A) : Prop := forall rs, r <> inr (EBuildHalted rs).

Lemma nh_ok {A} (a : A) : nh (inl a).
Proof. intros rs. discriminate. Qed.

Lemma nh_bind {A B} (x : res A) (f : A -> res B) : nh x -> (forall a, x = inl a -> nh (f a)) -> nh (let? a := x in f a).
Proof.
  intros H1 H2. destruct x as [a|e]; [apply H2; reflexivity|]. intros rs E. injection E as ->. exact (H1 rs eq_refl).
Qed.

Ltac nh_step :=
  match goal with
  | |- nh (inl _) => apply nh_ok
  | |- nh (Ok _) => apply nh_ok
  | |- nh (inr _) => intros ?; discriminate
  | |- nh (Err _) => intros ?; discriminate
  | |- nh (match ?x with inl _ => _ | inr _ => _ end) => apply (nh_bind x); [|intros ? _]
  | |- nh (match ?x with _ => _ end) => destruct x
  | |- nh (let '(_, _) := ?x in _) => destruct x
  end.

Lemma set_conn_nh r k sc c : nh (set_conn r k sc c).
Proof. unfold set_conn. repeat nh_step. Qed.

Lemma set_input_nh g ns r s sc c : nh (set_input g ns r s sc c).
Proof. unfold set_input. apply nh_bind; [apply set_conn_nh|]. intros a _. apply nh_ok. Qed.

Lemma set_buffer_nh g ns r s sc c : nh (set_buffer g ns r s sc c).
Proof. unfold set_buffer. apply nh_bind; [apply set_input_nh|]. intros a _. repeat nh_step. Qed.

Lemma infer_conn_nh fuel : forall m visited k, nh (infer_conn fuel m visited k).
Proof.
  induction fuel as [|fuel IH]; intros m visited k; destruct k; cbn [infer_conn]; repeat nh_step; apply IH.
Qed.

Lemma infer_into_nh ns r c : nh (infer_into ns r c).
Proof.
  unfold infer_into. apply nh_bind; [destruct (look _ _); [apply infer_conn_nh|apply nh_ok]|]. intros a _. repeat nh_step.
Qed.

Lemma infer_first_nh ns l c : nh (infer_first ns l c).
Proof.
  induction l as [|r l IH]; cbn [infer_first]; [apply nh_ok|]. apply nh_bind; [apply infer_into_nh|]. intros [a|] _; [apply nh_ok|exact IH].
Qed.

Lemma infer_hints_nh ns r c : nh (infer_hints ns r c).
Proof. unfold infer_hints. repeat nh_step. Qed.

Lemma finish_nh g u inp bufs outs c : nh (finish g u inp bufs outs c).
Proof.
  unfold finish. destruct inp as [ty|].
  - destruct (spawn_slot _ _ _) as [c0 s]. apply nh_bind.
    + apply nh_bind; [apply set_input_nh|]. intros a _. apply nh_ok.
    + intros [c1 ins] _. destruct (fresh_outputs _ _ _). apply nh_ok.
  - cbn. destruct (fresh_outputs _ _ _). apply nh_ok.
Qed.

Lemma child_inputs_nh u l : forall c, nh (child_inputs u l c).
Proof. induction l as [|[x t] l IH]; intros c; cbn [child_inputs]; [apply nh_ok|]. apply nh_bind; [apply set_conn_nh|]. auto. Qed.

Lemma child_buffers_nh u l : forall c, nh (child_buffers u l c).
Proof.
  induction l as [|[x t] l IH]; intros c; cbn [child_buffers]; [apply nh_ok|]. apply nh_bind; [apply set_conn_nh|].
  intros a _. destruct (look _ _); [intros rs; discriminate|apply IH].
Qed.

Lemma child_outputs_nh u cn l : forall c, nh (child_outputs u cn l c).
Proof. induction l as [|x l IH]; intros c; cbn [child_outputs]; [apply nh_ok|]. apply nh_bind; [apply set_conn_nh|]. auto. Qed.

Lemma scope_streams_nh u sc l : forall c, nh (scope_streams u sc l c).
Proof. induction l as [|[x t] l IH]; intros c; cbn [scope_streams]; [apply nh_ok|]. apply nh_bind; [apply set_conn_nh|]. auto. Qed.

Lemma section_inputs_nh g u l : forall c, nh (section_inputs g u l c).
Proof.
  induction l as [|[x t] l IH]; intros c; cbn [section_inputs]; [apply nh_ok|]. destruct (spawn_slot _ _ _).
  apply nh_bind; [apply set_input_nh|]. intros a _. apply nh_bind; [apply IH|]. intros b _. apply nh_ok.
Qed.

Lemma section_buffers_nh g u l : forall c, nh (section_buffers g u l c).
Proof.
  induction l as [|[x t] l IH]; intros c; cbn [section_buffers]; [apply nh_ok|]. destruct (spawn_slot _ _ _).
  apply nh_bind; [apply set_buffer_nh|]. intros a _. apply nh_bind; [apply IH|]. intros b _. apply nh_ok.
Qed.

Lemma set_type_hints_nh h ns ty sel c : nh (set_type_hints h ns ty sel c).
Proof. unfold set_type_hints. repeat nh_step. Qed.

Lemma build_op_nh g tm imp u c : nh (build_op g tm imp u c).
Proof.
  unfold build_op. destruct (u_op u) as [b next streams|[b|t] cn|start ops streams next|n|nexts|nexts|ok er|keyed seq rem|next sel ser|next er|ser|next sel|next sel].
  all: repeat first
    [ apply nh_ok | apply finish_nh | apply infer_first_nh | apply infer_into_nh | apply infer_hints_nh
    | apply set_conn_nh | apply set_input_nh | apply set_buffer_nh | apply child_inputs_nh | apply child_buffers_nh
    | apply child_outputs_nh | apply scope_streams_nh | apply section_inputs_nh | apply section_buffers_nh
    | apply set_type_hints_nh | nh_step ].
Qed.

Lemma build_all_nh g tm imp todo : forall waiting seen prog c, nh (build_all g tm imp todo waiting seen prog c).
Proof.
  induction todo as [|u todo IH]; intros waiting seen prog c; cbn [build_all]; [apply nh_ok|].
  apply nh_bind; [apply build_op_nh|]. intros [c1 fin] _. destruct fin; apply IH.
Qed.

Lemma build_all_seen d g todo : forall waiting seen prog c c' waiting' seen' prog',
  build_all g (d_templates d) (implicit d) todo waiting seen prog c = inl (c', waiting', seen', prog') ->
  forall r, In r seen' -> In r seen \/ exists u, In u todo /\ r = u_ref u.
Proof.
  induction todo as [|u todo IH]; intros waiting seen prog c c' waiting' seen' prog' H r X; cbn [build_all] in H.
  - injection H as <- <- <- <-. auto.
  - destruct (build_op g (d_templates d) (implicit d) u c) as [[c1 fin]|e] eqn:E; [|discriminate].
    destruct fin; destruct (IH _ _ _ _ _ _ _ _ H r X) as [Y|(v & Y & ->)]; auto.
    + right. exists v. cbn. auto.
    + apply in_app_iff in Y as [Y|[<-|[]]]; [auto|]. right. exists u. cbn. auto.
    + right. exists v. cbn. auto.
Qed.

Section Halts.
Variable d : diagram.
Variable g : registry.
Variables q p : nat.
Variable ss : list (nat * nat).

(** The construction stopped with the message [rs], when the operations [todo]
    were not finished and [log] was done. *)
Definition halted (rs : list opref) (todo : list unf) (log : list entry) : Prop :=
  exists ord max c0 left1 todo1 seen1 c1 c2 left2,
    orders ord /\ init g (d_start d) q p ss = inl c0 /\
    rounds d g ord max (map top (d_ops d)) [] c0 left1 todo1 seen1 c1 /\
    (is_nil todo1 && negb (has_outputs (c_outs c1))) = false /\
    round d g ord left1 todo1 seen1 c1 = inl (c2, todo, rs, false, left2) /\ c_log c2 = log.

Definition seen_ok (seen : list opref) : Prop :=
  forall r, In r seen -> exists ns id o, occurs d ns id o /\ r = RNamed ns None id.

Lemma round_seen ord left todo seen c c' todo' seen' prog left' :
  ginv d g q p ss todo c -> seen_ok seen -> round d g ord left todo seen c = inl (c', todo', seen', prog, left') -> seen_ok seen'.
Proof.
  unfold round. intros G S H.
  destruct (build_all _ _ _ _ _ _ _ _) as [[[[c1 todo1] seen1] prog1]|e] eqn:E; [|discriminate].
  destruct (connect_loop _ _ _ _ _ _ _) as [[[c2 prog2] left1]|e] eqn:F; [|discriminate].
  injection H as <- <- <- <- <-. intros r X.
  destruct (build_all_seen _ _ _ _ _ _ _ _ _ _ _ E r X) as [Y|(u & Y & ->)]; [auto|].
  exists (u_ns u), (u_id u), (u_op u). split; [exact (gi_todo _ _ _ _ _ _ _ G u Y)|reflexivity].
Qed.

Lemma rounds_seen ord (Ho : orders ord) left todo seen c left1 todo1 seen1 c1 :
  rounds d g ord left todo seen c left1 todo1 seen1 c1 -> ginv d g q p ss todo c -> seen_ok seen -> seen_ok seen1.
Proof.
  induction 1 as [|left todo seen c c1 todo1 seen1 left1 left2 todo2 seen2 c2 R _ IH]; intros G S; [exact S|].
  apply IH; [eapply round_ok; [exact Ho|exact G|exact R]|eapply round_seen; eauto].
Qed.

(** Every operation which is not built is unfinished or inside of an unfinished one. *)
Lemma ginv_accounts todo c : ginv d g q p ss todo c -> forall ns id o, occurs d ns id o ->
  (exists u ins bufs outs, In (LBuilt u ins bufs outs) (c_log c) /\ u_ns u = ns /\ u_id u = id /\ u_op u = o) \/
  (exists v rest, In v todo /\ ns ++ [id] = (u_ns v ++ [u_id v]) ++ rest).
Proof.
  intros G.
  assert (K : forall ns id o, known todo (c_log c) ns id o ->
    (exists u ins bufs outs, In (LBuilt u ins bufs outs) (c_log c) /\ u_ns u = ns /\ u_id u = id /\ u_op u = o) \/
    (exists v rest, In v todo /\ ns ++ [id] = (u_ns v ++ [u_id v]) ++ rest)).
  { intros ns id o [(v & A & <- & <- & <-)|X]; [right|left; exact X]. exists v, []. rewrite app_nil_r. auto. }
  assert (Kin : forall ns s o0 id o, inside d o0 id o ->
    ((exists u ins bufs outs, In (LBuilt u ins bufs outs) (c_log c) /\ u_ns u = ns /\ u_id u = s /\ u_op u = o0) \/
     (exists v rest, In v todo /\ ns ++ [s] = (u_ns v ++ [u_id v]) ++ rest)) ->
    (exists u ins bufs outs, In (LBuilt u ins bufs outs) (c_log c) /\ u_ns u = ns ++ [s] /\ u_id u = id /\ u_op u = o) \/
    (exists v rest, In v todo /\ (ns ++ [s]) ++ [id] = (u_ns v ++ [u_id v]) ++ rest)).
  { intros ns s o0 id o I [(u & ins & bufs & outs & A & <- & <- & <-)|(v & rest & A & B)].
    - apply K. eapply (gi_inside _ _ _ _ _ _ _ G); eauto.
    - right. exists v, (rest ++ [id]). rewrite B, app_assoc. auto. }
  induction 1 as [id o X|ns s t T cn id o _ IH F X|ns s st ops strs nx id o _ IH X].
  - apply K. apply (gi_top _ _ _ _ _ _ _ G). exact X.
  - eapply Kin; [|exact IH]. econstructor; eauto.
  - eapply Kin; [|exact IH]. constructor. exact X.
Qed.

Lemma create_halted ord max rs : orders ord -> create_workflow g ord max d q p ss = inr (EBuildHalted rs) ->
  exists todo log, halted rs todo log.
Proof.
  intros Ho H. unfold create_workflow in H. destruct (validate_names d); [discriminate|].
  destruct (validate_templates d) as [[]|e] eqn:Ev.
  2:{ exfalso. injection H as ->. unfold validate_templates in Ev. rewrite <- fold_left_rev_right in Ev.
      apply (fold_err (fun k => check_template (length (d_templates d)) (d_templates d) [k] k)) in Ev as (k & _ & Ev).
      assert (Ck : forall fuel used t, nh (check_template fuel (d_templates d) used t)).
      { induction fuel as [|fuel IH]; intros used' t; cbn [check_template]; repeat nh_step.
        intros rs' X. apply (fold_err (fun k => check_template fuel (d_templates d) (k :: used') k)) in X as (k' & _ & X). exact (IH _ _ _ X). }
      exact (Ck _ _ _ _ Ev). }
  destruct (init g (d_start d) q p ss) as [c0|e] eqn:E0.
  2:{ exfalso. injection H as ->.
      assert (Rs : forall l c, nh (root_streams g l c)).
      { induction l as [|[n ty] l IH]; intros c; cbn [root_streams]; [apply nh_ok|]. destruct (spawn_slot _ _ _).
        apply nh_bind; [apply set_input_nh|]. auto. }
      assert (X : nh (init g (d_start d) q p ss)).
      { unfold init. destruct (spawn_output _ _ _). destruct (spawn_slot _ _ _).
        apply nh_bind; [apply set_input_nh|]. intros c4 _. apply nh_bind; [apply Rs|]. intros c5 _.
        apply nh_bind; [apply set_conn_nh|]. intros c6 _. destruct (spawn_slot _ _ _). destruct (spawn_slot _ _ _). destruct (spawn_slot _ _ _).
        apply set_conn_nh. }
      exact (X _ E0). }
  destruct (build_loop _ _ _ _ _ _ _ _ _) as [c1|e] eqn:E1.
  - destruct (unfinished (c_conns c1)); discriminate.
  - injection H as ->.
    destruct (build_loop_halted _ _ _ _ _ _ _ _ _ E1) as [(l1 & t1 & s1 & c1 & c2 & t2 & l2 & A & Nz & B)|(l1 & t1 & s1 & c1 & A & B)].
    + exists t2, (c_log c2). unfold halted. eauto 15.
    + exfalso. unfold round in B.
      destruct (build_all _ _ _ _ _ _ _ _) as [[[[c3 todo3] seen3] prog3]|e] eqn:E.
      * destruct (connect_loop _ _ _ _ _ _ _) as [[[c4 prog4] left4]|e] eqn:F; [discriminate|]. injection B as ->.
        exact (connect_loop_not_halted _ _ _ _ _ _ _ _ F).
      * injection B as ->. exact (build_all_nh _ _ _ _ _ _ _ _ _ E).
Qed.

End Halts.

(** ** Namespaces *)

Section Spaces.
Variable d : diagram.

Lemma named_spaces ns t : named ns t = RDispose \/ namespaces (named ns t) = Some ns.
Proof. destruct t as [n|[]|s n]; cbn; auto. Qed.

Lemma leadsto_trans r1 r2 r3 : leadsto d r1 r2 -> leadsto d r2 r3 -> leadsto d r1 r3.
Proof. induction 1; intros; [auto|eapply leadsto_step; eauto]. Qed.

Lemma goes_dispose r : ~ goes d RDispose r.
Proof. intros (ns & id & o & _ & A). inversion A. Qed.

Lemma goes_cancel ns r : ~ goes d (RCancel ns) r.
Proof. intros (ns' & id & o & _ & A). inversion A. Qed.

Lemma goes_stream ns n r : ~ goes d (RStream ns n) r.
Proof. intros (ns' & id & o & _ & A). inversion A. Qed.

Lemma leadsto_stuck r r' : (forall x, ~ goes d r x) -> leadsto d r r' -> r' = r.
Proof. intros H X. destruct X as [|r1 r2 r3 G _]; [reflexivity|destruct (H _ G)]. Qed.

Lemma prefix_snoc (N ns : list nat) s rest : ns ++ [s] = N ++ rest -> (forall rest', ns <> N ++ rest') -> N = ns ++ [s].
Proof.
  intros E H. destruct rest as [|x rest] using rev_ind; [rewrite app_nil_r in E; auto|].
  rewrite app_assoc in E. apply app_inj_tail in E as [E _]. destruct (H _ E).
Qed.

Lemma goes_enters N r r' : goes d r r' -> ~ within N r -> within N r' ->
  exists ns s t T cn x y, N = ns ++ [s] /\ occurs d ns s (OSection (PTemplate t) cn) /\ find t (d_templates d) = Some T /\
    In (x, y) (t_inputs T ++ t_buffers T) /\ r = RNamed ns (Some s) x /\ r' = named N y.
Proof.
  intros (ns & id & o & Oc & A) Nw (rest & W).
  assert (K : forall y, namespaces (named (ns ++ [id]) y) = Some (N ++ rest) -> (forall rest', ns <> N ++ rest') -> N = ns ++ [id]).
  { intros y X H. destruct (named_spaces (ns ++ [id]) y) as [E|E]; rewrite E in X; [discriminate|].
    injection X as X. eapply prefix_snoc; eauto. }
  assert (S : forall y, namespaces (named ns y) = Some (N ++ rest) -> exists rest', ns ++ [id] = N ++ rest').
  { intros y X. destruct (named_spaces ns y) as [E|E]; rewrite E in X; [discriminate|]. injection X as ->.
    exists (rest ++ [id]). rewrite app_assoc. reflexivity. }
  inversion A; subst.
  - assert (EN : N = ns ++ [id]). { eapply K; [exact W|]. intros rest' E. apply Nw. exists rest'. cbn. congruence. }
    exists ns, id, t, T, cn, x, y. rewrite in_app_iff. subst N. auto 10.
  - assert (EN : N = ns ++ [id]). { eapply K; [exact W|]. intros rest' E. apply Nw. exists rest'. cbn. congruence. }
    exists ns, id, t, T, cn, x, y. rewrite in_app_iff. subst N. auto 10.
  - destruct (S _ W) as (rest' & E). destruct Nw. exists rest'. cbn. congruence.
  - discriminate.
  - cbn in W. injection W as W. destruct Nw. exists (rest ++ [id]). cbn. rewrite app_assoc. congruence.
  - cbn in W. destruct Nw. exists rest. exact W.
Qed.

Lemma within_dec N r : within N r \/ ~ within N r.
Proof.
  assert (K : forall (N l : list nat), (exists rest, l = N ++ rest) \/ ~ (exists rest, l = N ++ rest)).
  { intros M. induction M as [|x M IH]; intros l; [left; exists l; reflexivity|].
    destruct l as [|y l]; [right; intros (rest & E); discriminate|].
    destruct (Nat.eq_dec x y) as [->|Ne].
    - destruct (IH l) as [(rest & ->)|H]; [left; exists rest; reflexivity|right]. intros (rest & E). apply H. exists rest. cbn in E. congruence.
    - right. intros (rest & E). cbn in E. congruence. }
  unfold within. destruct (namespaces r) as [l|].
  - destruct (K N l) as [(rest & ->)|H]; [left; eauto|right]. intros (rest & E). apply H. exists rest. congruence.
  - right. intros (rest & E). discriminate.
Qed.

Lemma leadsto_enters N r0 r : leadsto d r0 r -> ~ within N r0 -> within N r -> enters d N r0 r.
Proof.
  intros L. induction L as [r|r1 r2 r3 G L IH]; intros A B; [destruct (A B)|].
  destruct (within_dec N r2) as [X|X].
  - destruct (goes_enters _ _ _ G A X) as (ns & s & t & T & cn & x & y & -> & C1 & C2 & C3 & -> & ->).
    exists ns, s, t, T, cn, x, y. do 4 (split; [auto|]). split; [constructor|exact L].
  - destruct (IH X B) as (ns & s & t & T & cn & x & y & E & C1 & C2 & C3 & C4 & C5).
    exists ns, s, t, T, cn, x, y. do 4 (split; [auto|]). split; [eapply leadsto_step; eauto|exact C5].
Qed.

Lemma goes_leaves N r r' : goes d r r' -> within N r -> ~ within N r' -> r' <> RDispose ->
  exists ns s pr cn, N = ns ++ [s] /\ occurs d ns s (OSection pr cn) /\
    ((exists t T x y, pr = PTemplate t /\ find t (d_templates d) = Some T /\ In x (t_outputs T) /\
        find x cn = Some y /\ r = RNamed N None x /\ r' = named ns y) \/
     (r = RTerminate N /\ r' = RTerminate ns)).
Proof.
  intros (ns & id & o & Oc & A) (rest & W) Nw Nd.
  assert (S : forall y, named (ns ++ [id]) y = r' -> ns <> N ++ rest).
  { intros y E E'. apply Nw. exists (rest ++ [id]). rewrite app_assoc, <- E', <- E.
    destruct (named_spaces (ns ++ [id]) y) as [X|X]; [congruence|exact X]. }
  inversion A; subst; cbn in W; try (injection W as W); try (exfalso; eapply S; eauto; fail).
  - assert (EN : N = ns ++ [id]).
    { eapply prefix_snoc; [exact W|]. intros rest' E. apply Nw. exists rest'. rewrite <- E.
      destruct (named_spaces ns y) as [X|X]; [congruence|exact X]. }
    exists ns, id, (PTemplate t), cn. split; [exact EN|]. split; [exact Oc|]. left. exists t, T, x, y. subst N. auto 10.
  - congruence.
  - assert (EN : N = ns ++ [id]).
    { eapply prefix_snoc; [exact W|]. intros rest' E. apply Nw. exists rest'. cbn. congruence. }
    exists ns, id, p, cn. split; [exact EN|]. split; [exact Oc|]. right. subst N. auto.
  - destruct Nw. exists rest. cbn. congruence.
Qed.

Lemma leadsto_leaves N r0 r : leadsto d r0 r -> within N r0 -> ~ within N r -> r <> RDispose -> leaves d N r0 r.
Proof.
  intros L. induction L as [r|r1 r2 r3 G L IH]; intros A B Nd; [destruct (B A)|].
  destruct (within_dec N r2) as [X|X].
  - destruct (IH X B Nd) as (ns & s & pr & cn & E & C1 & C2). exists ns, s, pr, cn. do 2 (split; [auto|]).
    destruct C2 as [(t & T & x & y & D1 & D2 & D3 & D4 & D5 & D6)|[D1 D2]].
    + left. exists t, T, x, y. do 4 (split; [auto|]). split; [eapply leadsto_step; eauto|exact D6].
    + right. split; [eapply leadsto_step; eauto|exact D2].
  - assert (r2 <> RDispose). { intros ->. apply Nd. apply leadsto_stuck in L; [exact L|apply goes_dispose]. }
    destruct (goes_leaves _ _ _ G A X H) as (ns & s & pr & cn & -> & C1 & C2).
    exists ns, s, pr, cn. do 2 (split; [auto|]). destruct C2 as [(t & T & x & y & D1 & D2 & D3 & D4 & -> & ->)|[-> ->]].
    + left. exists t, T, x, y. do 4 (split; [auto|]). split; [constructor|exact L].
    + right. split; [constructor|exact L].
Qed.

(** An operation inside of namespaces sits in a section or in a scope. *)
Lemma occurs_inside ns s id o : occurs d (ns ++ [s]) id o ->
  (exists t cn, occurs d ns s (OSection (PTemplate t) cn)) \/
  (exists start ops streams next, occurs d ns s (OScope start ops streams next)).
Proof.
  intros H. remember (ns ++ [s]) as N eqn:E. destruct H as [id o X|ns' s' t T cn id o A B C|ns' s' st ops strs nx id o A B].
  - destruct ns; discriminate.
  - apply app_inj_tail in E as [-> ->]. eauto.
  - apply app_inj_tail in E as [-> ->]. eauto 8.
Qed.

Lemma same_occurs d' ns id o : same_contents d d' -> occurs d ns id o -> occurs d' ns id o.
Proof.
  intros (P & T & _). induction 1 as [id o X|ns s t T' cn id o _ IH F X|ns s st ops strs nx id o _ IH X].
  - apply occurs_top. eapply Permutation_in; eauto.
  - eapply occurs_template; [exact IH| |exact X]. rewrite <- T. exact F.
  - eapply occurs_scope; eauto.
Qed.

End Spaces.

Lemma same_alias d d' ns id o r r' : same_contents d d' -> alias d ns id o r r' -> alias d' ns id o r r'.
Proof.
  intros (_ & T & _) A. destruct A; [eapply alias_input|eapply alias_buffer|eapply alias_output|eapply alias_unused|constructor|constructor];
    rewrite <- ?T; eauto.
Qed.

Lemma same_leadsto d d' r r' : same_contents d d' -> leadsto d r r' -> leadsto d' r r'.
Proof.
  intros S. induction 1 as [|r1 r2 r3 (ns & id & o & A & B) _ IH]; [constructor|].
  eapply leadsto_step; [|exact IH]. exists ns, id, o. split; [eapply same_occurs; eauto|eapply same_alias; eauto].
Qed.

Lemma same_sym d d' : same_contents d d' -> same_contents d' d.
Proof. intros (A & B & C & D). repeat split; auto using Permutation_sym. Qed.

(** ** Flat diagrams *)

Section Flat.
Variable d : diagram.
Variable ss : list (nat * nat).
Hypothesis Fl : flat d ss.

Lemma flat_occurs ns id o : occurs d ns id o -> ns = [] /\ In (id, o) (d_ops d).
Proof.
  destruct Fl as [F _].
  induction 1 as [id o X|ns s t T cn id o _ [_ IH] _ _|ns s st ops strs nx id o _ [_ IH] _]; [auto| |]; destruct (F _ _ IH).
Qed.

Lemma flat_goes r r' : goes d r r' -> (exists id, r = RTerminate [id]) \/ exists id n ty, r = RNamed [] None id /\ r' = RStream [] n /\ In (n, ty) ss.
Proof.
  intros (ns & id & o & Oc & A). destruct (flat_occurs _ _ _ Oc) as [-> X]. destruct Fl as [F _].
  pose proof (F _ _ X) as Y. inversion A; subst; try destruct Y.
  - left. exists id. reflexivity.
  - right. exists id, n, x. auto.
Qed.

Lemma flat_implicit : outermost ss (directed d [] None) /\ (forall r, ~ goes d (directed d [] None) r).
Proof.
  destruct Fl as [_ [E|([] & E)]]; cbn [directed]; rewrite E; cbn [named]; (split; [constructor|]).
  - apply goes_cancel.
  - intros r G. apply flat_goes in G as [(id & G)|(id & n & ty & G & _)]; discriminate.
  - apply goes_dispose.
  - apply goes_cancel.
Qed.

End Flat.

(** ** What a built workflow does not contain *)

Section Absent.
Variable d : diagram.
Variable g : registry.
Variables q p : nat.
Variable ss : list (nat * nat).
Variable log : list entry.
Hypothesis Fin : final d g q p ss log.

Lemma no_cancel_slot ns s : slot_of log p ss (RCancel ns) s -> ns = [].
Proof. intros H. inversion H; reflexivity. Qed.

Lemma no_cancel ns o : In (LPut (RCancel ns) o) log -> ns = [].
Proof.
  intros H. destruct (final_put _ _ _ _ _ _ Fin _ _ H) as [A|(to & G & _)]; [|destruct (goes_cancel _ _ _ G)].
  destruct (final_arrives_slot _ _ _ _ _ _ Fin _ _ A) as [X|(s & X)]; [discriminate|]. eapply no_cancel_slot; eauto.
Qed.

(** The declared targets of an operation are targets of its outputs. *)
Lemma declared_output ns id o t : occurs d ns id o -> In t (declares g o) ->
  exists u ins bufs outs out, In (LBuilt u ins bufs outs) log /\ u_ns u = ns /\ u_id u = id /\ u_op u = o /\ In (t, out) outs /\
    exists r, In (LPut r out) log /\ put_to d u t out r.
Proof.
  intros Oc T. destruct (final_built _ _ _ _ _ _ Fin _ _ _ Oc) as (u & ins & bufs & outs & A & B1 & B2 & B3 & D).
  pose proof (ad_targets _ _ _ _ _ _ _ D) as E. rewrite B3 in E. rewrite <- E in T. apply in_map_iff in T as ([t' out] & E' & X).
  cbn in E'. subst t'. exists u, ins, bufs, outs, out. do 5 (split; [assumption|]). exact (ad_put _ _ _ _ _ _ _ D _ _ X).
Qed.

Lemma no_inner_cancel ns id o : occurs d ns id o -> In (Some (NBuiltin BCancel)) (declares g o) -> ns = [].
Proof.
  intros Oc T. destruct (declared_output _ _ _ _ Oc T) as (u & ins & bufs & outs & out & A & B1 & B2 & B3 & X & r & Y & P).
  subst ns. unfold put_to in P. cbn [directed named] in P.
  destruct (u_op u); try (subst r; eapply no_cancel; exact Y).
  destruct (o_ty out =? TFailed); subst r; [|eapply no_cancel; exact Y].
  cbn [in_ns] in Y. apply no_cancel in Y. apply app_eq_nil in Y as [-> _]. reflexivity.
Qed.

Lemma no_inner_transform ns id next : d_implicit d = None -> occurs d ns id (OTransform next None) -> ns = [].
Proof.
  intros Im Oc. destruct (final_built _ _ _ _ _ _ Fin _ _ _ Oc) as (u & ins & bufs & outs & A & B1 & B2 & B3 & D).
  pose proof (ad_targets _ _ _ _ _ _ _ D) as E. pose proof (ad_shape _ _ _ _ _ _ _ D) as S. rewrite B3 in E, S. cbn in E.
  inversion S as [| | | | | |? ? ? ? ? Ty| | | | | | |]; subst.
  destruct outs as [|[t1 o1] [|[t2 o2] [|]]]; try discriminate. cbn in E, Ty. injection E as -> ->. injection Ty as _ Ty.
  destruct (ad_put _ _ _ _ _ _ _ D None o2) as (r & Y & P); [cbn; auto|].
  unfold put_to in P. rewrite B3, Ty in P. cbn in P. rewrite Im in P. cbn [in_ns] in P. subst r.
  apply no_cancel in Y. rewrite app_nil_r in Y. exact Y.
Qed.

(** Nothing is given to a name which ends at a stream of a section. *)
Lemma no_section_stream ns s t cn sid n : unique d ->
  occurs d ns s (OSection (PTemplate t) cn) -> occurs d (ns ++ [s]) sid (OStreamOut n) ->
  forall o, ~ In (LPut (RNamed (ns ++ [s]) None sid) o) log.
Proof.
  intros Un Os On.
  assert (NoS : forall sl, ~ slot_of log p ss (RStream (ns ++ [s]) n) sl).
  { intros sl H. inversion H as [| | | |u sc en te ex start ops streams nx n' t' s' o' A1 A2 A3 A4 A5 A6| |n' s' B1 B2 B3|]; subst.
    - apply app_inj_tail in A6 as [A6 A7]. pose proof (final_entries _ _ _ _ _ _ Fin _ A1) as (C & _). rewrite A6, A7, A2 in C.
      discriminate (Un _ _ _ _ Os C).
    - destruct ns; discriminate. }
  assert (Gone : forall o, ~ In (LPass (RStream (ns ++ [s]) n) o) log).
  { intros o H. destruct (final_source _ _ _ _ _ _ Fin _ _ (or_intror H)) as (r & L & X).
    apply leadsto_stuck in L; [|apply goes_stream]. subst r.
    assert (Ar : forall o', ~ arrives log (RStream (ns ++ [s]) n) o').
    { intros o' Y. destruct (final_arrives_slot _ _ _ _ _ _ Fin _ _ Y) as [Z|(sl & Z)]; [discriminate|exact (NoS _ Z)]. }
    destruct X as [X|[X _]]; [exact (Ar _ X)|].
    destruct (final_lost _ _ _ _ _ _ Fin _ _ X) as (o' & [Y|(to & G & _)]); [exact (Ar _ Y)|exact (goes_stream _ _ _ _ G)]. }
  intros o H. destruct (final_put _ _ _ _ _ _ Fin _ _ H) as [A|(to & G & X)].
  - destruct (final_arrives_slot _ _ _ _ _ _ Fin _ _ A) as [Z|(sl & Z)]; [discriminate|].
    inversion Z as [u ins bufs outs s' B1 B2 B3| |u sc en te ex s' B1 B2 B3| | | | |]; subst.
    + pose proof (final_entries _ _ _ _ _ _ Fin _ B1) as D. pose proof (ad_occurs _ _ _ _ _ _ _ D) as O. rewrite B3 in O.
      pose proof (ad_shape _ _ _ _ _ _ _ D) as S. rewrite (Un _ _ _ _ O On) in S. inversion S; subst. destruct B2.
    + pose proof (final_entries _ _ _ _ _ _ Fin _ B1) as (O & _ & st & ops & strs & nx & E). rewrite B3, E in O.
      discriminate (Un _ _ _ _ O On).
  - assert (G' : goes d (RNamed (ns ++ [s]) None sid) (RStream (ns ++ [s]) n)).
    { exists (ns ++ [s]), sid, (OStreamOut n). split; [exact On|constructor]. }
    rewrite (final_goes _ _ _ _ _ _ Fin _ _ _ G G') in X. exact (Gone _ X).
Qed.

End Absent.

(** ** Names *)

Lemma NoDup_fst {A} (l : list (nat * A)) k a b : NoDup (map fst l) -> In (k, a) l -> In (k, b) l -> a = b.
Proof.
  induction l as [|[k' a'] l IH]; cbn; [intros _ []|]. intros N [X|X] [Y|Y]; inversion N; subst.
  - congruence.
  - injection X as -> ->. destruct H1. apply in_map_iff. exists (k, b). auto.
  - injection Y as -> ->. destruct H1. apply in_map_iff. exists (k, a). auto.
  - auto.
Qed.

Lemma unique_names d : NoDup (map fst (d_ops d)) ->
  (forall t T, find t (d_templates d) = Some T -> NoDup (map fst (t_ops T))) ->
  (forall ns s start ops streams next, occurs d ns s (OScope start ops streams next) -> NoDup (map fst ops)) ->
  unique d.
Proof.
  intros N1 N2 N3 ns id o o' H. revert o'. induction H as [id o X|ns s t T cn id o A IH F X|ns s st ops strs nx id o A IH X]; intros o' H.
  - remember [] as ns eqn:E. destruct H as [id o' Y|ns s t T cn id o' _ _ _|ns s st ops strs nx id o' _ _].
    + eapply NoDup_fst; eauto.
    + destruct ns; discriminate.
    + destruct ns; discriminate.
  - remember (ns ++ [s]) as N eqn:E. destruct H as [id o' Y|ns' s' t' T' cn' id o' B F' Y|ns' s' st ops strs nx id o' B Y].
    + destruct ns; discriminate.
    + apply app_inj_tail in E as [-> ->]. pose proof (IH _ B) as E. injection E as <- _. rewrite F in F'. injection F' as <-.
      eapply NoDup_fst; [eapply N2; exact F| |]; eauto.
    + apply app_inj_tail in E as [-> ->]. discriminate (IH _ B).
  - remember (ns ++ [s]) as N eqn:E. destruct H as [id o' Y|ns' s' t' T' cn' id o' B F' Y|ns' s' st' ops' strs' nx' id o' B Y].
    + destruct ns; discriminate.
    + apply app_inj_tail in E as [-> ->]. discriminate (IH _ B).
    + apply app_inj_tail in E as [-> ->]. pose proof (IH _ B) as E. injection E as _ <- _ _. eapply NoDup_fst; [eapply N3; exact A| |]; eauto.
Qed.

(** ** A template inside of itself *)

Lemma occurs_shift d ns1 s1 cn1 ns2 s2 cn2 t : unique d ->
  occurs d ns1 s1 (OSection (PTemplate t) cn1) -> occurs d ns2 s2 (OSection (PTemplate t) cn2) ->
  forall rest id o, occurs d ((ns1 ++ [s1]) ++ rest) id o -> occurs d ((ns2 ++ [s2]) ++ rest) id o.
Proof.
  intros Un O1 O2 rest. induction rest as [|x rest IH] using rev_ind; intros id o H.
  - rewrite app_nil_r in *. remember (ns1 ++ [s1]) as N eqn:E.
    destruct H as [id o X|ns s t' T cn id o A F X|ns s st ops strs nx id o A X].
    + destruct ns1; discriminate.
    + apply app_inj_tail in E as [-> ->]. pose proof (Un _ _ _ _ O1 A) as E. injection E as <- _. eapply occurs_template; eauto.
    + apply app_inj_tail in E as [-> ->]. discriminate (Un _ _ _ _ O1 A).
  - rewrite app_assoc in *. remember (((ns1 ++ [s1]) ++ rest) ++ [x]) as N eqn:E.
    destruct H as [id o X|ns s t' T cn id o A F X|ns s st ops strs nx id o A X].
    + destruct ((ns1 ++ [s1]) ++ rest); discriminate.
    + apply app_inj_tail in E as [-> ->]. eapply occurs_template; eauto.
    + apply app_inj_tail in E as [-> ->]. eapply occurs_scope; eauto.
Qed.

Lemma occurs_forever d ns s cn t rest s' cn' : unique d ->
  occurs d ns s (OSection (PTemplate t) cn) -> occurs d ((ns ++ [s]) ++ rest) s' (OSection (PTemplate t) cn') ->
  forall n, exists ns1 s1 cn1, n <= length ns1 /\ occurs d ns1 s1 (OSection (PTemplate t) cn1).
Proof.
  intros Un A B n. induction n as [|n (ns1 & s1 & cn1 & L & C)]; [exists ns, s, cn; split; [lia|exact A]|].
  exists ((ns1 ++ [s1]) ++ rest), s', cn'. split; [rewrite !app_length; cbn; lia|].
  exact (occurs_shift d _ _ _ _ _ _ _ Un A C _ _ _ B).
Qed.
