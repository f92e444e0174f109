(** The workflow of a plain diagram does what the diagram says. *)
From Verif Require Import Base OpsModel ExecModel ExecSpec DiagramModel DiagramSpec DiagramSpec2 DiagramSpec3 DiagramProofs DiagramProofs3 DiagramProofs4 DiagramProofs5 DiagramProofs6
  DiagramProofs7 DiagramProofs8 DiagramProofs17 DiagramProofs18 DiagramProps Diagram2Props Diagram3Props DiagramRunModel DiagramRunSpec.

Lemma birth_once log i j e e' x : NoDup (flat_map birth log) -> nth_error log i = Some e -> nth_error log j = Some e' ->
  In x (birth e) -> In x (birth e') -> i = j.
Proof.
  revert i j. induction log as [|a log IH]; intros i j N A B X Y; [destruct i; discriminate|]. cbn [flat_map] in N.
  assert (D : forall k e0, nth_error log k = Some e0 -> In x (birth e0) -> ~ In x (birth a)).
  { intros k e0 K Z1 Z2. apply nth_error_In in K. revert N Z2. generalize (birth a). intros l N Z2. induction l as [|y l IHl]; [destruct Z2|].
    cbn [app] in N. apply NoDup_cons_iff in N as [N1 N2]. destruct Z2 as [->|Z2]; [|auto]. apply N1. apply in_app_iff. right. apply in_flat_map. eauto. }
  destruct i as [|i], j as [|j]; cbn [nth_error] in *.
  - reflexivity.
  - injection A as ->. destruct (D _ _ B Y X).
  - injection B as ->. destruct (D _ _ A X Y).
  - f_equal. eapply IH; eauto. clear - N. induction (birth a); [exact N|]. cbn [app] in N. apply NoDup_cons_iff in N as [_ N]. auto.
Qed.

Section Run.
Variables (g : registry) (d : diagram) (q p : nat) (log : list entry).
Hypothesis B : builds g d q p [] log.
Hypothesis Pl : plain d.
Hypothesis Di : distinct d.

Lemma pl_flat : flat d [].
Proof.
  destruct Pl as [P1 P2]. split; [|exact P2]. intros id o H. pose proof (P1 _ _ H) as X. destruct o as [b n s|[]| | | | | | | | | | |]; try contradiction; exact I.
Qed.

Lemma pl_plain id o : In (id, o) (d_ops d) -> plain_op o.
Proof. intros H. pose proof (proj1 Pl _ _ H) as X. destruct o; exact X. Qed.

Lemma no_goes r r' : ~ goes d r r' .
Proof.
  intros (ns & id & o & Oc & A). destruct (flat_occurs _ _ pl_flat _ _ _ Oc) as [-> X]. pose proof (proj1 Pl _ _ X) as Y.
  inversion A; subst; exact Y.
Qed.

Lemma leads_refl r r' : leadsto d r r' -> r = r'.
Proof. intros L. inversion L; subst; [reflexivity|]. destruct (no_goes _ _ H). Qed.

Lemma births_once : NoDup (flat_map birth log).
Proof. exact (proj1 (builds_births g d q p log pl_plain B)). Qed.

Lemma birth_same e e' x : In e log -> In e' log -> In x (birth e) -> In x (birth e') -> e = e'.
Proof.
  intros H H' X X'. apply In_nth_error in H as [i H], H' as [j H']. pose proof (birth_once _ _ _ _ _ _ births_once H H' X X'). subst j. congruence.
Qed.

(** Outputs *)
Definition src (t : option next_op) (o : output) : Prop :=
  In (LPut (directed d [] t) o) log \/ (t = None /\ In (LPass (directed d [] None) o) log).

Lemma src_source t o : src t o -> source log (directed d [] t) o.
Proof. intros [H|[-> H]]; [left; exact H|right; exact H]. Qed.

Lemma source_same r o r' o' : source log r o -> source log r' o' -> o_id o = o_id o' -> r = r' /\ o = o'.
Proof.
  intros [H|H] [H'|H'] E; pose proof (birth_same _ _ (o_id o) H H' (or_introl eq_refl) (or_introl (eq_sym E))) as X; try discriminate; injection X; auto.
Qed.

Lemma connected_in o s : connected log o = Some s -> exists o', In (LConnect o' s) log /\ o_id o' = o_id o.
Proof.
  unfold connected. destruct (List.find _ log) as [e|] eqn:E; [|discriminate]. apply find_some in E as [E1 E2].
  destruct e; try discriminate. intros [= <-]. apply Nat.eqb_eq in E2. eauto.
Qed.

Lemma in_connected o s : In (LConnect o s) log -> connected log o = Some s.
Proof.
  intros H. destruct (connected log o) as [s'|] eqn:E.
  - destruct (connected_in _ _ E) as (o' & H' & Eo). apply In_nth_error in H as [i H], H' as [j H'].
    pose proof (proj1 (C58_outputs_are_connected_once _ _ _ _ _ _ _ _ B Eo) _ _ _ _ H' H) as X. subst j. congruence.
  - unfold connected in E. destruct (List.find _ log) as [e|] eqn:F; [apply find_some in F as [_ F]; destruct e; discriminate|].
    pose proof (find_none _ _ F _ H) as X. cbn in X. rewrite Nat.eqb_refl in X. discriminate.
Qed.

Lemma fin : final d g q p [] log.
Proof. exact (builds_final _ _ _ _ _ _ B). Qed.

Lemma link o s : In (LConnect o s) log -> exists r s0, In (LSlot r s0) log /\
  ((exists k i er, In (LConv k i o er) log) \/ source log r o).
Proof.
  intros H. destruct fin as (c & <- & G & _). destruct (gi_binv _ _ _ _ _ _ _ G) as (V & _).
  destruct (v_link _ _ _ _ V o s H) as (r & s0 & A & [[_ X]|[X _]]); exists r, s0; (split; [exact A|]); [left; exact X|right].
  exact (v_hand _ _ _ _ V _ _ X).
Qed.

Lemma loose o : source log RDispose o -> connected log o = None.
Proof.
  intros S. destruct (connected log o) as [s|] eqn:E; [exfalso|reflexivity]. destruct (connected_in _ _ E) as (o' & H & Eo).
  destruct (link _ _ H) as (r & s0 & A & [(k & i & er & X)|X]).
  - destruct S as [S|S]; pose proof (birth_same _ _ (o_id o) S X (or_introl eq_refl) (or_intror (or_introl Eo))); discriminate.
  - destruct (source_same _ _ _ _ S X (eq_sym Eo)) as [<- _].
    pose proof (proj2 (proj2 (C59_targets_have_one_input _ _ _ _ _ _ _ _ _ _ B A A))) as Y. inversion Y.
Qed.

Lemma implicit_outermost : outermost [] (directed d [] None).
Proof. exact (proj1 (flat_implicit _ _ pl_flat)). Qed.

Lemma source_arrives t o : src t o -> arrives log (directed d [] t) o.
Proof.
  intros [H|[-> H]].
  - destruct (final_put _ _ _ _ _ _ fin _ _ H) as [X|(to & G & _)]; [exact X|destruct (no_goes _ _ G)].
  - destruct (final_source _ _ _ _ _ _ fin _ _ (or_intror H)) as (r' & L & Z). apply leads_refl in L. subst r'.
    destruct Z as [Z|[_ Z]]; [exact Z|destruct (Z implicit_outermost)].
Qed.

(** The ways that outputs can go *)
Inductive way (r : opref) (o : output) : Prop :=
| W_none : r = RDispose -> connected log o = None -> way r o
| W_direct s : In (LSlot r s) log -> connected log o = Some s -> o_ty o = s_ty s -> way r o
| W_conv s k i ok er : In (LSlot r s) log -> connected log o = Some i -> In (LConv k i ok er) log -> connected log ok = Some s ->
    chosen g r k (s_ty i) -> o_ty o = s_ty i -> o_ty ok = s_ty s -> o_ty o <> s_ty s \/ r = RCancel [] -> way r o.

Lemma src_way t o : src t o -> way (directed d [] t) o.
Proof.
  intros S. destruct (source_arrives _ _ S) as [E|(s & A & [[E C]|[(k & i & ok & er & C1 & C2 & C3) E]])].
  - apply W_none; [exact E|]. apply loose. rewrite <- E. apply src_source, S.
  - eapply W_direct; [exact A|apply in_connected; exact C|exact E].
  - destruct (C59_connections_are_typed _ _ _ _ _ _ B) as [Ty _].
    destruct (builds_convs _ _ _ _ _ _ B _ _ _ _ C2) as (_ & r' & s' & A' & C' & Ch).
    assert (s' = s). { pose proof (in_connected _ _ C'). pose proof (in_connected _ _ C3). congruence. } subst s'.
    pose proof (proj1 (proj2 (C59_targets_have_one_input _ _ _ _ _ _ _ _ _ _ B A A')) eq_refl) as <-.
    eapply (W_conv _ _ s k i ok er); auto using in_connected.
Qed.

(** Operations *)
Lemma built_facts u ins bufs outs : In (LBuilt u ins bufs outs) log ->
  u_ns u = [] /\ In (u_id u, u_op u) (d_ops d) /\ shaped d g (u_op u) ins bufs outs /\ map fst outs = declares g (u_op u) /\
  exists s, ins = [(None, s)].
Proof.
  intros H. pose proof (proj2 (C58_operations_are_built _ _ _ _ _ _ B) _ _ _ _ H) as D.
  destruct (flat_occurs _ _ pl_flat _ _ _ (ad_occurs _ _ _ _ _ _ _ D)) as [E X]. split; [exact E|]. split; [exact X|].
  pose proof (ad_shape _ _ _ _ _ _ _ D) as S. split; [exact S|]. split; [exact (ad_targets _ _ _ _ _ _ _ D)|].
  pose proof (proj1 Pl _ _ X) as Y. destruct S; try contradiction; eauto.
Qed.

Lemma op_at id o : In (id, o) (d_ops d) -> exists u s bufs outs, In (LBuilt u [(None, s)] bufs outs) log /\ u_id u = id /\ u_op u = o.
Proof.
  intros H. destruct (proj1 (C58_operations_are_built _ _ _ _ _ _ B) [] id o (occurs_top _ _ _ H)) as (u & ins & bufs & outs & A & _ & E1 & E2).
  destruct (built_facts _ _ _ _ A) as (_ & _ & _ & _ & s & ->). eauto 8.
Qed.

Lemma built_same u ins bufs outs u' ins' bufs' outs' : In (LBuilt u ins bufs outs) log -> In (LBuilt u' ins' bufs' outs') log ->
  u_id u = u_id u' -> LBuilt u ins bufs outs = LBuilt u' ins' bufs' outs'.
Proof.
  intros H H' E. destruct (built_facts _ _ _ _ H) as (N & O & _). destruct (built_facts _ _ _ _ H') as (N' & _).
  destruct (C58_operations_are_built_once _ _ _ _ _ _ _ _ _ Di B (occurs_top _ _ _ O)) as (i & u0 & ins0 & bufs0 & outs0 & A & _ & _ & _ & U).
  apply In_nth_error in H as [j H], H' as [j' H'].
  pose proof (U _ _ _ _ _ H N eq_refl). pose proof (U _ _ _ _ _ H' N' (eq_sym E)). subst. congruence.
Qed.

Lemma out_src u ins bufs outs t o : In (LBuilt u ins bufs outs) log -> In (t, o) outs -> src t o.
Proof.
  intros H X. pose proof (proj2 (C58_operations_are_built _ _ _ _ _ _ B) _ _ _ _ H) as D.
  destruct (ad_put _ _ _ _ _ _ _ D _ _ X) as (r & A & P). destruct (built_facts _ _ _ _ H) as (E & _). left.
  assert (r = directed d [] t); [|subst r; exact A].
  unfold put_to in P. rewrite E in P. destruct (u_op u); try exact P. destruct (o_ty o =? TFailed); [|exact P].
  rewrite P. destruct (directed d [] t); reflexivity.
Qed.

Lemma err_src k i ok er : In (LConv k i ok (Some er)) log -> src None er.
Proof. intros H. right. split; [reflexivity|]. exact (final_entries _ _ _ _ _ _ fin _ H). Qed.

Definition type_of (id : nat) : nat :=
  match List.find (fun e => match e with LBuilt u [(None, _)] _ _ => u_id u =? id | _ => false end) log with
  | Some (LBuilt _ [(_, s)] _ _) => s_ty s
  | _ => 0
  end.

Lemma type_eq u s bufs outs : In (LBuilt u [(None, s)] bufs outs) log -> type_of (u_id u) = s_ty s.
Proof.
  intros H. unfold type_of. destruct (List.find _ log) as [e|] eqn:F.
  - apply find_some in F as [F1 F2]. destruct e as [| | | | | | | | |u' ins' bufs' outs']; try discriminate.
    destruct (built_facts _ _ _ _ F1) as (_ & _ & _ & _ & s' & ->). apply Nat.eqb_eq in F2.
    pose proof (built_same _ _ _ _ _ _ _ _ F1 H F2) as X. injection X as _ -> _ _. reflexivity.
  - pose proof (find_none _ _ F _ H) as X. cbn in X. rewrite Nat.eqb_refl in X. discriminate.
Qed.

Lemma suited id o : In (id, o) (d_ops d) -> suits g o (type_of id).
Proof.
  intros H. destruct (op_at _ _ H) as (u & s & bufs & outs & A & <- & <-). rewrite (type_eq _ _ _ _ A).
  destruct (built_facts _ _ _ _ A) as (_ & Hin & Sh & De & _). pose proof (proj1 Pl _ _ Hin) as P. remember [(None, s)] as ins eqn:Ei.
  destruct Sh; try contradiction; injection Ei as ->; cbn [suits]; eauto.
  exists (output_types outs). split; [assumption|]. unfold output_types. rewrite map_length, <- (map_length fst outs), De. cbn. apply map_length.
Qed.

(** Slots *)
Lemma no_scope u a b c e : ~ In (LScope u a b c e) log.
Proof.
  intros H. destruct (final_entries _ _ _ _ _ _ fin _ H) as (_ & H2 & _). destruct (built_facts _ _ _ _ H2) as (_ & _ & _ & _ & s & X). discriminate.
Qed.

Lemma slot_named id s : In (LSlot (RNamed [] None id) s) log -> exists u bufs outs, In (LBuilt u [(None, s)] bufs outs) log /\ u_id u = id.
Proof.
  intros H. pose proof (final_entries _ _ _ _ _ _ fin _ H) as S. cbn [entry_ok] in S. remember (RNamed [] None id) as r.
  destruct S as [u ins bufs outs s X Y|u ins bufs outs x s X Y|u a b c e s X Y| | | | | ]; try discriminate.
  - injection Heqr as _ E. destruct (built_facts _ _ _ _ X) as (_ & _ & _ & _ & s' & ->). destruct Y as [Y|[]]. injection Y as ->. eauto.
  - destruct (no_scope _ _ _ _ _ X).
Qed.

Lemma slot_space a x s : ~ In (LSlot (RNamed [] (Some a) x) s) log.
Proof.
  intros H. pose proof (final_entries _ _ _ _ _ _ fin _ H) as S. cbn [entry_ok] in S. remember (RNamed [] (Some a) x) as r.
  destruct S as [u ins bufs outs s X Y|u ins bufs outs y s X Y|u b c e h s X Y| | | | | ]; try discriminate.
  destruct (built_facts _ _ _ _ X) as (_ & _ & _ & _ & s' & ->). destruct Y as [Y|[]]. discriminate.
Qed.

Lemma slot_end s : In (LSlot (RTerminate []) s) log -> s_ty s = p.
Proof.
  intros H. pose proof (final_entries _ _ _ _ _ _ fin _ H) as S. cbn [entry_ok] in S. remember (RTerminate []) as r.
  destruct S; try discriminate; [|assumption]. injection Heqr as E. destruct (u_ns u); discriminate.
Qed.

(** Kinds *)
Section Kinds.
Variable m : meaning.
Notation f := (workflow_of m log).

Lemma nodes_birth e n k : In (n, k) (entry_nodes m log e) -> In n (birth e) /\ entry_nodes m log e = [(n, k)].
Proof.
  destruct e as [r o|r o|r o|r o|o s|c i ok er|u a b c e|r s o|r s|u ins bufs outs]; cbn [entry_nodes birth]; try (intros []; fail).
  - destruct (connected log o); [intros []|]. intros [[= <- <-]|[]]. split; [left|]; reflexivity.
  - destruct (connected log o); [intros []|]. intros [[= <- <-]|[]]. split; [left|]; reflexivity.
  - destruct c, er; try (intros []; fail); intros [[= <- <-]|[]]; (split; [left|]; reflexivity).
  - destruct r as [| [|] | | [|] |]; try (intros []; fail); intros [[= <- <-]|[]]; (split; [left|]; reflexivity).
  - destruct ins as [|[[x|] s] [|y ins]]; try (intros []; fail). cbn [map snd].
    destruct (u_op u); try (intros []; fail);
      repeat match goal with |- context [match ?l with [] => _ | _ :: _ => _ end] => destruct l; try (intros []; fail) end;
      intros [[= <- <-]|[]]; (split; [left|]; reflexivity).
Qed.

Lemma find_all (l : list (nat * okind)) n k : (forall k', In (n, k') l -> k' = k) -> In (n, k) l -> find n l = Some k.
Proof.
  induction l as [|[n' k'] l IH]; intros U H; [destruct H|]. cbn [find]. destruct (Nat.eqb_spec n n') as [->|N].
  - f_equal. apply U. left. reflexivity.
  - destruct H as [[= -> ->]|H]; [contradiction|]. apply IH; [|exact H]. intros k0 K. apply U. right. exact K.
Qed.

Lemma find_in (l : list (nat * okind)) n k : find n l = Some k -> In (n, k) l.
Proof.
  induction l as [|[n' k'] l IH]; cbn [find]; [discriminate|]. destruct (Nat.eqb_spec n n') as [->|N]; [intros [= ->]; left; reflexivity|right; auto].
Qed.

Lemma kind_of e n k : In e log -> In (n, k) (entry_nodes m log e) -> f_kind f n = Some k.
Proof.
  intros H X. cbn [workflow_of f_kind]. apply find_all; [|apply in_flat_map; eauto].
  intros k' X'. apply in_flat_map in X' as (e' & H' & X'). destruct (nodes_birth _ _ _ X) as [Y E], (nodes_birth _ _ _ X') as [Y' E'].
  pose proof (birth_same _ _ _ H H' Y Y'). subst e'. rewrite E in X'. destruct X' as [[= <-]|[]]. reflexivity.
Qed.

Lemma of_kind n k : f_kind f n = Some k -> exists e, In e log /\ In (n, k) (entry_nodes m log e).
Proof. cbn [workflow_of f_kind]. intros H. apply find_in in H. apply in_flat_map in H. exact H. Qed.

Lemma where_directed t : directed d [] t = named [] (where_ d t).
Proof. destruct t as [t|]; [reflexivity|]. cbn [directed where_]. destruct (d_implicit d); reflexivity. Qed.

Definition ordinary (k : okind) : Prop :=
  match k with
  | OMap _ _ | ExecModel.OUnzip _ | OBranch _ _ _ => True
  | OForkClone ts => ts <> []
  | _ => False
  end.

Lemma in_combine_map {X Y Z} (F : X -> Y) l (vs : list Z) y x : In (y, x) (combine (map F l) vs) <-> exists a, In (a, x) (combine l vs) /\ y = F a.
Proof.
  revert vs. induction l as [|a l IH]; intros [|z vs]; cbn [map combine In]; [split; [intros []|intros (b & [] & _)]..|].
  rewrite IH. split.
  - intros [[= <- <-]|(b & H & ->)]; [exists a|exists b]; auto.
  - intros (b & [[= <- <-]|H] & ->); [left; reflexivity|right; eauto].
Qed.

Lemma combine_both {X Y Z} (F : X -> Y) (G : X -> Z) l : combine (map F l) (map G l) = map (fun a => (F a, G a)) l.
Proof. induction l; cbn [map combine]; [reflexivity|]. f_equal. assumption. Qed.

Lemma op_step u s bufs outs : In (LBuilt u [(None, s)] bufs outs) log -> exists k, f_kind f (s_id s) = Some k /\ ordinary k /\
  (forall t, In t (targets_of k) -> exists t' o, In (t', o) outs /\ t = dest log o) /\
  (forall w ms dr n x, reacts k w = Some (Sends ms dr) -> In (n, x) ms ->
     exists t o, In (t, o) outs /\ n = dest log o /\ In (t, o_ty o, x) (sends g m type_of (u_id u) (u_op u) w)) /\
  (forall w t ty x, In (t, ty, x) (sends g m type_of (u_id u) (u_op u) w) ->
     exists ms dr o, reacts k w = Some (Sends ms dr) /\ In (t, o) outs /\ o_ty o = ty /\ In (dest log o, x) ms) /\
  (forall w, reacts k w = Some Breaks <-> foreign (u_op u) w).
Proof.
  intros H. destruct (built_facts _ _ _ _ H) as (_ & Hin & Sh & De & _). pose proof (proj1 Pl _ _ Hin) as P.
  pose proof (type_eq _ _ _ _ H) as Ty. pose proof (fun n k => kind_of _ n k H) as K. cbn [entry_nodes] in K.
  remember [(None, s)] as ins eqn:Ei.
  destruct Sh as [b next streams s' rsp have outs tys N1 N2 N3|nexts s' outs N1 N2|nexts s' outs N1|ok er s' outs a b N1 N2| | |next er s' outs N1 N2| | | | | | | ];
    try contradiction; injection Ei as ->; subst; cbn [declares sends foreign] in *.
  - cbn in De. destruct outs as [|[t o] [|]]; try discriminate. injection De as ->. injection N2 as Er _. cbn [snd map] in *.
    exists (OMap (m_node m b) (dest log o)). split; [apply K; left; reflexivity|]. split; [exact I|]. rewrite N1. split; [|split; [|split]].
    + intros t [<-|[]]. exists (Some next), o. split; [left|]; reflexivity.
    + intros w ms dr n x [= <- <-] [[= <- <-]|[]]. exists (Some next), o. split; [left; reflexivity|]. split; [reflexivity|]. left. rewrite Er. reflexivity.
    + intros w t ty x [[= <- <- <-]|[]]. exists [(dest log o, m_node m b w)], false, o. split; [reflexivity|]. split; [left; reflexivity|]. split; [exact Er|left; reflexivity].
    + intros w. cbn. split; [discriminate|intros []].
  - exists (OForkClone (map (fun x => dest log (snd x)) outs)). split; [apply K; left; reflexivity|]. split.
    { cbn. destruct outs; [|discriminate]. destruct nexts; [contradiction|discriminate]. }
    rewrite Ty. split; [|split; [|split]].
    + cbn. intros t X. apply in_map_iff in X as ([t' o] & <- & X). exists t', o. auto.
    + intros w ms dr n x [= <- <-] X. apply in_map_iff in X as (n' & [= -> ->] & X). apply in_map_iff in X as ([t' o] & <- & X).
      exists t', o. split; [exact X|]. split; [reflexivity|]. rewrite (N2 _ _ X).
      assert (Y : In t' (map Some nexts)) by (rewrite <- De; apply in_map_iff; exists (t', o); auto).
      apply in_map_iff in Y as (t & <- & Y). apply in_map_iff. exists t. auto.
    + intros w t ty x X. apply in_map_iff in X as (t' & [= <- <- <-] & X).
      assert (Y : In (Some t') (map fst outs)) by (rewrite De; apply in_map; exact X).
      apply in_map_iff in Y as ([t o] & Et & Y). cbn in Et. subst t. exists (map (fun t => (t, w)) (map (fun x => dest log (snd x)) outs)), false, o.
      split; [reflexivity|]. split; [exact Y|]. split; [exact (N2 _ _ Y)|]. rewrite map_map. apply in_map_iff. exists (Some t', o). auto.
    + intros w. cbn. split; [discriminate|intros []].
  - exists (ExecModel.OUnzip (map (fun x => dest log (snd x)) outs)). split; [apply K; left; reflexivity|]. split; [exact I|].
    rewrite Ty, N1. assert (Ln : length nexts = length outs) by (rewrite <- (map_length Some nexts), <- De, map_length; reflexivity).
    assert (Cb : combine (map Some nexts) (output_types outs) = map (fun a => (fst a, o_ty (snd a))) outs).
    { rewrite <- De. unfold output_types. apply combine_both. }
    split; [|split; [|split]].
    + cbn. intros t X. apply in_map_iff in X as ([t' o] & <- & X). exists t', o. auto.
    + intros w ms dr n x R X. cbn [reacts] in R. rewrite map_length in R. destruct w; try discriminate R. rewrite <- Ln in R.
      destruct (length l =? length nexts); [|discriminate]. injection R as <- <-.
      apply in_combine_map in X as ([t o] & X & ->). exists t, o. split; [exact (in_combine_l _ _ _ _ X)|]. split; [reflexivity|].
      rewrite Cb. apply in_combine_map. exists (t, o). auto.
    + intros w t ty x X. cbn [reacts]. destruct w; try contradiction. rewrite map_length, <- Ln. destruct (length l =? length nexts); [|contradiction].
      rewrite Cb in X. apply in_combine_map in X as ([t' o] & X & [= -> ->]).
      eexists _, _, o. split; [reflexivity|]. split; [exact (in_combine_l _ _ _ _ X)|]. split; [reflexivity|].
      apply in_combine_map. exists (t', o). auto.
    + intros w. cbn [reacts]. rewrite map_length, <- Ln. destruct w; try (split; [intros _ vs E; discriminate|reflexivity]).
      destruct (Nat.eqb_spec (length l) (length nexts)) as [E|E]; (split; [try discriminate|]).
      * intros X. destruct (X _ eq_refl E).
      * intros _ vs [= <-]. exact E.
      * reflexivity.
  - destruct outs as [|[t1 o1] [|[t2 o2] [|]]]; try discriminate. injection De as -> ->. injection N2 as E1 E2. cbn [snd map] in *.
    exists (OBranch branch_result (dest log o1) (dest log o2)). split; [apply K; left; reflexivity|]. split; [exact I|]. rewrite Ty, N1. split; [|split; [|split]].
    + intros t [<-|[<-|[]]]; eexists _, _; (split; [|reflexivity]); [left; reflexivity|right; left; reflexivity].
    + intros w ms dr n x R X. cbn [reacts] in R. destruct w; try discriminate R; injection R as <- <-; destruct X as [[= <- <-]|[]].
      * exists (Some ok), o1. split; [left; reflexivity|]. split; [reflexivity|]. left. rewrite E1. reflexivity.
      * exists (Some er), o2. split; [right; left; reflexivity|]. split; [reflexivity|]. left. rewrite E2. reflexivity.
    + intros w t ty x X. destruct w; try contradiction; destruct X as [[= <- <- <-]|[]]; cbn [reacts branch_result].
      * eexists _, _, o1. split; [reflexivity|]. split; [left; reflexivity|]. split; [exact E1|left; reflexivity].
      * eexists _, _, o2. split; [reflexivity|]. split; [right; left; reflexivity|]. split; [exact E2|left; reflexivity].
    + intros w. cbn [reacts]. destruct w; cbn; (split; [try discriminate|try reflexivity]).
      all: try (intros _; split; intros x; discriminate).
      * intros [X _]. destruct (X _ eq_refl).
      * intros [_ X]. destruct (X _ eq_refl).
  - destruct outs as [|[t1 o1] [|[t2 o2] [|]]]; try discriminate. injection De as -> ->. injection N2 as E1 E2. cbn [snd map] in *.
    exists (OBranch (choice (m_cel m (u_id u))) (dest log o1) (dest log o2)). split; [apply K; left; reflexivity|]. split; [exact I|]. split; [|split; [|split]].
    + intros t [<-|[<-|[]]]; eexists _, _; (split; [|reflexivity]); [left; reflexivity|right; left; reflexivity].
    + intros w ms dr n x R X. cbn [reacts choice] in R. destruct (m_cel m (u_id u) w); injection R as <- <-; destruct X as [[= <- <-]|[]].
      * exists (Some next), o1. split; [left; reflexivity|]. split; [reflexivity|]. left. rewrite E1. reflexivity.
      * exists er, o2. split; [right; left; reflexivity|]. split; [reflexivity|]. left. rewrite E2. reflexivity.
    + intros w t ty x X. cbn [reacts choice]. destruct (m_cel m (u_id u) w); destruct X as [[= <- <- <-]|[]].
      * eexists _, _, o1. split; [reflexivity|]. split; [left; reflexivity|]. split; [exact E1|left; reflexivity].
      * eexists _, _, o2. split; [reflexivity|]. split; [right; left; reflexivity|]. split; [exact E2|left; reflexivity].
    + intros w. cbn [reacts choice]. destruct (m_cel m (u_id u) w); cbn; (split; [discriminate|intros []]).
Qed.

(** What is where *)
Hypothesis Un : forall w, exists j, m_ser m TUnit w = inl j.

Section Request.
Variable v : val.
Notation comes := (comes d g m q p type_of v).

Inductive here : nat -> val -> Prop :=
| h_op u s bufs outs w : In (LBuilt u [(None, s)] bufs outs) log -> comes (AtOp (u_id u)) w -> here (s_id s) w
| h_conv k i ok er t s w : In (LConv k i ok er) log -> comes (Sent t (s_ty i)) w -> In (LSlot (directed d [] t) s) log ->
    connected log ok = Some s -> chosen g (directed d [] t) k (s_ty i) -> o_ty ok = s_ty s ->
    s_ty i <> s_ty s \/ directed d [] t = RCancel [] -> here (s_id i) w
| h_term s w : In (LSlot (RTerminate []) s) log -> comes AtTerminate w -> here (s_id s) w
| h_cancel s w w' : In (LSlot (RCancel []) s) log -> comes AtCancel w' -> here (s_id s) w
| h_loose r o w : source log r o -> connected log o = None -> here (o_id o) w.

Lemma slot_cancel_type s : In (LSlot (RCancel []) s) log -> In (s_ty s) [TUnit; TJson; TString].
Proof.
  intros H. pose proof (final_entries _ _ _ _ _ _ fin _ H) as S. cbn [entry_ok] in S. remember (RCancel []) as r.
  destruct S; try discriminate; assumption.
Qed.

Lemma slot_here t ty s w w' : comes (Sent t ty) w -> In (LSlot (directed d [] t) s) log ->
  (directed d [] t <> RCancel [] -> convert m ty (s_ty s) w = Some (inl w')) ->
  (directed d [] t = RCancel [] -> unreadable g m ty w = None) -> here (s_id s) w'.
Proof.
  rewrite where_directed. intros C S N1 N2. destruct (where_ d t) as [id|[]|a b] eqn:W; cbn [named] in *.
  - destruct (slot_named _ _ S) as (u & bufs & outs & X & <-). eapply h_op; [exact X|].
    eapply C_arrives; [exact C|exact W|]. rewrite (type_eq _ _ _ _ X). apply N1. discriminate.
  - apply h_term; [exact S|]. eapply C_response; [exact C|exact W|]. rewrite <- (slot_end _ S). apply N1. discriminate.
  - pose proof (proj2 (proj2 (C59_targets_have_one_input _ _ _ _ _ _ _ _ _ _ B S S))) as Y. inversion Y.
  - eapply h_cancel; [exact S|]. eapply C_cancel; [exact C|exact W|auto].
  - destruct (slot_space _ _ _ S).
Qed.

Lemma slot_err t ty s w e : comes (Sent t ty) w -> In (LSlot (directed d [] t) s) log ->
  (directed d [] t <> RCancel [] -> convert m ty (s_ty s) w = Some (inr e)) ->
  (directed d [] t = RCancel [] -> unreadable g m ty w = Some e) -> comes (Sent None TString) e.
Proof.
  rewrite where_directed. intros C S N1 N2. destruct (where_ d t) as [id|[]|a b] eqn:W; cbn [named] in *.
  - destruct (slot_named _ _ S) as (u & bufs & outs & X & <-).
    eapply C_refused; [exact C|exact W|]. rewrite (type_eq _ _ _ _ X). apply N1. discriminate.
  - eapply C_no_response; [exact C|exact W|]. rewrite <- (slot_end _ S). apply N1. discriminate.
  - pose proof (proj2 (proj2 (C59_targets_have_one_input _ _ _ _ _ _ _ _ _ _ B S S))) as Y. inversion Y.
  - eapply C_no_cancel; [exact C|exact W|auto].
  - destruct (slot_space _ _ _ S).
Qed.

Lemma readable ty w : In ty [TUnit; TJson; TString] -> unreadable g m ty w = None.
Proof.
  intros H. unfold unreadable. destruct H as [<-|[<-|[<-|[]]]]; cbn [Nat.eqb TUnit TJson TString orb]; try reflexivity.
  destruct (r_string g TUnit); [reflexivity|].
  destruct (r_ser g TUnit); [|reflexivity]. destruct (Un w) as [j ->]. reflexivity.
Qed.

Lemma route_here t o w : src t o -> comes (Sent t (o_ty o)) w -> here (dest log o) w.
Proof.
  intros S C. destruct (src_way _ _ S) as [E N|s A N Ty|s k i ok er A N Lc No Ch T1 T2 T3]; unfold dest; rewrite N.
  - eapply h_loose; [apply src_source; exact S|exact N].
  - eapply slot_here; [exact C|exact A| |].
    + intros _. unfold convert. rewrite Ty, Nat.eqb_refl. reflexivity.
    + intros E. apply readable. rewrite Ty. apply slot_cancel_type. rewrite <- E. exact A.
  - rewrite T1 in C. eapply h_conv; eauto. rewrite <- T1. exact T3.
Qed.

(** A conversion *)
Lemma conv_step k i ok er t s w : In (LConv k i ok er) log -> In (LSlot (directed d [] t) s) log ->
  connected log ok = Some s -> chosen g (directed d [] t) k (s_ty i) -> o_ty ok = s_ty s ->
  s_ty i <> s_ty s \/ directed d [] t = RCancel [] ->
  exists kd ms dr, f_kind f (s_id i) = Some kd /\ ordinary kd /\ reacts kd w = Some (Sends ms dr) /\
    ((exists w', ms = [(s_id s, w')] /\ (directed d [] t <> RCancel [] -> convert m (s_ty i) (s_ty s) w = Some (inl w')) /\
        (directed d [] t = RCancel [] -> unreadable g m (s_ty i) w = None)) \/
     (exists e er', er = Some er' /\ o_ty er' = TString /\ ms = [(dest log er', e)] /\
        (directed d [] t <> RCancel [] -> convert m (s_ty i) (s_ty s) w = Some (inr e)) /\
        (directed d [] t = RCancel [] -> unreadable g m (s_ty i) w = Some e))).
Proof.
  intros H S N Ch T1 T2. pose proof (proj2 (C59_connections_are_typed _ _ _ _ _ _ B) _ _ _ _ H) as Al.
  pose proof (proj1 (builds_convs _ _ _ _ _ _ B _ _ _ _ H)) as Te. pose proof (fun n k => kind_of _ n k H) as K. cbn [entry_nodes] in K.
  assert (Dk : dest log ok = s_id s) by (unfold dest; rewrite N; reflexivity).
  destruct k; cbn [allowed chosen] in *.
  - destruct Al as (A1 & A2 & e & ->). destruct Ch as [Cj Cr].
    assert (Cv : directed d [] t <> RCancel [] -> convert m (s_ty i) (s_ty s) w = Some (m_ser m (s_ty i) w)).
    { intros Nc. destruct T2 as [T2|T2]; [|contradiction]. unfold convert. apply Nat.eqb_neq in T2. rewrite T2, <- T1, A2, Nat.eqb_refl. reflexivity. }
    assert (Ur : directed d [] t = RCancel [] -> unreadable g m (s_ty i) w = match m_ser m (s_ty i) w with inl _ => None | inr e => Some e end).
    { intros Ec. destruct (Cr Ec) as [C1 C2]. unfold unreadable. apply Nat.eqb_neq in Cj, C2. rewrite Cj, C2, C1, A1. reflexivity. }
    destruct (m_ser m (s_ty i) w) as [a|b] eqn:Em.
    + eexists _, _, _. split; [apply K; left; reflexivity|]. split; [exact I|]. cbn [reacts choice]. rewrite Em, Dk. split; [reflexivity|]. left. exists a. auto.
    + eexists _, _, _. split; [apply K; left; reflexivity|]. split; [exact I|]. cbn [reacts choice]. rewrite Em, Dk. split; [reflexivity|]. right. exists b, e. auto 6.
  - destruct Al as (A1 & A2 & e & ->).
    assert (Cv : convert m (s_ty i) (s_ty s) w = Some (m_de m (o_ty ok) w)).
    { destruct T2 as [T2|T2]; [|contradiction]. unfold convert. rewrite A2 in *. rewrite T1. pose proof T2 as T2'. apply Nat.eqb_neq in T2. rewrite T2.
      destruct (Nat.eqb_spec (s_ty s) TJson) as [X|_]; [congruence|]. reflexivity. }
    destruct (m_de m (o_ty ok) w) as [a|b] eqn:Em.
    + eexists _, _, _. split; [apply K; left; reflexivity|]. split; [exact I|]. cbn [reacts choice]. rewrite Em, Dk. split; [reflexivity|]. left.
      exists a. split; [reflexivity|]. split; [auto|intros X; contradiction].
    + eexists _, _, _. split; [apply K; left; reflexivity|]. split; [exact I|]. cbn [reacts choice]. rewrite Em, Dk. split; [reflexivity|]. right.
      exists b, e. split; [reflexivity|]. split; [apply Te; reflexivity|]. split; [reflexivity|]. split; [auto|intros X; contradiction].
  - destruct Ch as [Cr Cs]. eexists _, _, _. split; [apply K; left; reflexivity|]. split; [exact I|]. split; [reflexivity|]. left. rewrite Dk.
    eexists. split; [reflexivity|]. split; [intros X; contradiction|]. intros _. unfold unreadable. rewrite Cs, orb_true_r. reflexivity.
  - destruct Ch as (Cr & C1 & C2 & C3 & C4). eexists _, _, _. split; [apply K; left; reflexivity|]. split; [exact I|]. split; [reflexivity|]. left. rewrite Dk.
    eexists. split; [reflexivity|]. split; [intros X; contradiction|]. intros _. unfold unreadable. rewrite C1, C2. destruct (_ || _); reflexivity.
Qed.

Lemma entry_src : exists o, src (Some (d_start d)) o /\ o_ty o = q /\ f_entry f = dest log o.
Proof.
  destruct (builds_births g d q p log pl_plain B) as (_ & o & t & s1 & s2 & s3 & I1 & E1 & E2 & _). exists o.
  assert (Hin : In (LPut (in_ns [] (to_ref (d_start d))) o) log) by (apply I1; left; reflexivity).
  split; [|split; [exact E2|]].
  - left. replace (directed d [] (Some (d_start d))) with (in_ns [] (to_ref (d_start d))); [exact Hin|].
    cbn [directed]. destruct (d_start d) as [|[]|]; reflexivity.
  - cbn [workflow_of f_entry]. unfold entry_of. destruct (List.find _ log) as [e|] eqn:F.
    + apply find_some in F as [F1 F2]. destruct e as [r o'| | | | | | | | |]; try discriminate. apply Nat.eqb_eq in F2.
      pose proof (birth_same _ _ 1 F1 Hin (or_introl F2) (or_introl E1)) as X. injection X as _ ->. reflexivity.
    + pose proof (find_none _ _ F _ Hin) as X. cbn in X. rewrite E1 in X. discriminate.
Qed.

Lemma terminal_slot : exists s, In (LSlot (RTerminate []) s) log /\ f_terminal f = s_id s.
Proof.
  destruct (builds_births g d q p log pl_plain B) as (_ & o & t & s1 & s2 & s3 & I1 & _). 
  assert (Hin : In (LSlot (RTerminate []) t) log) by (apply I1; right; left; reflexivity).
  cbn [workflow_of f_terminal]. unfold terminal_of. destruct (List.find _ log) as [e|] eqn:F.
  - apply find_some in F as [F1 F2]. destruct e as [| | | | | | | |[| [|]| | |] s|]; try discriminate. eauto.
  - pose proof (find_none _ _ F _ Hin) as X. discriminate.
Qed.

Lemma kind_sends k n w ms dr : f_kind f n = Some k -> here n w -> reacts k w = Some (Sends ms dr) ->
  forall t u, In (t, u) ms -> here t u.
Proof.
  intros K H R t u X. destruct H as [u0 s bufs outs w A C|c i ok er t' s w A C S N Ch T1 T2|s w A C|s w w' A C|r o w A N].
  - destruct (op_step _ _ _ _ A) as (k' & K' & _ & _ & St & _). rewrite K in K'. injection K' as <-.
    destruct (St _ _ _ _ _ R X) as (t' & o & Y1 & -> & Y2). eapply route_here; [eapply out_src; eassumption|].
    eapply C_sends; [exact C|exact (proj1 (proj2 (built_facts _ _ _ _ A)))|exact Y2].
  - destruct (conv_step _ _ _ _ _ _ w A S N Ch T1 T2) as (kd & ms' & dr' & K' & _ & R' & Z). rewrite K in K'. injection K' as <-.
    rewrite R in R'. injection R' as -> ->. destruct Z as [(x & -> & Z1 & Z2)|(e & er' & -> & Te & -> & Z1 & Z2)]; destruct X as [[= <- <-]|[]].
    + eapply slot_here; eauto.
    + eapply route_here; [eapply err_src; exact A|]. rewrite Te. eapply slot_err; eauto.
  - rewrite (kind_of _ _ OTerminate A) in K; [|left; reflexivity]. injection K as <-. discriminate.
  - rewrite (kind_of _ _ OCancel A) in K; [|left; reflexivity]. injection K as <-. discriminate.
  - assert (Y : exists e, In e log /\ In (o_id o, OUnused) (entry_nodes m log e)).
    { destruct A as [A|A]; (eexists; split; [exact A|]); cbn [entry_nodes]; rewrite N; left; reflexivity. }
    destruct Y as (e & Y1 & Y2). rewrite (kind_of _ _ _ Y1 Y2) in K. injection K as <-. discriminate.
Qed.

Lemma no_kind n k : f_kind f n = Some k -> ordinary k \/ k = OTerminate \/ k = OCancel \/ k = OUnused.
Proof.
  intros K. destruct (of_kind _ _ K) as (e & H & X). destruct e as [r o|r o|r o|r o|o s|c i ok er|u a b c e|r s o|r s|u ins bufs outs]; try (destruct X; fail).
  - cbn [entry_nodes] in X. destruct (connected log o); [destruct X|]. destruct X as [[= <- <-]|[]]. auto.
  - cbn [entry_nodes] in X. destruct (connected log o); [destruct X|]. destruct X as [[= <- <-]|[]]. auto.
  - cbn [entry_nodes] in X. destruct c, er; try (destruct X; fail); destruct X as [[= <- <-]|[]]; left; exact I.
  - cbn [entry_nodes] in X. destruct r as [| [|] | | [|] |]; try (destruct X; fail); destruct X as [[= <- <-]|[]]; auto.
  - destruct (built_facts _ _ _ _ H) as (_ & _ & _ & _ & s & ->). destruct (op_step _ _ _ _ H) as (k' & K' & O & _).
    pose proof (proj1 (nodes_birth _ _ _ X)) as Y. cbn in Y. destruct Y as [<-|[]]. rewrite K in K'. injection K' as <-. auto.
Qed.

Lemma sound n w : ExecSpec.occurs f (f_entry f) v n w -> here n w.
Proof.
  induction 1 as [|n k w ms dr t u _ IH K R X|n min max t l K _ _ _].
  - destruct entry_src as (o & S & E & ->). apply (route_here _ _ _ S). rewrite E. apply C_request.
  - eapply kind_sends; eauto.
  - destruct (no_kind _ _ K) as [[]|[?|[?|?]]]; discriminate.
Qed.

(** Nothing is lost *)
Definition found (x : spot) (w : val) : Prop :=
  match x with
  | Sent t ty => exists o, src t o /\ o_ty o = ty /\ ExecSpec.occurs f (f_entry f) v (dest log o) w
  | AtOp id => exists u s bufs outs, In (LBuilt u [(None, s)] bufs outs) log /\ u_id u = id /\ ExecSpec.occurs f (f_entry f) v (s_id s) w
  | AtTerminate => ExecSpec.occurs f (f_entry f) v (f_terminal f) w
  | AtCancel => exists s w', In (LSlot (RCancel []) s) log /\ ExecSpec.occurs f (f_entry f) v (s_id s) w'
  end.

Lemma goes_on t o w : src t o -> ExecSpec.occurs f (f_entry f) v (dest log o) w -> directed d [] t <> RDispose ->
  exists s, In (LSlot (directed d [] t) s) log /\
    (directed d [] t <> RCancel [] -> forall w', convert m (o_ty o) (s_ty s) w = Some (inl w') -> ExecSpec.occurs f (f_entry f) v (s_id s) w') /\
    (directed d [] t = RCancel [] -> unreadable g m (o_ty o) w = None -> exists w', ExecSpec.occurs f (f_entry f) v (s_id s) w') /\
    (directed d [] t <> RCancel [] -> forall e, convert m (o_ty o) (s_ty s) w = Some (inr e) -> found (Sent None TString) e) /\
    (directed d [] t = RCancel [] -> forall e, unreadable g m (o_ty o) w = Some e -> found (Sent None TString) e).
Proof.
  intros S O N0. destruct (src_way _ _ S) as [E N|s A N Ty|s k i ok er A N Lc No Ch T1 T2 T3]; [contradiction| |]; unfold dest in O; rewrite N in O; exists s; (split; [exact A|]).
  - unfold convert. rewrite Ty, Nat.eqb_refl. split; [intros _ w' [= <-]; exact O|]. split; [eauto|]. split; [discriminate|].
    intros E e U. rewrite readable in U; [discriminate|]. apply slot_cancel_type. rewrite <- E. exact A.
  - rewrite T1 in *. destruct (conv_step _ _ _ _ _ _ w Lc A No Ch T2 T3) as (kd & ms & dr & K & _ & R & Z).
    destruct Z as [(x & -> & Z1 & Z2)|(x & er' & -> & Te & -> & Z1 & Z2)].
    + assert (O' : ExecSpec.occurs f (f_entry f) v (s_id s) x) by (eapply O_sent; [exact O|exact K|exact R|left; reflexivity]).
      split; [intros H w' C; rewrite (Z1 H) in C; injection C as <-; exact O'|]. split; [eauto|].
      split; [intros H e C; rewrite (Z1 H) in C; discriminate|intros H e C; rewrite (Z2 H) in C; discriminate].
    + assert (O' : ExecSpec.occurs f (f_entry f) v (dest log er') x) by (eapply O_sent; [exact O|exact K|exact R|left; reflexivity]).
      assert (F : found (Sent None TString) x) by (exists er'; split; [eapply err_src; exact Lc|auto]).
      split; [intros H e C; rewrite (Z1 H) in C; discriminate|]. split; [intros H C; rewrite (Z2 H) in C; discriminate|].
      split; [intros H e C; rewrite (Z1 H) in C|intros H e C; rewrite (Z2 H) in C]; injection C as <-; exact F.
Qed.

Lemma terminal_is s : In (LSlot (RTerminate []) s) log -> f_terminal f = s_id s.
Proof.
  intros H. destruct terminal_slot as (s' & H' & ->).
  destruct (proj1 (C59_targets_have_one_input _ _ _ _ _ _ _ _ _ _ B H' H) eq_refl) as [->|X]; [reflexivity|discriminate].
Qed.

Lemma complete x w : comes x w -> found x w.
Proof.
  induction 1 as [|t ty id w w' _ IH W C|t ty id w e _ IH W C|t ty w w' _ IH W C|t ty w e _ IH W C|t ty w _ IH W C|t ty w e _ IH W C|id o w t ty w' _ IH Hin X].
  - destruct entry_src as (o & S & E & F). exists o. split; [exact S|]. split; [exact E|]. rewrite <- F. apply O_here.
  - destruct IH as (o & S & <- & O). assert (D := where_directed t). rewrite W in D. cbn [named] in D.
    destruct (goes_on _ _ _ S O) as (s & A & G1 & _); rewrite ?D in *; [discriminate|].
    destruct (slot_named _ _ A) as (u & bufs & outs & Y & <-). rewrite (type_eq _ _ _ _ Y) in C. exists u, s, bufs, outs. split; [exact Y|]. split; [reflexivity|].
    apply G1; [discriminate|exact C].
  - destruct IH as (o & S & <- & O). assert (D := where_directed t). rewrite W in D. cbn [named] in D.
    destruct (goes_on _ _ _ S O) as (s & A & _ & _ & G1 & _); rewrite ?D in *; [discriminate|].
    destruct (slot_named _ _ A) as (u & bufs & outs & Y & <-). rewrite (type_eq _ _ _ _ Y) in C. apply G1; [discriminate|exact C].
  - destruct IH as (o & S & <- & O). assert (D := where_directed t). rewrite W in D. cbn [named] in D.
    destruct (goes_on _ _ _ S O) as (s & A & G1 & _); rewrite ?D in *; [discriminate|].
    cbn [found]. rewrite (terminal_is _ A). rewrite <- (slot_end _ A) in C. apply G1; [discriminate|exact C].
  - destruct IH as (o & S & <- & O). assert (D := where_directed t). rewrite W in D. cbn [named] in D.
    destruct (goes_on _ _ _ S O) as (s & A & _ & _ & G1 & _); rewrite ?D in *; [discriminate|].
    rewrite <- (slot_end _ A) in C. apply G1; [discriminate|exact C].
  - destruct IH as (o & S & <- & O). assert (D := where_directed t). rewrite W in D. cbn [named] in D.
    destruct (goes_on _ _ _ S O) as (s & A & _ & G1 & _); rewrite ?D in *; [discriminate|].
    destruct (G1 eq_refl C) as [w' O']. exists s, w'. auto.
  - destruct IH as (o & S & <- & O). assert (D := where_directed t). rewrite W in D. cbn [named] in D.
    destruct (goes_on _ _ _ S O) as (s & A & _ & _ & _ & G1); rewrite ?D in *; [discriminate|].
    exact (G1 eq_refl _ C).
  - destruct IH as (u & s & bufs & outs & A & <- & O). destruct (op_at _ _ Hin) as (u' & s' & bufs' & outs' & A' & E1 & <-).
    pose proof (built_same _ _ _ _ _ _ _ _ A A' (eq_sym E1)) as Y. injection Y as <- <- <- <-.
    destruct (op_step _ _ _ _ A) as (k & K & _ & _ & _ & St & _). destruct (St _ _ _ _ X) as (ms & dr & o & R & Z1 & Z2 & Z3).
    exists o. split; [eapply out_src; eassumption|]. split; [exact Z2|]. eapply O_sent; eassumption.
Qed.

Lemma here_entry n w : here n w -> exists e, In e log /\ In n (birth e) /\
  match e with
  | LSlot (RTerminate []) _ => comes AtTerminate w
  | LSlot (RCancel []) _ => exists w', comes AtCancel w'
  | LBuilt u _ _ _ => comes (AtOp (u_id u)) w
  | _ => True
  end.
Proof.
  intros [u s bufs outs w0 A C|c i ok er t' s w0 A C S N Ch T1 T2|s w0 A C|s w0 w' A C|r o w0 A N].
  - eexists. split; [exact A|]. cbn. auto.
  - eexists. split; [exact A|]. cbn. auto.
  - eexists. split; [exact A|]. cbn. auto.
  - eexists. split; [exact A|]. cbn. eauto.
  - destruct A as [A|A]; (eexists; split; [exact A|]); cbn; auto.
Qed.

Lemma terminal_iff r : ExecSpec.occurs f (f_entry f) v (f_terminal f) r <-> comes AtTerminate r.
Proof.
  split; [|exact (complete AtTerminate r)]. intros O. apply sound in O. apply here_entry in O as (e & H & X & Y).
  destruct terminal_slot as (s & H' & E). rewrite E in X.
  pose proof (birth_same _ _ _ H H' X (or_introl eq_refl)). subst e. exact Y.
Qed.

Lemma cancel_iff : (exists n w, ExecSpec.occurs f (f_entry f) v n w /\ f_kind f n = Some OCancel) <-> exists w, comes AtCancel w.
Proof.
  split.
  - intros (n & w & O & K). apply sound in O. apply here_entry in O as (e & H & X & Y).
    destruct (of_kind _ _ K) as (e' & H' & Z). destruct (nodes_birth _ _ _ Z) as [Z1 _].
    pose proof (birth_same _ _ _ H H' X Z1). subst e'. clear - Z Y Pl Di B H K.
    destruct e as [r o|r o|r o|r o|o s|c i ok er|u a b c e|r s o|r s|u ins bufs outs]; try (destruct Z; fail).
    + cbn [entry_nodes] in Z. destruct (connected log o); [destruct Z|]. destruct Z as [[= _]|[]].
    + cbn [entry_nodes] in Z. destruct (connected log o); [destruct Z|]. destruct Z as [[= _]|[]].
    + cbn [entry_nodes] in Z. destruct c, er; try (destruct Z; fail); destruct Z as [[= _]|[]].
    + cbn [entry_nodes] in Z. destruct r as [| [|] | | [|] |]; try (destruct Z; fail); destruct Z as [[= _]|[]]. exact Y.
    + destruct (built_facts _ _ _ _ H) as (_ & _ & _ & _ & s & ->). destruct (op_step _ _ _ _ H) as (k' & K' & O & _).
      pose proof (proj1 (nodes_birth _ _ _ Z)) as Y'. cbn in Y'. destruct Y' as [<-|[]]. rewrite K in K'. injection K' as <-. destruct O.
  - intros [w C]. apply complete in C as (s & w' & A & O). exists (s_id s), w'. split; [exact O|]. apply (kind_of _ _ _ A). left. reflexivity.
Qed.

(** What comes to a cancelling node *)
Lemma slot_cancels t s : In (LSlot (directed d [] t) s) log -> f_kind f (s_id s) = Some OCancel -> where_ d t = NBuiltin BCancel.
Proof.
  rewrite where_directed. intros S K. destruct (where_ d t) as [id|[]|a b] eqn:W; cbn [named] in *; try reflexivity; exfalso.
  - destruct (slot_named _ _ S) as (u & bufs & outs & X & _). destruct (op_step _ _ _ _ X) as (k & K' & O & _). rewrite K in K'. injection K' as <-. destruct O.
  - rewrite (kind_of _ _ OTerminate S) in K; [discriminate|left; reflexivity].
  - pose proof (proj2 (proj2 (C59_targets_have_one_input _ _ _ _ _ _ _ _ _ _ B S S))) as Y. inversion Y.
  - destruct (slot_space _ _ _ S).
Qed.

Lemma dest_cancels t o w : src t o -> f_kind f (dest log o) = Some OCancel ->
  where_ d t = NBuiltin BCancel /\ shown g m (o_ty o) w w.
Proof.
  intros S K. destruct (src_way _ _ S) as [E N|s A N Ty|s k i ok er A N Lc No Ch T1 T2 T3]; unfold dest in K; rewrite N in K.
  - exfalso. assert (Y : exists e, In e log /\ In (o_id o, OUnused) (entry_nodes m log e)).
    { destruct S as [S|[_ S]]; (eexists; split; [exact S|]); cbn [entry_nodes]; rewrite N; left; reflexivity. }
    destruct Y as (e & Y1 & Y2). rewrite (kind_of _ _ _ Y1 Y2) in K. discriminate.
  - pose proof (slot_cancels _ _ A K) as W. split; [exact W|]. left. split; [|reflexivity]. rewrite Ty. apply slot_cancel_type.
    rewrite where_directed, W in A. exact A.
  - exfalso. rewrite T1 in T3. destruct (conv_step _ _ _ _ _ _ w Lc A No Ch T2 T3) as (kd & ms & dr & K' & O & _). rewrite K in K'. injection K' as <-. destruct O.
Qed.

Lemma cancel_shows n w' : ExecSpec.occurs f (f_entry f) v n w' -> f_kind f n = Some OCancel ->
  exists t ty w, comes (Sent t ty) w /\ where_ d t = NBuiltin BCancel /\ shown g m ty w w'.
Proof.
  intros O K. destruct O as [|n0 k w ms dr t u O K0 R X|n0 min max t l K0 _ _].
  - destruct entry_src as (o & S & E & F). rewrite F in K. destruct (dest_cancels _ _ v S K) as [W Sh].
    exists (Some (d_start d)), q, v. split; [apply C_request|]. rewrite <- E at 1. auto.
  - apply sound in O. destruct O as [u0 s bufs outs w A C|c i ok er t' s w A C S N Ch T1 T2|s w A C|s w w0 A C|r o w A N].
    + destruct (op_step _ _ _ _ A) as (k' & K' & _ & _ & St & _). rewrite K0 in K'. injection K' as <-.
      destruct (St _ _ _ _ _ R X) as (t' & o & Y1 & -> & Y2).
      destruct (dest_cancels _ _ u (out_src _ _ _ _ _ _ A Y1) K) as [W Sh]. exists t', (o_ty o), u. split; [|auto].
      eapply C_sends; [exact C|exact (proj1 (proj2 (built_facts _ _ _ _ A)))|exact Y2].
    + pose proof (proj2 (C59_connections_are_typed _ _ _ _ _ _ B) _ _ _ _ A) as Al.
      destruct (conv_step _ _ _ _ _ _ w A S N Ch T1 T2) as (kd & ms' & dr' & K' & _ & R' & Z). rewrite K0 in K'. injection K' as <-.
      rewrite R in R'. injection R' as -> ->.
      destruct Z as [(x & -> & Z1 & Z2)|(e & er' & -> & Te & -> & Z1 & Z2)]; destruct X as [[= <- <-]|[]].
      * pose proof (slot_cancels _ _ S K) as W. exists t', (s_ty i), w. split; [exact C|]. split; [exact W|].
        assert (Dc : directed d [] t' = RCancel []) by (rewrite where_directed, W; reflexivity). rewrite Dc in Ch.
        assert (Dk : dest log ok = s_id s) by (unfold dest; rewrite N; reflexivity).
        pose proof (fun n k => kind_of _ n k A) as Kk. cbn [entry_nodes] in Kk. destruct c; cbn [allowed chosen] in *.
        -- destruct Al as (A1 & A2 & e & ->). destruct Ch as [Cj Cr]. destruct (Cr eq_refl) as [C1 C2].
           rewrite (Kk _ _ (or_introl eq_refl)) in K0. injection K0 as <-. cbn [reacts choice] in R.
           right. right. left. repeat split; auto. specialize (Z2 Dc). unfold unreadable in Z2.
           apply Nat.eqb_neq in Cj, C2. rewrite Cj, C2, C1, A1 in Z2. cbn [orb] in Z2.
           destruct (m_ser m (s_ty i) w) as [a|b]; [|discriminate]. injection R as _ <- _. reflexivity.
        -- contradiction.
        -- rewrite (Kk _ _ (or_introl eq_refl)) in K0. injection K0 as <-. cbn [reacts] in R. injection R as _ <- _. right. left. split; [exact (proj2 Ch)|reflexivity].
        -- rewrite (Kk _ _ (or_introl eq_refl)) in K0. injection K0 as <-. cbn [reacts] in R. injection R as _ <- _. right. right. right. tauto.
      * destruct (dest_cancels _ _ e (err_src _ _ _ _ A) K) as [W Sh]. exists None, TString, e. rewrite Te in Sh. split; [|auto].
        eapply slot_err; eauto.
    + rewrite (kind_of _ _ OTerminate A) in K0; [|left; reflexivity]. injection K0 as <-. discriminate.
    + rewrite (kind_of _ _ OCancel A) in K0; [|left; reflexivity]. injection K0 as <-. discriminate.
    + assert (Y : exists e, In e log /\ In (o_id o, OUnused) (entry_nodes m log e)).
      { destruct A as [A|A]; (eexists; split; [exact A|]); cbn [entry_nodes]; rewrite N; left; reflexivity. }
      destruct Y as (e & Y1 & Y2). rewrite (kind_of _ _ _ Y1 Y2) in K0. injection K0 as <-. discriminate.
  - destruct (no_kind _ _ K0) as [[]|[?|[?|?]]]; discriminate.
Qed.

Lemma breaks_iff n : (exists w k, ExecSpec.occurs f (f_entry f) v n w /\ f_kind f n = Some k /\ reacts k w = Some Breaks) ->
  exists id o w, In (id, o) (d_ops d) /\ comes (AtOp id) w /\ foreign o w.
Proof.
  intros (w & k & O & K & R). apply sound in O. destruct O as [u s bufs outs w0 A C|c i ok er t' s w0 A C S N Ch T1 T2|s w0 A C|s w0 w' A C|r o w0 A N].
  - destruct (op_step _ _ _ _ A) as (k' & K' & _ & _ & _ & _ & Br). rewrite K in K'. injection K' as <-.
    exists (u_id u), (u_op u), w0. split; [exact (proj1 (proj2 (built_facts _ _ _ _ A)))|]. split; [exact C|]. apply Br. exact R.
  - destruct (conv_step _ _ _ _ _ _ w0 A S N Ch T1 T2) as (kd & ms' & dr' & K' & _ & R' & _). congruence.
  - rewrite (kind_of _ _ OTerminate A) in K; [|left; reflexivity]. injection K as <-. discriminate.
  - rewrite (kind_of _ _ OCancel A) in K; [|left; reflexivity]. injection K as <-. discriminate.
  - assert (Y : exists e, In e log /\ In (o_id o, OUnused) (entry_nodes m log e)).
    { destruct A as [A|A]; (eexists; split; [exact A|]); cbn [entry_nodes]; rewrite N; left; reflexivity. }
    destruct Y as (e & Y1 & Y2). rewrite (kind_of _ _ _ Y1 Y2) in K. injection K as <-. discriminate.
Qed.

Lemma all_settled t ty w : comes (Sent t ty) w -> settled d m p type_of t ty w.
Proof.
  intros C. apply complete in C as (o & S & <- & _). unfold settled. pose proof (where_directed t) as D.
  assert (Ty : forall s, In (LSlot (directed d [] t) s) log -> directed d [] t <> RCancel [] -> directed d [] t <> RDispose -> convert m (o_ty o) (s_ty s) w <> None).
  { intros s' A' N1 N2. destruct (src_way _ _ S) as [E N|s A N Ty|s k i ok er A N Lc No Ch T1 T2 T3]; [contradiction| |];
      (destruct (proj1 (C59_targets_have_one_input _ _ _ _ _ _ _ _ _ _ B A A') eq_refl) as [<-|X]; [|contradiction]).
    - unfold convert. rewrite Ty, Nat.eqb_refl. discriminate.
    - rewrite T1 in *. destruct (conv_step _ _ _ _ _ _ w Lc A No Ch T2 T3) as (_ & _ & _ & _ & _ & _ & [(x & _ & Z & _)|(x & er' & _ & _ & _ & Z & _)]); rewrite (Z N1); discriminate. }
  assert (Sl : directed d [] t <> RDispose -> exists s, In (LSlot (directed d [] t) s) log).
  { intros N1. destruct (src_way _ _ S); [contradiction|eauto|eauto]. }
  destruct (where_ d t) as [id|[]|a b]; cbn [named] in D; rewrite D in *.
  - destruct Sl as [s A]; [discriminate|]. destruct (slot_named _ _ A) as (u & bufs & outs & X & <-). split.
    + apply in_map_iff. exists (u_id u, u_op u). split; [reflexivity|exact (proj1 (proj2 (built_facts _ _ _ _ X)))].
    + rewrite (type_eq _ _ _ _ X). apply Ty; [exact A|discriminate|discriminate].
  - destruct Sl as [s A]; [discriminate|]. rewrite <- (slot_end _ A). apply Ty; [exact A|discriminate|discriminate].
  - exact I.
  - exact I.
  - destruct Sl as [s A]; [discriminate|]. destruct (slot_space _ _ _ A).
Qed.

End Request.

(** Ends *)
Notation ending := (ending d g m p type_of).

Definition finite_at (x : spot * val) : Prop :=
  match fst x with
  | Sent t ty => forall o, src t o -> o_ty o = ty -> exists l, yields f (dest log o) (snd x) l
  | AtOp id => forall u s bufs outs, In (LBuilt u [(None, s)] bufs outs) log -> u_id u = id -> exists l, yields f (s_id s) (snd x) l
  | AtTerminate => exists l, yields f (f_terminal f) (snd x) l
  | AtCancel => True
  end.

Lemma cancel_yields s w : In (LSlot (RCancel []) s) log -> exists l, yields f (s_id s) w l.
Proof. intros A. exists [RCancelled]. eapply Y_cancels; [apply (kind_of _ _ OCancel A); left; reflexivity|reflexivity]. Qed.

Lemma ending_yields x : ending x -> finite_at x.
Proof.
  induction 1 as [[x w] _ IH]. destruct x as [t ty|id| |]; cbn [finite_at fst snd].
  - intros o S <-.
    assert (D : forall s w', In (LSlot (directed d [] t) s) log -> (directed d [] t <> RCancel [] -> convert m (o_ty o) (s_ty s) w = Some (inl w')) ->
      exists l, yields f (s_id s) w' l).
    { intros s w' A C. pose proof (where_directed t) as E. destruct (where_ d t) as [id|[]|a b] eqn:W; cbn [named] in E; rewrite E in *.
      - destruct (slot_named _ _ A) as (u & bufs & outs & X & Eu). apply (IH (AtOp id, w')) with (u := u) (bufs := bufs) (outs := outs); [|exact X|exact Eu].
        eapply S_arrives; [exact W|]. rewrite <- Eu, (type_eq _ _ _ _ X). apply C. discriminate.
      - rewrite <- (terminal_is _ A). eexists. apply Y_out.
      - pose proof (proj2 (proj2 (C59_targets_have_one_input _ _ _ _ _ _ _ _ _ _ B A A))) as Y. inversion Y.
      - apply cancel_yields. exact A.
      - destruct (slot_space _ _ _ A). }
    destruct (src_way _ _ S) as [E N|s A N Ty|s k i ok er A N Lc No Ch T1 T2 T3]; unfold dest; rewrite N.
    + exists []. apply Y_unused.
      assert (Y : exists e, In e log /\ In (o_id o, OUnused) (entry_nodes m log e)).
      { destruct S as [S|[_ S]]; (eexists; split; [exact S|]); cbn [entry_nodes]; rewrite N; left; reflexivity. }
      destruct Y as (e & Y1 & Y2). exact (kind_of _ _ _ Y1 Y2).
    + apply D; [exact A|]. intros _. unfold convert. rewrite Ty, Nat.eqb_refl. reflexivity.
    + rewrite T1 in *. destruct (conv_step _ _ _ _ _ _ w Lc A No Ch T2 T3) as (kd & ms & dr & K & _ & R & Z).
      assert (Y : exists n x l, ms = [(n, x)] /\ yields f n x l).
      { destruct Z as [(x & -> & Z1 & _)|(x & er' & -> & Te & -> & Z1 & Z2)].
        - destruct (D _ _ A Z1) as [l Y]. eauto.
        - assert (Y : exists l, yields f (dest log er') x l); [|destruct Y as [l Y]; eauto].
          apply (IH (Sent None TString, x)); [|eapply err_src; exact Lc|exact Te].
          pose proof (where_directed t) as E. destruct (where_ d t) as [id|[]|a b] eqn:W; cbn [named] in E; rewrite E in *.
          + destruct (slot_named _ _ A) as (u & bufs & outs & X & Eu). eapply S_refused; [exact W|]. rewrite <- Eu, (type_eq _ _ _ _ X). apply Z1. discriminate.
          + eapply S_no_response; [exact W|]. rewrite <- (slot_end _ A). apply Z1. discriminate.
          + pose proof (proj2 (proj2 (C59_targets_have_one_input _ _ _ _ _ _ _ _ _ _ B A A))) as Y. inversion Y.
          + eapply S_no_cancel; [exact W|]. apply Z2. reflexivity.
          + destruct (slot_space _ _ _ A). }
      destruct Y as (n & x & l & -> & Y). exists (l ++ []). eapply Y_sends; [exact K|exact R|]. constructor; [exact Y|constructor].
  - intros u s bufs outs A Eu. destruct (op_step _ _ _ _ A) as (k & K & O & _ & St & _).
    assert (Y : forall ms, (forall n x, In (n, x) ms -> exists l, yields f n x l) -> exists l, yield_all f ms l).
    { induction ms as [|[n x] ms IHm]; intros H; [exists []; constructor|].
      destruct (H n x (or_introl eq_refl)) as [l Y]. destruct IHm as [l' Y']; [intros n' x' H'; apply H; right; exact H'|].
      exists (l ++ l'). constructor; assumption. }
    destruct (reacts k w) as [[ms dr| |]|] eqn:R.
    + destruct (Y ms) as [l Yl].
      * intros n x X. destruct (St _ _ _ _ _ R X) as (t & o & X1 & -> & X2). apply (IH (Sent t (o_ty o), x)); [|eapply out_src; eassumption|reflexivity].
        rewrite Eu in *. eapply S_sends; [|exact X2]. rewrite <- Eu. exact (proj1 (proj2 (built_facts _ _ _ _ A))).
      * exists l. eapply Y_sends; eassumption.
    + eexists. eapply Y_cancels; eassumption.
    + eexists. eapply Y_breaks; eassumption.
    + destruct k; try contradiction; cbn [reacts] in R; try discriminate.
      * destruct w; try discriminate. destruct (_ =? _); discriminate.
      * destruct (act w) as [[]|]; discriminate.
  - eexists. apply Y_out.
  - exact I.
Qed.

Lemma request_yields v : ending (Sent (Some (d_start d)) q, v) -> exists l, yields f (f_entry f) v l.
Proof. intros E. destruct entry_src as (o & S & Eq & ->). exact (ending_yields _ E _ S Eq). Qed.

(** Responses, one by one *)
Definition same_message (outs : list (option next_op * output)) (a : entity * val) (b : option next_op * nat * val) : Prop :=
  snd a = snd b /\ exists o, In (fst (fst b), o) outs /\ o_ty o = snd (fst b) /\ fst a = dest log o.

Lemma same_all {X} (F : X -> entity * val) (G : X -> option next_op * nat * val) outs l :
  (forall x, In x l -> same_message outs (F x) (G x)) -> Forall2 (same_message outs) (map F l) (map G l).
Proof.
  induction l as [|x l IH]; intros H; cbn [map]; constructor; [apply H; left; reflexivity|]. apply IH. intros y Y. apply H. right. exact Y.
Qed.

Lemma combine_map {X Y Z} (F : X -> Y) l (vs : list Z) : combine (map F l) vs = map (fun a => (F (fst a), snd a)) (combine l vs).
Proof. revert vs. induction l as [|a l IH]; intros [|z vs]; cbn [map combine]; [reflexivity..|]. rewrite IH. reflexivity. Qed.

Lemma op_list u s bufs outs k w : In (LBuilt u [(None, s)] bufs outs) log -> f_kind f (s_id s) = Some k -> ~ foreign (u_op u) w ->
  exists ms dr, reacts k w = Some (Sends ms dr) /\ Forall2 (same_message outs) ms (sends g m type_of (u_id u) (u_op u) w).
Proof.
  intros H Kd Nf. destruct (built_facts _ _ _ _ H) as (_ & Hin & Sh & De & _). pose proof (proj1 Pl _ _ Hin) as P.
  pose proof (type_eq _ _ _ _ H) as Ty. pose proof (fun n k => kind_of _ n k H) as K. cbn [entry_nodes] in K.
  remember [(None, s)] as ins eqn:Ei.
  assert (Kk : forall k', In (s_id s, k') (entry_nodes m log (LBuilt u [(None, s)] bufs outs)) -> k = k').
  { intros k' X. rewrite (K _ _ X) in Kd. injection Kd as ->. reflexivity. }
  clear K. cbn [entry_nodes] in Kk.
  destruct Sh as [b next streams s' rsp have outs tys N1 N2 N3|nexts s' outs N1 N2|nexts s' outs N1|ok er s' outs a b N1 N2| | |next er s' outs N1 N2| | | | | | | ];
    try contradiction; injection Ei as ->; subst; cbn [declares sends foreign] in *.
  - cbn in De. destruct outs as [|[t o] [|]]; try discriminate. injection De as ->. injection N2 as Er _. cbn [snd map] in *.
    rewrite (Kk _ (or_introl eq_refl)), N1. eexists _, _. split; [reflexivity|]. constructor; [|constructor]. split; [reflexivity|].
    exists o. split; [left; reflexivity|]. auto.
  - rewrite (Kk _ (or_introl eq_refl)), Ty. eexists _, _. split; [reflexivity|]. rewrite map_map.
    assert (E : map (fun t => (Some t, s_ty s, w)) nexts = map (fun x => (fst x, o_ty (snd x), w)) outs).
    { transitivity (map (fun t => (t, s_ty s, w)) (map Some nexts)); [rewrite map_map; reflexivity|]. rewrite <- De, map_map.
      apply map_ext_in. intros [t o] X. cbn. rewrite (N2 _ _ X). reflexivity. }
    rewrite E. apply same_all. intros [t o] X. split; [reflexivity|]. exists o. auto.
  - rewrite (Kk _ (or_introl eq_refl)), Ty, N1. assert (Ln : length nexts = length outs) by (rewrite <- (map_length Some nexts), <- De, map_length; reflexivity).
    assert (Cb : combine (map Some nexts) (output_types outs) = map (fun a => (fst a, o_ty (snd a))) outs).
    { rewrite <- De. unfold output_types. apply combine_both. }
    destruct w; try (exfalso; apply Nf; intros ? ?; discriminate). rename l into vs.
    cbn [reacts]. rewrite map_length, <- Ln. destruct (Nat.eqb_spec (length vs) (length nexts)) as [E|E].
    + eexists _, _. split; [reflexivity|]. rewrite Cb, !combine_map. apply same_all. intros [[t o] x] X. split; [reflexivity|].
      exists o. split; [exact (in_combine_l _ _ _ _ X)|]. auto.
    + exfalso. apply Nf. intros vs' [= <-]. exact E.
  - destruct outs as [|[t1 o1] [|[t2 o2] [|]]]; try discriminate. injection De as -> ->. injection N2 as E1 E2. cbn [snd map] in *.
    rewrite (Kk _ (or_introl eq_refl)), Ty, N1.
    destruct w; try (exfalso; apply Nf; split; intros ?; discriminate); cbn [reacts branch_result to_target app];
      (eexists _, _; split; [reflexivity|]); (constructor; [|constructor]); (split; [reflexivity|]).
    + exists o1. split; [left; reflexivity|auto].
    + exists o2. split; [right; left; reflexivity|auto].
  - destruct outs as [|[t1 o1] [|[t2 o2] [|]]]; try discriminate. injection De as -> ->. injection N2 as E1 E2. cbn [snd map] in *.
    rewrite (Kk _ (or_introl eq_refl)). cbn [reacts choice]. destruct (m_cel m (u_id u) w) as [x|x];
      (eexists _, _; split; [reflexivity|]); (constructor; [|constructor]); (split; [reflexivity|]).
    + exists o1. split; [left; reflexivity|auto].
    + exists o2. split; [right; left; reflexivity|auto].
Qed.

Definition given_at (x : spot * val) (l : list val) : Prop :=
  match fst x with
  | Sent t ty => forall o, src t o -> o_ty o = ty -> yields f (dest log o) (snd x) (map RValue l)
  | AtOp id => forall u s bufs outs, In (LBuilt u [(None, s)] bufs outs) log -> u_id u = id -> yields f (s_id s) (snd x) (map RValue l)
  | AtTerminate => yields f (f_terminal f) (snd x) (map RValue l)
  | AtCancel => True
  end.

Scheme gives_ind2 := Induction for gives Sort Prop with give_all_ind2 := Induction for give_all Sort Prop.

Lemma no_cancel_gives w l : ~ gives d g m p type_of (AtCancel, w) l.
Proof. intros G. inversion G. Qed.

Lemma gives_yields x l : gives d g m p type_of x l -> given_at x l.
Proof.
  revert x l. apply (gives_ind2 d g m p type_of (fun x l _ => given_at x l)
    (fun ms l _ => forall outs ms', (forall t o, In (t, o) outs -> src t o) -> Forall2 (same_message outs) ms' ms -> yield_all f ms' (map RValue l))).
  - intros w. apply Y_out.
  - intros t ty w W o S <-. cbn [snd].
    assert (E : directed d [] t = RDispose) by (rewrite where_directed, W; reflexivity).
    destruct (src_way _ _ S) as [_ N|s A N Ty|s k i ok er A N Lc No Ch T1 T2 T3]; unfold dest; rewrite N.
    + apply Y_unused.
      assert (Y : exists e, In e log /\ In (o_id o, OUnused) (entry_nodes m log e)).
      { destruct S as [S|[_ S]]; (eexists; split; [exact S|]); cbn [entry_nodes]; rewrite N; left; reflexivity. }
      destruct Y as (e & Y1 & Y2). exact (kind_of _ _ _ Y1 Y2).
    + rewrite E in A. pose proof (proj2 (proj2 (C59_targets_have_one_input _ _ _ _ _ _ _ _ _ _ B A A))) as Y. inversion Y.
    + rewrite E in A. pose proof (proj2 (proj2 (C59_targets_have_one_input _ _ _ _ _ _ _ _ _ _ B A A))) as Y. inversion Y.
  - intros t ty w x l0 St Gx IH o S <-. cbn [snd].
    assert (D : forall s w', In (LSlot (directed d [] t) s) log -> directed d [] t <> RCancel [] -> convert m (o_ty o) (s_ty s) w = Some (inl w') ->
      yields f (s_id s) w' (map RValue l0)).
    { intros s w' A Nc C. pose proof (where_directed t) as E. inversion St; subst; (match goal with W : where_ d t = _ |- _ => rewrite W in E end); cbn [named] in E; rewrite E in *.
      - destruct (slot_named _ _ A) as (u & bufs & outs & X & Eu). cbn in IH. pose proof (type_eq _ _ _ _ X) as Te. rewrite Eu in Te. rewrite Te, C in *.
        match goal with H : Some (inl _) = Some (inl _) |- _ => injection H as -> end. eapply IH; eassumption.
      - destruct (slot_named _ _ A) as (u & bufs & outs & X & Eu). pose proof (type_eq _ _ _ _ X) as Te. rewrite Eu in Te. rewrite Te, C in *. discriminate.
      - rewrite (slot_end _ A) in C. rewrite C in *. match goal with H : Some (inl _) = Some (inl _) |- _ => injection H as -> end.
        rewrite <- (terminal_is _ A). exact IH.
      - rewrite (slot_end _ A) in C. rewrite C in *. discriminate.
      - contradiction.
      - contradiction. }
    assert (Er : forall s er e, In (LSlot (directed d [] t) s) log -> src None er -> o_ty er = TString ->
      (directed d [] t <> RCancel [] -> convert m (o_ty o) (s_ty s) w = Some (inr e)) ->
      (directed d [] t = RCancel [] -> unreadable g m (o_ty o) w = Some e) -> yields f (dest log er) e (map RValue l0)).
    { intros s er e A Se Te C1 C2. pose proof (where_directed t) as E. inversion St; subst; (match goal with W : where_ d t = _ |- _ => rewrite W in E end); cbn [named] in E; rewrite E in *.
      - destruct (slot_named _ _ A) as (u & bufs & outs & X & Eu). pose proof (type_eq _ _ _ _ X) as Ty. rewrite Eu in Ty. rewrite Ty, C1 in * by discriminate. discriminate.
      - destruct (slot_named _ _ A) as (u & bufs & outs & X & Eu). pose proof (type_eq _ _ _ _ X) as Ty. rewrite Eu in Ty. rewrite Ty, C1 in * by discriminate.
        match goal with H : Some (inr _) = Some (inr _) |- _ => injection H as -> end. exact (IH _ Se Te).
      - rewrite (slot_end _ A) in C1. rewrite C1 in * by discriminate. discriminate.
      - rewrite (slot_end _ A) in C1. rewrite C1 in * by discriminate. match goal with H : Some (inr _) = Some (inr _) |- _ => injection H as -> end. exact (IH _ Se Te).
      - destruct (no_cancel_gives _ _ Gx).
      - rewrite C2 in * by reflexivity. match goal with H : Some _ = Some _ |- _ => injection H as -> end. exact (IH _ Se Te). }
    assert (Cn : directed d [] t = RCancel [] -> unreadable g m (o_ty o) w <> None).
    { intros E U. rewrite where_directed in E. inversion St; subst; (match goal with W : where_ d t = _ |- _ => rewrite W in E end); try discriminate E; [destruct (no_cancel_gives _ _ Gx)|congruence]. }
    destruct (src_way _ _ S) as [E N|s A N Ty|s k i ok er A N Lc No Ch T1 T2 T3].
    + exfalso. rewrite where_directed in E. inversion St; subst; (match goal with W : where_ d t = _ |- _ => rewrite W in E end); discriminate E.
    + unfold dest. rewrite N. apply D; [exact A| |].
      * intros E. apply (Cn E). rewrite E in A. pose proof (slot_cancel_type _ A) as X. rewrite <- Ty in X. apply readable. exact X.
      * unfold convert. rewrite Ty, Nat.eqb_refl. reflexivity.
    + unfold dest at 1. rewrite N. rewrite T1 in *. destruct (conv_step _ _ _ _ _ _ w Lc A No Ch T2 T3) as (kd & ms & dr & K & _ & R & Z).
      eapply Y_sends; [exact K|exact R|]. rewrite <- (app_nil_r (map RValue l0)).
      destruct Z as [(x' & -> & Z1 & Z2)|(x' & er' & -> & Te & -> & Z1 & Z2)]; (constructor; [|constructor]).
      * apply D; [exact A| |apply Z1]; intros E; exact (Cn E (Z2 E)).
      * apply (Er s); auto. eapply err_src; exact Lc.
  - intros id o w l0 Hin Nf _ IH u s bufs outs A Eu. cbn [snd]. destruct (op_step _ _ _ _ A) as (k & K & _).
    assert (Eo : u_op u = o).
    { destruct (op_at _ _ Hin) as (u' & s' & bufs' & outs' & A' & Eu' & Eo'). rewrite <- Eu in Eu'.
      pose proof (built_same _ _ _ _ _ _ _ _ A A' (eq_sym Eu')) as E. injection E as <- _ _ _. exact Eo'. }
    rewrite <- Eo in Nf. destruct (op_list _ _ _ _ _ _ A K Nf) as (ms & dr & R & F). rewrite Eu, Eo in F.
    eapply Y_sends; [exact K|exact R|]. eapply IH; [|exact F]. intros t o' X. eapply out_src; eassumption.
  - intros outs ms' _ F. inversion F. constructor.
  - intros t ty w ms l0 l1 _ IH _ IH' outs ms' Hs F. inversion F as [|[n x'] b ms'' bs [Ex (o & X & Ty & En)] F']; subst. cbn [fst snd] in *. subst.
    rewrite map_app. constructor; [|eapply IH'; eassumption]. apply (IH o); [apply Hs; exact X|reflexivity].
Qed.

Lemma request_gives v l : gives d g m p type_of (Sent (Some (d_start d)) q, v) l -> yields f (f_entry f) v (map RValue l).
Proof. intros G. destruct entry_src as (o & S & Eq & ->). exact (gives_yields _ _ G _ S Eq). Qed.

(** A workflow *)
Lemma any_slot r s : In (LSlot r s) log -> f_kind f (s_id s) <> None.
Proof.
  intros H. pose proof (final_entries _ _ _ _ _ _ fin _ H) as S. cbn [entry_ok] in S.
  destruct S as [u ins bufs outs s X Y|u ins bufs outs x s X Y|u a b c e s X Y|u a b c e s X Y1 Y2|u a b c e st ops str nx n t s o X Y1 Y2 Y3 Y4|s X Y|n s X|s X Y].
  - destruct (built_facts _ _ _ _ X) as (_ & _ & _ & _ & s' & ->). destruct Y as [[= ->]|[]]. destruct (op_step _ _ _ _ X) as (k & -> & _). discriminate.
  - destruct (built_facts _ _ _ _ X) as (_ & _ & _ & _ & s' & ->). destruct Y as [[=]|[]].
  - destruct (no_scope _ _ _ _ _ X).
  - destruct (no_scope _ _ _ _ _ X).
  - destruct (no_scope _ _ _ _ _ X).
  - rewrite (kind_of _ _ OTerminate H); [discriminate|left; reflexivity].
  - destruct X.
  - rewrite (kind_of _ _ OCancel H); [discriminate|left; reflexivity].
Qed.

Lemma conv_kind k i ok er : In (LConv k i ok er) log -> f_kind f (s_id i) <> None.
Proof.
  intros H. pose proof (proj2 (C59_connections_are_typed _ _ _ _ _ _ B) _ _ _ _ H) as Al. destruct k; cbn [allowed] in Al.
  1, 2: destruct Al as (_ & _ & e & ->). all: erewrite (kind_of _ _ _ H); [discriminate|left; reflexivity].
Qed.

Lemma dest_node t o : src t o -> f_kind f (dest log o) <> None.
Proof.
  intros S. unfold dest. destruct (src_way _ _ S) as [E N|s A N Ty|s k i ok er A N Lc No Ch T1 T2 T3]; rewrite N.
  - assert (Y : exists e, In e log /\ In (o_id o, OUnused) (entry_nodes m log e)).
    { destruct S as [S|[_ S]]; (eexists; split; [exact S|]); cbn [entry_nodes]; rewrite N; left; reflexivity. }
    destruct Y as (e & Y1 & Y2). rewrite (kind_of _ _ _ Y1 Y2). discriminate.
  - eapply any_slot; exact A.
  - eapply conv_kind; exact Lc.
Qed.

Lemma ok_node k i ok er : In (LConv k i ok er) log -> f_kind f (dest log ok) <> None.
Proof.
  intros H. destruct (builds_convs _ _ _ _ _ _ B _ _ _ _ H) as (_ & r & s & A & C & _). unfold dest. rewrite (in_connected _ _ C).
  eapply any_slot; exact A.
Qed.

Lemma target_node n t : In t (node_targets f n) -> f_kind f t <> None.
Proof.
  unfold node_targets. destruct (f_kind f n) as [k|] eqn:K; [|intros []]. intros T. destruct (of_kind _ _ K) as (e & H & X).
  destruct e as [r o|r o|r o|r o|o s|c i ok er|u a b c e|r s o|r s|u ins bufs outs]; try (destruct X; fail).
  - cbn [entry_nodes] in X. destruct (connected log o); [destruct X|]. destruct X as [[= <- <-]|[]]. destruct T.
  - cbn [entry_nodes] in X. destruct (connected log o); [destruct X|]. destruct X as [[= <- <-]|[]]. destruct T.
  - pose proof (ok_node _ _ _ _ H) as Ho. cbn [entry_nodes] in X. destruct c, er as [er|]; try (destruct X; fail); destruct X as [[= <- <-]|[]]; cbn [targets_of] in T.
    1, 2: destruct T as [<-|[<-|[]]]; [exact Ho|eapply dest_node, err_src; exact H].
    all: destruct T as [<-|[]]; exact Ho.
  - cbn [entry_nodes] in X. destruct r as [| [|] | | [|] |]; try (destruct X; fail); destruct X as [[= <- <-]|[]]; destruct T.
  - destruct (built_facts _ _ _ _ H) as (_ & _ & _ & _ & s & ->). destruct (op_step _ _ _ _ H) as (k' & K' & O & Tg & _).
    pose proof (proj1 (nodes_birth _ _ _ X)) as Y. cbn in Y. destruct Y as [<-|[]]. rewrite K in K'. injection K' as <-.
    destruct (Tg _ T) as (t' & o & Z & ->). eapply dest_node, out_src; eassumption.
Qed.

Lemma node_kind n : In n (f_nodes f) <-> f_kind f n <> None.
Proof.
  cbn [workflow_of f_nodes f_kind]. rewrite nodup_In. split.
  - intros H E. apply in_map_iff in H as ([n' k] & <- & H). cbn [fst] in E. revert H E. generalize (all_nodes m log). clear.
    induction l as [|[a b] l IH]; [intros []|]. cbn [find]. destruct (Nat.eqb_spec n' a) as [->|N]; [discriminate|]. intros [[= -> ->]|H]; [contradiction|auto].
  - intros H. destruct (find n (all_nodes m log)) as [k|] eqn:E; [|contradiction]. apply find_in in E. apply in_map_iff. exists (n, k). auto.
Qed.

Lemma scope_free : f_kind f (f_scope f) = None.
Proof.
  destruct (f_kind f (f_scope f)) as [k|] eqn:E; [exfalso|reflexivity].
  assert (H : In (f_scope f) (f_nodes f)) by (apply node_kind; congruence). cbn [workflow_of f_nodes f_scope] in H. apply nodup_In in H.
  pose proof (proj1 (list_max_le (map fst (all_nodes m log)) _) (Nat.le_refl _)) as X. rewrite Forall_forall in X. apply X in H. lia.
Qed.

Lemma is_built : ExecSpec.built f.
Proof.
  split; [apply NoDup_nodup|]. split; [exact node_kind|]. split; [intros n t H; apply node_kind; eapply target_node; exact H|].
  split; [apply node_kind; destruct entry_src as (o & S & _ & ->); eapply dest_node; exact S|]. split; [|split; [|split]].
  - intros n. split.
    + intros K. destruct (of_kind _ _ K) as (e & H & X).
      destruct e as [r o|r o|r o|r o|o s|c i ok er|u a b c e|r s o|r s|u ins bufs outs]; try (destruct X; fail).
      * cbn [entry_nodes] in X. destruct (connected log o); [destruct X|]. destruct X as [[= _]|[]].
      * cbn [entry_nodes] in X. destruct (connected log o); [destruct X|]. destruct X as [[= _]|[]].
      * cbn [entry_nodes] in X. destruct c, er as [er|]; try (destruct X; fail); destruct X as [[= _]|[]].
      * cbn [entry_nodes] in X. destruct r as [| [|] | | [|] |]; try (destruct X; fail); destruct X as [[= E]|[]]. rewrite <- E, (terminal_is _ H). reflexivity.
      * destruct (built_facts _ _ _ _ H) as (_ & _ & _ & _ & s & ->). destruct (op_step _ _ _ _ H) as (k' & K' & O & _).
        pose proof (proj1 (nodes_birth _ _ _ X)) as Y. cbn in Y. destruct Y as [<-|[]]. rewrite K in K'. injection K' as <-. destruct O.
    + intros ->. destruct terminal_slot as (s & H & ->). apply (kind_of _ _ _ H). left. reflexivity.
  - intros n K. destruct (no_kind _ _ K) as [O|[O|[O|O]]]; try discriminate. apply O. reflexivity.
  - exact scope_free.
  - intros n mn mx t K. destruct (no_kind _ _ K) as [O|[O|[O|O]]]; try discriminate. destruct O.
Qed.

End Kinds.
End Run.

(** Diagrams without cycles *)
Lemma comes_step d g m q p T v x w : comes d g m q p T v x w <-> Relation_Operators.clos_refl_trans_n1 _ (step d g m p T) (Sent (Some (d_start d)) q, v) (x, w).
Proof.
  split.
  - induction 1; [constructor|..]; (eapply Relation_Operators.rtn1_trans; [|eassumption]).
    + eapply S_arrives; eassumption.
    + eapply S_refused; eassumption.
    + eapply S_response; eassumption.
    + eapply S_no_response; eassumption.
    + eapply S_cancel; eassumption.
    + eapply S_no_cancel; eassumption.
    + eapply S_sends; eassumption.
  - intros H. remember (x, w) as y eqn:E. revert x w E. induction H as [|y z S _ IH]; intros x w E.
    + injection E as <- <-. constructor.
    + subst z. destruct y as [a b]. specialize (IH _ _ eq_refl). inversion S; subst.
      * eapply C_arrives; eassumption.
      * eapply C_refused; eassumption.
      * eapply C_response; eassumption.
      * eapply C_no_response; eassumption.
      * eapply C_cancel; eassumption.
      * eapply C_no_cancel; eassumption.
      * eapply C_sends; eassumption.
Qed.

Lemma acyclic_ending d g m p T : plain d -> acyclic d -> text_total m -> forall x, ending d g m p T x.
Proof.
  intros Pl (rank & R) Tt.
  assert (At : forall w, ending d g m p T (AtTerminate, w)) by (intros w; constructor; intros y S; inversion S).
  assert (Ac : forall w, ending d g m p T (AtCancel, w)) by (intros w; constructor; intros y S; inversion S).
  assert (Wb : exists b, where_ d None = NBuiltin b).
  { cbn [where_]. destruct (proj2 Pl) as [->|[b ->]]; eauto. }
  assert (Ae : forall w, ending d g m p T (Sent None TString, w)).
  { intros w. constructor. intros y S. destruct Wb as [b Wb]. inversion S; subst; try congruence; try apply At; try apply Ac.
    - unfold convert in *. destruct (TString =? p); [discriminate|]. destruct (p =? TJson).
      + destruct (Tt w) as [j Ej]. congruence.
      + discriminate.
    - discriminate. }
  assert (As : forall t ty w, (forall id w', where_ d t = NName id -> ending d g m p T (AtOp id, w')) -> ending d g m p T (Sent t ty, w)).
  { intros t ty w H. constructor. intros y S. inversion S; subst; first [apply At|apply Ac|apply Ae|apply H; assumption]. }
  assert (Ao : forall n id w, rank id < n -> ending d g m p T (AtOp id, w)).
  { induction n as [|n IH]; intros id w L; [lia|]. constructor. intros y S. inversion S as [ | | | | | |id' o w1 t ty w' Hin X]; subst.
    apply As. intros id' w1 W. apply IH. enough (rank id' < rank id) by lia. apply (R id o t id' Hin); [|exact W].
    pose proof (proj1 Pl _ _ Hin) as P. clear - X P. destruct o as [b next streams| | | | | | | | | | | | ]; try contradiction; cbn [sends written] in *.
    - destruct (r_node g b) as [[[]]|]; [|destruct X]. destruct X as [[= <- _ _]|[]]. reflexivity.
    - apply in_map_iff in X as (n & [= <- _ _] & X). eauto.
    - destruct w; try contradiction. destruct (r_unzip g (T id)); [|contradiction]. destruct (_ =? _); [|contradiction].
      apply in_combine_l, in_combine_l, in_map_iff in X as (n & <- & X). eauto.
    - destruct w; try contradiction; (destruct (r_result g (T id)) as [[]|]; [|contradiction]); destruct X as [[= <- _ _]|[]]; auto.
    - destruct (m_cel m id w); destruct X as [[= <- _ _]|[]]; auto. }
  intros [[t ty|id| |] w]; auto.
  - apply As. intros id w' _. apply (Ao (S (rank id))). lia.
  - apply (Ao (S (rank id))). lia.
Qed.
