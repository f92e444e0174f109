(** Programs on values: number of results, types, ends; and what occurs in a workflow. *)
From Verif Require Import Base RosterModel BufferModel InputModel OpsModel OpsSpec ExecModel ExecSpec ExecProofs
  ChainModel ChainSpec ChainProofs ChainProofs2.

(** ** Whatever occurs leads to one of the results *)
Section Occurs.
Variable f : workflow.
Hypothesis Hb : built f.
Hypothesis Hfree : collect_free f.

Lemma terminal_kind : f_kind f (f_terminal f) = Some OTerminate.
Proof. apply (proj1 (proj2 (proj2 (proj2 (proj2 Hb))))). reflexivity. Qed.

Lemma yield_all_in ms l t u : yield_all f ms l -> In (t, u) ms -> exists l', yields f t u l' /\ incl l' l.
Proof.
  intros Y. induction Y as [|n v ms l l' H Y IH]; [intros []|]. intros [E|Hin].
  - injection E as <- <-. exists l. split; [exact H|]. apply incl_appl, incl_refl.
  - destruct (IH Hin) as (l0 & H1 & H2). exists l0. split; [exact H1|]. apply incl_appr, H2.
Qed.

Lemma occurs_yields e v l n w : yields f e v l -> occurs f e v n w -> exists l', yields f n w l' /\ incl l' l.
Proof.
  intros Y O. induction O as [|n k w ms d t u O IH Hk Hr Hin|n mi ma t lw Hk _ _ _].
  - exists l. split; [exact Y|apply incl_refl].
  - destruct IH as (l' & Y' & I'). inversion Y'; subst.
    + rewrite terminal_kind in Hk. injection Hk as <-. discriminate.
    + rewrite H in Hk. injection Hk as <-. discriminate.
    + rewrite H in Hk. injection Hk as <-. congruence.
    + rewrite H in Hk. injection Hk as <-. congruence.
    + rewrite H in Hk. injection Hk as <-. rewrite H0 in Hr. injection Hr as <- <-.
      destruct (yield_all_in _ _ t u H1 Hin) as (l2 & Y2 & I2). exists l2. split; [exact Y2|]. eapply incl_tran; eassumption.
  - pose proof (Hfree n) as X. unfold is_collect in X. rewrite Hk in X. discriminate.
Qed.

Lemma occurs_result e v l r : yields f e v l -> occurs f e v (f_terminal f) r -> In (RValue r) l.
Proof.
  intros Y O. destruct (occurs_yields _ _ _ _ _ Y O) as (l' & Y' & I'). apply I'. pose proof terminal_kind as T.
  inversion Y'; subst.
  - left. reflexivity.
  - congruence.
  - assert (k = OTerminate) by congruence. subst. discriminate.
  - assert (k = OTerminate) by congruence. subst. discriminate.
  - assert (k = OTerminate) by congruence. subst. discriminate.
Qed.

Lemma occurs_cancelled e v l n : yields f e v l -> occurs_with f e v n Cancels -> In RCancelled l.
Proof.
  intros Y (k & w & O & Hk & Hr). destruct (occurs_yields _ _ _ _ _ Y O) as (l' & Y' & I'). apply I'. inversion Y'; subst.
  - rewrite terminal_kind in Hk. injection Hk as <-. discriminate.
  - rewrite H in Hk. injection Hk as <-. discriminate.
  - left. reflexivity.
  - rewrite H in Hk. injection Hk as <-. congruence.
  - rewrite H in Hk. injection Hk as <-. congruence.
Qed.

Lemma no_collect_cycle : ~ collects_in_cycle f.
Proof. intros (n & m & _ & H & _). rewrite Hfree in H. discriminate. Qed.
End Occurs.

Section Program.
Variable p : program.

(** ** No result is broken *)
Lemma means_sound c v l : means p c v l -> ~ In RBreaks l.
Proof.
  apply (means_mut p (fun _ _ l _ => ~ In RBreaks l) (fun _ l _ => ~ In RBreaks l)); try (intros; assumption); try (cbn; intuition discriminate).
  intros c0 v0 ms l0 l' _ H1 _ H2 H. apply in_app_or in H. tauto.
Qed.

(** ** The number of results *)
Lemma most_le ws c : forall n, most ws c n -> forall m, n <= m -> most ws c m.
Proof.
  induction c as [s| | |s c IH|a d IHa IHd|a d IHa IHd|d a IHd IHa|d a IHd IHa|d a IHd IHa|cs IH|cs IH] using chain_ind';
    intros n M m L; inversion M; subst.
  - apply N_end. lia.
  - eapply N_node; [eassumption|lia].
  - apply N_unused.
  - apply N_cancel. lia.
  - apply N_dispose; eauto.
  - apply N_map; eauto.
  - apply N_stop; eauto; lia.
  - apply N_spread. assumption.
  - apply N_fork_result; eauto.
  - apply N_fork_option; eauto.
  - apply N_for_err; eauto.
  - apply N_for_none; eauto.
  - eapply N_branch_clone; eauto; lia.
  - eapply N_clone; eauto; lia.
  - eapply N_unzip; eauto; lia.
Qed.

Lemma most_means ws : (forall i g c, nth_error (p_nodes p) i = Some (g, c) -> exists w, nth_error ws i = Some w /\ most ws c w) ->
  forall c v l, means p c v l -> forall n, most ws c n -> length l <= n.
Proof.
  intros HN.
  apply (means_mut p (fun c v l _ => forall n, most ws c n -> length l <= n)
    (fun ms l _ => forall ns, Forall2 (fun m n => most ws (fst m) n) ms ns -> length l <= list_sum ns)).
  - intros v n M. inversion M; subst. cbn. lia.
  - intros i g c v l Hi _ IH n M. inversion M; subst. destruct (HN i g c Hi) as (w' & E & Hm).
    assert (w' = w) by congruence. subst. specialize (IH w Hm). lia.
  - intros v n _. cbn. lia.
  - intros v n M. inversion M; subst. cbn. lia.
  - intros s c v vs l D _ IH n M.
    assert (A : (exists u, vs = [u]) \/ vs = [] -> most ws c n -> length l <= n).
    { intros [[u ->]| ->] Mc.
      - specialize (IH [n]). cbn in IH. rewrite Nat.add_0_r in IH. apply IH. constructor; [exact Mc|constructor].
      - specialize (IH []). cbn in IH. specialize (IH (Forall2_nil _)). lia. }
    inversion M; subst.
    + apply A; [|assumption]. inversion D; subst; eauto; cbn in H1; intuition discriminate.
    + apply A; [|assumption]. inversion D; subst; eauto.
    + apply A; [|assumption]. inversion D; subst; eauto; cbn in H1; intuition discriminate.
    + specialize (IH (map (fun _ => 0) vs)).
      assert (E : list_sum (map (fun _ : val => 0) vs) = 0) by (clear; induction vs; [reflexivity|exact IHvs]).
      rewrite E in IH. etransitivity; [apply IH|lia]. clear -H2. induction vs; constructor; auto.
  - intros s c v D n M. inversion M; subst; cbn; try lia; exfalso; inversion D; subst; cbn in *; intuition discriminate.
  - intros a d v l _ IH n M. inversion M; subst. auto.
  - intros a d v l _ IH n M. inversion M; subst. auto.
  - intros a d v l _ IH n M. inversion M; subst. auto.
  - intros a d l _ IH n M. inversion M; subst. auto.
  - intros d a v l _ IH n M. inversion M; subst. auto.
  - intros d a v l _ IH n M. inversion M; subst. auto.
  - intros d a v l _ IH n M. inversion M; subst. auto.
  - intros d a l _ IH n M. inversion M; subst. auto.
  - intros d a v l _ IH n M. inversion M; subst. specialize (IH [n0; m]). cbn in IH. etransitivity; [apply IH|lia].
    repeat constructor; assumption.
  - intros cs v l _ IH n M. inversion M; subst. match goal with H : list_sum _ <= n |- _ => etransitivity; [|exact H] end. apply IH.
    match goal with H : Forall2 _ _ _ |- _ => clear -H; induction H; constructor; auto end.
  - intros cs vs l L _ IH n M. inversion M; subst. match goal with H : list_sum _ <= n |- _ => etransitivity; [|exact H] end. apply IH.
    match goal with H : Forall2 _ _ _ |- _ => clear -H L; revert vs L; induction H; intros [|v vs] L; try discriminate L; constructor; auto end.
  - intros ns _. cbn. lia.
  - intros c v ms l l' _ IH1 _ IH2 ns F. inversion F; subst. rewrite app_length.
    match goal with |- _ <= list_sum (?a :: ?b) => change (length l + length l' <= a + list_sum b) end.
    apply Nat.add_le_mono; auto.
Qed.

Lemma single_means v l : single p -> means p (p_main p) v l -> length l <= 1.
Proof. intros (ws & M & HN) H. exact (most_means ws HN _ _ _ H 1 M). Qed.

(** ** Types *)
Lemma does_fits s v vs a b : step_ty s a b -> fits a v -> does s v (Goes vs) -> Forall (fits b) vs.
Proof.
  intros T F D. inversion T; subst; inversion D; subst; inversion F; subst; auto; repeat constructor; auto.
Qed.
Lemma does_total s v a b : step_ty s a b -> fits a v -> exists d, does s v d.
Proof. intros T F. inversion T; subst; try (eexists; constructor); inversion F; subst; eexists; constructor. Qed.

Lemma means_typed r ins : (forall i g c, nth_error (p_nodes p) i = Some (g, c) ->
    exists a b, nth_error ins i = Some a /\ maps g a b /\ typed r ins c b) ->
  forall c v l, means p c v l -> forall a, typed r ins c a -> fits a v -> forall u, In (RValue u) l -> fits r u.
Proof.
  intros HN.
  apply (means_mut p (fun c v l _ => forall a, typed r ins c a -> fits a v -> forall u, In (RValue u) l -> fits r u)
    (fun ms l _ => Forall (fun m => exists a, typed r ins (fst m) a /\ fits a (snd m)) ms -> forall u, In (RValue u) l -> fits r u)).
  - intros v a T F u [E|[]]. injection E as <-. inversion T; subst. exact F.
  - intros i g c v l Hi _ IH a T F. inversion T; subst. destruct (HN i g c Hi) as (a' & b & E & Hm & Hc).
    assert (a' = a) by congruence. subst. exact (IH b Hc (Hm v F)).
  - intros v a _ _ u [].
  - intros v a _ _ u [E|[]]; discriminate.
  - intros s c v vs l D _ IH a T F. inversion T; subst. apply IH.
    pose proof (does_fits _ _ _ _ _ H1 F D) as Hv. rewrite Forall_forall in *. intros m Hm. apply in_map_iff in Hm.
    destruct Hm as (u & <- & Hu). cbn. eauto.
  - intros s c v D a _ _ u [E|[]]; discriminate.
  - intros c d v l _ IH a T F. inversion T; subst. inversion F; subst. eauto.
  - intros c d v l _ IH a T F. inversion T; subst. inversion F; subst. eauto.
  - intros c d v l _ IH a T F. inversion T; subst. inversion F; subst. eauto.
  - intros c d l _ IH a T F. inversion T; subst. eapply IH; [eassumption|constructor].
  - intros d c v l _ IH a T F. inversion T; subst. inversion F; subst. eauto.
  - intros d c v l _ IH a T F. inversion T; subst. inversion F; subst. eauto.
  - intros d c v l _ IH a T F. inversion T; subst. inversion F; subst. eauto.
  - intros d c l _ IH a T F. inversion T; subst. eapply IH; [eassumption|constructor].
  - intros d c v l _ IH a T F. inversion T; subst. apply IH. repeat constructor; cbn; eauto.
  - intros cs v l _ IH a T F. inversion T; subst. apply IH.
    match goal with H : Forall _ cs |- _ => clear -H F; induction H; constructor; cbn; eauto end.
  - intros cs vs l L _ IH a T F. inversion T; subst. inversion F; subst. apply IH.
    match goal with H : Forall2 (typed r ins) cs ts, H' : Forall2 fits ts vs |- _ =>
      clear -H H'; revert vs H'; induction H; intros vs H'; inversion H'; subst; cbn; constructor; cbn; eauto end.
  - intros _ u [].
  - intros c v ms l l' _ IH1 _ IH2 F u Hin. inversion F as [|m ms' (a & T & Fa) F']; subst. apply in_app_or in Hin. destruct Hin; eauto.
Qed.

(** ** Every value comes to an end *)
Lemma means_each ms : Forall (fun m => exists l, means p (fst m) (snd m) l) ms -> exists l, means_all p ms l.
Proof.
  intros F. induction F as [|[c v] ms [l H] F [l' IH]]; [exists []; constructor|]. exists (l ++ l'). constructor; assumption.
Qed.

Lemma forall2_len {A B} (R : A -> B -> Prop) l l' : Forall2 R l l' -> length l = length l'.
Proof. intros F. induction F; cbn; congruence. Qed.

Lemma forward_total r ins k :
  (forall i a v, k <= i -> nth_error ins i = Some a -> fits a v -> exists l, means p (CConnect (SNode i)) v l) ->
  forall c, forward k c -> forall a v, typed r ins c a -> fits a v -> exists l, means p c v l.
Proof.
  intros HN. induction c as [s| | |s c IH|a d IHa IHd|a d IHa IHd|d a IHd IHa|d a IHd IHa|d a IHd IHa|cs IH|cs IH] using chain_ind';
    intros W t v T F; inversion W; subst; inversion T; subst.
  - eexists. constructor.
  - eauto.
  - eexists. constructor.
  - eexists. constructor.
  - match goal with H : step_ty s t _ |- _ => destruct (does_total s v _ _ H F) as [[vs|] D]; [|eexists; apply M_stops, D];
      pose proof (does_fits _ _ _ _ _ H F D) as Hv end.
    destruct (means_each (map (fun u => (c, u)) vs)) as [l Hl]; [|exists l; eapply M_goes; eassumption].
    rewrite Forall_forall in *. intros m Hm. apply in_map_iff in Hm. destruct Hm as (u & <- & Hu). cbn. eauto.
  - inversion F; subst; [edestruct IHa as [l Hl]|edestruct IHd as [l Hl]]; eauto; exists l; constructor; assumption.
  - inversion F; subst; [edestruct IHa as [l Hl]|edestruct IHd as [l Hl]]; eauto; try (constructor); exists l; constructor; assumption.
  - inversion F; subst; [edestruct IHa as [l Hl]|edestruct IHd as [l Hl]]; eauto; exists l; constructor; assumption.
  - inversion F; subst; [edestruct IHa as [l Hl]|edestruct IHd as [l Hl]]; eauto; try (constructor); exists l; constructor; assumption.
  - destruct (means_each [(a, v); (d, v)]) as [l Hl]; [|exists l; constructor; exact Hl]. repeat constructor; cbn; eauto.
  - destruct (means_each (map (fun c => (c, v)) cs)) as [l Hl]; [|exists l; constructor; exact Hl].
    rewrite Forall_forall in *. intros m Hm. apply in_map_iff in Hm. destruct Hm as (c & <- & Hc). cbn. eauto.
  - inversion F; subst. match goal with H : Forall2 fits ts vs |- _ => rename H into F2 end.
    match goal with H : Forall2 (typed r ins) cs ts |- _ => rename H into T2 end.
    assert (L : length cs = length vs) by (rewrite (forall2_len _ _ _ T2), (forall2_len _ _ _ F2); reflexivity).
    destruct (means_each (combine cs vs)) as [l Hl]; [|exists l; constructor; assumption].
    clear -IH H0 T2 F2. revert vs F2. induction T2 as [|c t0 cs ts Tc T2 IH2]; intros vs F2; inversion F2; subst; cbn; constructor.
    + cbn. inversion IH; subst. inversion H0; subst. eauto.
    + apply IH2; [inversion IH|inversion H0|]; assumption.
Qed.

Lemma typed_total q r : typed_program p q r -> forward_program p -> forward 0 (p_main p) ->
  forall v, fits q v -> exists l, means p (p_main p) v l.
Proof.
  intros (ins & outs & Tm & Hl & HN) W Wm.
  assert (N : forall k i a v, length ins - i <= k -> nth_error ins i = Some a -> fits a v -> exists l, means p (CConnect (SNode i)) v l).
  { induction k as [|k IH]; intros i a v Hk Hi F.
    - assert (i < length ins) by (apply nth_error_Some; congruence). lia.
    - destruct (nth_error (p_nodes p) i) as [[g c]|] eqn:E.
      + destruct (HN i g c E) as (a' & b & Ea & Eb & Hm & Hc). assert (a' = a) by congruence. subst.
        destruct (forward_total r ins (S i)) with (c := c) (a := b) (v := g v) as [l Hl'].
        * intros j a' v' Hj Ha' F'. apply (IH j a' v'); [lia|exact Ha'|exact F'].
        * exact (W i g c E).
        * exact Hc.
        * exact (Hm v F).
        * exists l. eapply M_node; eassumption.
      + apply nth_error_None in E. assert (i < length ins) by (apply nth_error_Some; congruence). lia. }
  intros v F. apply (forward_total r ins 0) with (a := q); auto. intros i a u _ Hi Fu. exact (N _ i a u (le_n _) Hi Fu).
Qed.

Lemma forward_any c : forward 0 c.
Proof.
  induction c as [s| | |s c IH|a d IHa IHd|a d IHa IHd|d a IHd IHa|d a IHd IHa|d a IHd IHa|cs IH|cs IH] using chain_ind';
    try (constructor; assumption). destruct s; constructor; lia.
Qed.

(** ** Without [then_cancel] *)
Definition tame_kinds (b : bworld) : Prop := forall e, b_kind b e <> Some OCancel.
Lemma tame_add t k b : k <> OCancel -> tame_kinds b -> tame_kinds (b_add t k b).
Proof. intros Hk H e. cbn. unfold emap_set. destruct (Nat.eqb e t); [congruence|apply H]. Qed.
Lemma tame_spawn k b : k <> OCancel -> tame_kinds b -> tame_kinds (b_spawn k b).
Proof. intros Hk H e. cbn. unfold emap_set. destruct (Nat.eqb e (b_next b)); [congruence|apply H]. Qed.
Lemma tame_connect t n b : tame_kinds b -> tame_kinds (b_connect t n b).
Proof.
  intros H e. cbn. destruct (Nat.eqb e t); [discriminate|]. specialize (H e). destruct (b_kind b e) as [k|]; [|discriminate].
  destruct k; cbn; congruence.
Qed.
Lemma tame_outputs n : forall b, tame_kinds b -> tame_kinds (fst (b_outputs n b)).
Proof.
  induction n as [|n IH]; intros b H; cbn; [exact H|]. specialize (IH (b_spawn OUnused b) (tame_spawn OUnused b ltac:(discriminate) H)).
  destruct (b_outputs n (b_spawn OUnused b)). exact IH.
Qed.
Lemma tame_step s u : step_kind s u <> OCancel.
Proof. destruct s; discriminate. Qed.

Lemma tame_attach c : never_cancels c -> forall t b, tame_kinds b -> tame_kinds (attach c t b).
Proof.
  induction c as [s| | |s c IH|a d IHa IHd|a d IHa IHd|d a IHd IHa|d a IHd IHa|d a IHd IHa|cs IH|cs IH] using chain_ind';
    intros V t b H; inversion V; subst; cbn [attach].
  - apply tame_connect, H.
  - exact H.
  - apply IH; [assumption|]. apply tame_add; [apply tame_step|]. apply tame_spawn; [discriminate|exact H].
  - apply IHd; [assumption|]. apply IHa; [assumption|]. apply tame_add; [discriminate|]. repeat (apply tame_spawn; [discriminate|]). exact H.
  - apply IHd; [assumption|]. apply IHa; [assumption|]. apply tame_add; [discriminate|]. repeat (apply tame_spawn; [discriminate|]). exact H.
  - apply IHa; [assumption|]. apply IHd; [assumption|]. apply tame_add; [discriminate|]. repeat (apply tame_spawn; [discriminate|]). exact H.
  - apply IHa; [assumption|]. apply IHd; [assumption|]. apply tame_add; [discriminate|]. repeat (apply tame_spawn; [discriminate|]). exact H.
  - apply IHa; [assumption|]. apply IHd; [assumption|]. apply tame_add; [discriminate|]. repeat (apply tame_spawn; [discriminate|]). exact H.
  - pose proof (tame_outputs (length cs) b H) as Q1. destruct (b_outputs (length cs) b) as [b1 ts]. cbn in Q1.
    assert (Q2 : tame_kinds (b_add t (OForkClone ts) b1)) by (apply tame_add; [discriminate|exact Q1]).
    revert Q2. generalize (b_add t (OForkClone ts) b1) as b2. clear b1 Q1. revert ts.
    match goal with V : Forall never_cancels cs |- _ => clear -IH V; induction IH as [|c cs Hc IH IH2]; intros [|u ts] b2 Q2; try exact Q2;
      inversion V; subst; apply IH2; auto end.
  - pose proof (tame_outputs (length cs) b H) as Q1. destruct (b_outputs (length cs) b) as [b1 ts]. cbn in Q1.
    assert (Q2 : tame_kinds (b_add t (OUnzip ts) b1)) by (apply tame_add; [discriminate|exact Q1]).
    revert Q2. generalize (b_add t (OUnzip ts) b1) as b2. clear b1 Q1. revert ts.
    match goal with V : Forall never_cancels cs |- _ => clear -IH V; induction IH as [|c cs Hc IH IH2]; intros [|u ts] b2 Q2; try exact Q2;
      inversion V; subst; apply IH2; auto end.
Qed.

Lemma program_no_cancel : without_cancel p -> forall n, f_kind (workflow_of p) n <> Some OCancel.
Proof.
  intros [Vm Vn]. change (tame_kinds (assemble p)). unfold assemble.
  assert (C : forall l b, tame_kinds b -> tame_kinds (create_nodes l b)).
  { induction l as [|[g c] l IH]; intros b H; cbn [create_nodes]; [exact H|]. apply IH. repeat (apply tame_spawn; [discriminate|]). exact H. }
  assert (A : forall l i b, (forall g c, In (g, c) l -> never_cancels c) -> tame_kinds b -> tame_kinds (attach_nodes i l b)).
  { induction l as [|[g c] l IH]; intros i b V H; cbn [attach_nodes]; [exact H|]. apply IH; [intros; eapply V; right; eassumption|].
    apply tame_attach; [eapply V; left; reflexivity|exact H]. }
  apply A; [exact Vn|]. apply tame_attach; [exact Vm|]. apply C. intros e. cbn.
  destruct (Nat.eqb e the_terminal); [discriminate|]. destruct (Nat.eqb e the_input); discriminate.
Qed.
End Program.
