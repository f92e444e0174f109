(** Proofs about tracing. *)
From Verif Require Import Base RosterModel BufferModel InputModel InputSpec OpsModel TraceModel TraceSpec.

(** ** The hierarchy of sessions *)
Record family (x : tworld) : Prop := {
  fa_child : forall e p, t_parent x e = Some p -> In e (t_known x) /\ In p (t_known x);
  fa_rank : exists rank : entity -> nat, forall e p, t_parent x e = Some p -> rank p < rank e
}.

Lemma known_in x e : known x e = true <-> In e (t_known x).
Proof.
  unfold known. rewrite existsb_exists. split.
  - intros (y & H & E). apply Nat.eqb_eq in E. subst y. exact H.
  - intros H. exists e. split; [exact H|apply Nat.eqb_refl].
Qed.

Lemma family_same x y : t_parent y = t_parent x -> t_known y = t_known x -> family x -> family y.
Proof. intros E1 E2 [F1 F2]. split; rewrite ?E1, ?E2; assumption. Qed.

Lemma take_traced_same x n : t_parent (fst (take_traced x n)) = t_parent x /\ t_known (fst (take_traced x n)) = t_known x /\
  t_trace (fst (take_traced x n)) = t_trace x.
Proof.
  unfold take_traced. destruct (take_input (t_w x) n) as [w r]. destruct r as [[s v]| |]; try (cbn; auto).
  destruct (t_trace x n) as [t|]; [|cbn; auto]. destruct (is_on (t_toggle t)); [|cbn; auto]. destruct (message_of t v); cbn; auto.
Qed.

Lemma in_same x o : t_parent (fst (tstep x (TIn o))) = t_parent x /\ t_known (fst (tstep x (TIn o))) = t_known x /\
  t_trace (fst (tstep x (TIn o))) = t_trace x.
Proof.
  assert (G : forall o', t_parent (fst (let '(w, r) := istep (t_w x) o' in (mk_t w (t_trace x) (t_parent x) (t_events x) (t_errors x) (t_known x), r))) = t_parent x /\
    t_known (fst (let '(w, r) := istep (t_w x) o' in (mk_t w (t_trace x) (t_parent x) (t_events x) (t_errors x) (t_known x), r))) = t_known x /\
    t_trace (fst (let '(w, r) := istep (t_w x) o' in (mk_t w (t_trace x) (t_parent x) (t_events x) (t_errors x) (t_known x), r))) = t_trace x).
  { intros o'. destruct (istep (t_w x) o'). cbn. auto. }
  destruct o; try apply G. cbn [tstep]. destruct (r_queue (w_roster (t_w x))) as [|n rest]; [cbn; auto|].
  match goal with |- context [take_traced ?y n] => pose proof (take_traced_same y n) as H; destruct (take_traced y n) as [x1 t] end.
  cbn [fst t_parent t_known t_trace] in *. exact H.
Qed.

Lemma family_step x a : family x -> family (fst (tstep x a)).
Proof.
  intros F. destruct a as [o|n df st i f|n t|e p|e p|e]; cbn [tstep].
  - destruct (in_same x o) as (E1 & E2 & _). exact (family_same _ _ E1 E2 F).
  - revert F. apply family_same; reflexivity.
  - destruct (t_trace x n); [|exact F]. revert F. apply family_same; reflexivity.
  - destruct (known x e) eqn:K; [exact F|]. destruct F as [F1 [rank F2]].
    assert (Ke : ~ In e (t_known x)) by (rewrite <- known_in; congruence).
    destruct (match p with Some p => known x p | None => true end) eqn:Kp; [|split; eauto].
    split; cbn [fst t_parent t_known].
    + intros e' p'. unfold emap_set. destruct (Nat.eqb_spec e' e) as [->|N].
      * intros ->. apply known_in in Kp. split; [left; reflexivity|right; exact Kp].
      * intros H. destruct (F1 _ _ H). split; right; assumption.
    + exists (fun y => if y =? e then match p with Some p => S (rank p) | None => 0 end else rank y).
      intros e' p'. unfold emap_set. destruct (Nat.eqb_spec e' e) as [->|N].
      * intros ->. apply known_in in Kp. destruct (Nat.eqb_spec p' e) as [->|N]; [contradiction|lia].
      * intros H. destruct (F1 _ _ H) as [_ H2]. destruct (Nat.eqb_spec p' e) as [->|N']; [contradiction|exact (F2 _ _ H)].
  - destruct (known x e) eqn:K; [|exact F]. destruct (known x p) eqn:Kp; [exact F|]. cbn [andb negb]. destruct F as [F1 [rank F2]].
    assert (Np : ~ In p (t_known x)) by (rewrite <- known_in; congruence). apply known_in in K. split; cbn [fst t_parent t_known].
    + intros e' p'. unfold emap_set. destruct (Nat.eqb_spec e' e) as [->|N].
      * intros [= <-]. split; [right; exact K|left; reflexivity].
      * intros H. destruct (F1 _ _ H). split; right; assumption.
    + exists (fun y => if y =? p then 0 else S (rank y)).
      intros e' p'. unfold emap_set. destruct (Nat.eqb_spec e' e) as [->|N].
      * intros [= <-]. rewrite Nat.eqb_refl. destruct (Nat.eqb_spec e p) as [->|N]; [contradiction|lia].
      * intros H. destruct (F1 _ _ H) as [H1 H2]. pose proof (F2 _ _ H).
        destruct (Nat.eqb_spec e' p) as [->|N']; [contradiction|]. destruct (Nat.eqb_spec p' p); lia.
  - destruct F as [F1 [rank F2]]. split; cbn [fst t_parent t_known].
    + intros e' p'. unfold emap_set. destruct (e' =? e); [discriminate|apply F1].
    + exists rank. intros e' p'. unfold emap_set. destruct (e' =? e); [discriminate|apply F2].
Qed.

Lemma trun_cons x a acts : fst (trun x (a :: acts)) = fst (trun (fst (tstep x a)) acts) /\
  snd (trun x (a :: acts)) = snd (tstep x a) :: snd (trun (fst (tstep x a)) acts).
Proof. cbn [trun]. destruct (tstep x a) as [x1 r]. cbn [fst snd]. destruct (trun x1 acts). cbn. auto. Qed.

Lemma family_run x acts : family x -> family (fst (trun x acts)).
Proof.
  revert x. induction acts as [|a acts IH]; intros x F; [exact F|]. rewrite (proj1 (trun_cons x a acts)). apply IH, family_step, F.
Qed.

Lemma family_init w : family (tinit w).
Proof. split; [intros e p H; discriminate|exists (fun _ => 0); intros e p H; discriminate]. Qed.

(** The walk ends at a root within the bound. *)
Lemma last_from {X} (p : X) l s : last (p :: l) s = last l p.
Proof. revert p s. induction l as [|z l IH]; intros p s; [reflexivity|]. change (last (z :: l) s = last (z :: l) p). rewrite !IH. reflexivity. Qed.

Lemma walk_length parent (rank : entity -> nat) known fuel : (forall e p, parent e = Some p -> rank p < rank e /\ In p known) ->
  forall s seen, NoDup seen -> incl seen known -> (forall y, In y seen -> rank s <= rank y) -> In s seen \/ seen = [] ->
  length known <= length seen + fuel ->
  parent (last (ancestors fuel parent s) s) = None.
Proof.
  intros P. induction fuel as [|fuel IH]; intros s seen Nd Inc Rk Hs L.
  - cbn. destruct (parent s) as [p|] eqn:E; [exfalso|reflexivity]. destruct (P _ _ E) as [R K].
    assert (Np : ~ In p seen) by (intros H; apply Rk in H; lia).
    assert (X : length (p :: seen) <= length known).
    { apply NoDup_incl_length; [constructor; assumption|]. intros y [<-|H]; [exact K|apply Inc, H]. }
    cbn in X. lia.
  - cbn [ancestors]. destruct (parent s) as [p|] eqn:E; [|exact E]. destruct (P _ _ E) as [R K].
    assert (Np : ~ In p seen) by (intros H; apply Rk in H; lia).
    assert (Q : parent (last (ancestors fuel parent p) p) = None).
    { apply (IH p (p :: seen)).
      - constructor; assumption.
      - intros y [<-|H]; [exact K|apply Inc, H].
      - intros y [<-|H]; [lia|]. apply Rk in H. lia.
      - left. left. reflexivity.
      - cbn [length]. lia. }
    rewrite last_from. exact Q.
Qed.

Lemma descends_snoc parent l a b : descends parent (l ++ [a]) -> parent b = Some a -> descends parent (l ++ [a; b]).
Proof.
  induction l as [|y l IH]; intros D E; [cbn; auto|]. cbn [app] in *. destruct (l ++ [a]) as [|z l'] eqn:El; [destruct l; discriminate|].
  assert (Z : exists l'', l ++ [a; b] = z :: l'').
  { destruct l as [|q l]; [injection El as -> _; eexists; reflexivity|]. injection El as -> _. eexists. reflexivity. }
  destruct Z as [l'' Z]. rewrite Z in *. destruct D as [D1 D2]. split; [exact D1|]. apply IH; assumption.
Qed.

Lemma walk_descends fuel parent : forall s, descends parent (rev (s :: ancestors fuel parent s)).
Proof.
  induction fuel as [|fuel IH]; intros s; [exact I|]. cbn [ancestors]. destruct (parent s) as [p|] eqn:E; [|exact I].
  specialize (IH p). cbn [rev] in *. rewrite <- app_assoc. apply descends_snoc; assumption.
Qed.

Lemma hd_rev {X} (s : X) l : hd_error (rev (s :: l)) = Some (last l s).
Proof.
  destruct (exists_last (l := s :: l)) as (l' & y & E); [discriminate|]. rewrite E, rev_app_distr. cbn. f_equal.
  assert (H : last (s :: l) s = y) by (rewrite E; apply last_last). rewrite <- H. destruct l; reflexivity.
Qed.

Lemma session_stack_is x s : family x -> is_stack (t_parent x) s (session_stack x s).
Proof.
  intros [F1 [rank F2]]. exists (last (ancestors (length (t_known x)) (t_parent x) s) s). split; [apply hd_rev|]. split; [|split].
  - apply (walk_length _ rank (t_known x) _) with (seen := []); auto.
    + intros e p H. split; [apply F2, H|exact (proj2 (F1 _ _ H))].
    + constructor.
    + intros y [].
    + intros y [].
  - apply walk_descends.
  - exists (rev (ancestors (length (t_known x)) (t_parent x) s)). reflexivity.
Qed.

(** ** Events *)
Lemma message_tells t n s v l m : message_of t v = inl m -> tells t n s v (mk_event n (l ++ [s]) (t_info t) m).
Proof.
  intros M. split; [reflexivity|]. split; [reflexivity|]. split; [exists l; reflexivity|]. cbn [e_message]. unfold message_of in M.
  destruct (t_toggle t); cbn [with_messages] in M; try (injection M as <-; reflexivity).
  destruct (t_ser t) as [f|]; [|injection M as <-; reflexivity]. destruct (f v); [injection M as <-; reflexivity|discriminate].
Qed.

Definition new_event (x : tworld) (r : iout val) (new : list event) : Prop :=
  match r with
  | Executed n (Took (s, v)) =>
      match t_trace x n with
      | Some t => if is_on (t_toggle t) then exists e, new = [e] /\ tells t n s v e /\ e_stack e = session_stack x s else new = []
      | None => new = []
      end
  | _ => new = []
  end.

Lemma take_event x n : exists new, t_events (fst (take_traced x n)) = t_events x ++ new /\ new_event x (Executed n (snd (take_traced x n))) new.
Proof.
  unfold take_traced. destruct (take_input (t_w x) n) as [w r]. destruct r as [[s v]| |].
  - destruct (t_trace x n) as [t|] eqn:Et.
    + destruct (is_on (t_toggle t)) eqn:On.
      * destruct (message_of t v) as [m|e] eqn:M.
        -- eexists. split; [reflexivity|]. cbn [snd new_event]. rewrite Et, On. eexists. split; [reflexivity|]. split; [apply message_tells; exact M|reflexivity].
        -- exists []. split; [cbn; rewrite app_nil_r; reflexivity|reflexivity].
      * exists []. split; [cbn; rewrite app_nil_r; reflexivity|]. cbn [snd new_event]. rewrite Et, On. reflexivity.
    + exists []. split; [cbn; rewrite app_nil_r; reflexivity|]. cbn [snd new_event]. rewrite Et. reflexivity.
  - exists []. split; [cbn; rewrite app_nil_r; reflexivity|reflexivity].
  - exists []. split; [cbn; rewrite app_nil_r; reflexivity|reflexivity].
Qed.

Lemma other_event x o : o <> IExec -> exists r, snd (tstep x (TIn o)) = r /\ t_events (fst (tstep x (TIn o))) = t_events x /\
  t_w (fst (tstep x (TIn o))) = fst (istep (t_w x) o) /\ r = snd (istep (t_w x) o) /\ forall n t, r <> Executed n t.
Proof.
  intros N. assert (E : tstep x (TIn o) = (let '(w, r) := istep (t_w x) o in (mk_t w (t_trace x) (t_parent x) (t_events x) (t_errors x) (t_known x), r))).
  { destruct o; try reflexivity. contradiction. }
  rewrite E. destruct (istep (t_w x) o) as [w r] eqn:I. exists r. cbn. repeat split. intros n t ->.
  destruct o; cbn [istep] in I; try (injection I as _ I; revert I; unfold delivery_out; try (destruct (_ <? _)); discriminate); contradiction.
Qed.

Lemma step_event x a : exists new, t_events (fst (tstep x a)) = t_events x ++ new /\ new_event x (snd (tstep x a)) new.
Proof.
  assert (Z : forall y r, t_events y = t_events x -> (forall n t, r <> Executed n t) -> exists new, t_events y = t_events x ++ new /\ new_event x r new).
  { intros y r E N. exists []. rewrite app_nil_r. split; [exact E|]. destruct r as [ | |n t| ]; try reflexivity. destruct (N n t eq_refl). }
  destruct a as [o|n df st i f|n t|e p|e p|e]; cbn [tstep].
  - assert (D : o = IExec \/ o <> IExec) by (destruct o; auto; right; discriminate). destruct D as [->|D].
    + destruct (r_queue (w_roster (t_w x))) as [|n rest]; [apply Z; [reflexivity|discriminate]|].
      match goal with |- context [take_traced ?y n] => destruct (take_event y n) as (new & E & H); destruct (take_traced y n) as [x1 t] end.
      exists new. split; [exact E|exact H].
    + destruct (other_event x o D) as (r & Er & Ee & _ & _ & N). apply Z; [exact Ee|]. change (forall n t, snd (tstep x (TIn o)) <> Executed n t). rewrite Er. exact N.
  - apply Z; [reflexivity|discriminate].
  - destruct (t_trace x n); apply Z; try reflexivity; discriminate.
  - destruct (known x e); [apply Z; [reflexivity|discriminate]|]. destruct (match p with Some p => known x p | None => true end); apply Z; try reflexivity; discriminate.
  - destruct (known x e && negb (known x p)); apply Z; try reflexivity; discriminate.
  - apply Z; [reflexivity|discriminate].
Qed.

Lemma leaves_same x a n : leaves n a -> t_trace (fst (tstep x a)) n = t_trace x n.
Proof.
  intros L. destruct a as [o|m df st i f|m t|e p|e p|e]; cbn [tstep leaves] in *.
  - change (t_trace (fst (tstep x (TIn o))) n = t_trace x n). rewrite (proj2 (proj2 (in_same x o))). reflexivity.
  - cbn. apply emap_set_neq. congruence.
  - destruct (t_trace x m); [|reflexivity]. cbn. apply emap_set_neq. congruence.
  - destruct (known x e); [reflexivity|]. destruct (match p with Some p => known x p | None => true end); reflexivity.
  - destruct (known x e && negb (known x p)); reflexivity.
  - reflexivity.
Qed.

Lemma about_app n l l' : about n (l ++ l') = about n l ++ about n l'.
Proof. apply filter_app. Qed.

Lemma run_about n t acts : Forall (leaves n) acts -> forall x, t_trace x n = Some t ->
  exists new, t_events (fst (trun x acts)) = t_events x ++ new /\
    if is_on (t_toggle t) then Forall2 (fun i e => tells t n (fst i) (snd i) e) (taken n (snd (trun x acts))) (about n new) else about n new = [].
Proof.
  induction 1 as [|a acts L _ IH]; intros x Et.
  - exists []. cbn. rewrite app_nil_r. split; [reflexivity|]. destruct (is_on (t_toggle t)); [constructor|reflexivity].
  - destruct (trun_cons x a acts) as [E1 E2]. rewrite E1, E2. destruct (step_event x a) as (new & En & Hn).
    destruct (IH (fst (tstep x a))) as (more & Em & Hm); [rewrite leaves_same by exact L; exact Et|].
    exists (new ++ more). split; [rewrite Em, En, app_assoc; reflexivity|]. rewrite about_app.
    destruct (snd (tstep x a)) as [m s v| |m [[s v]| |]| ]; cbn [new_event taken] in *; try (rewrite Hn; exact Hm).
    destruct (Nat.eqb_spec m n) as [->|N].
    + rewrite Et in Hn. destruct (is_on (t_toggle t)).
      * destruct Hn as (e & -> & T & _). assert (Ea : about n [e] = [e]) by (unfold about; cbn; rewrite (proj1 T), Nat.eqb_refl; reflexivity).
        rewrite Ea. cbn [app]. constructor; [exact T|exact Hm].
      * subst new. exact Hm.
    + assert (Ea : about n new = []).
      { destruct (t_trace x m) as [t'|]; [|subst new; reflexivity]. destruct (is_on (t_toggle t')); [|subst new; reflexivity].
        destruct Hn as (e & -> & T & _). unfold about. cbn. rewrite (proj1 T). destruct (Nat.eqb_spec m n); [contradiction|reflexivity]. }
      rewrite Ea. exact Hm.
Qed.

Lemma run_all acts : Forall (fun a => forall n, leaves n a) acts -> forall x,
  exists new, t_events (fst (trun x acts)) = t_events x ++ new /\
    Forall2 (fun i e => exists t, t_trace x (fst i) = Some t /\ tells t (fst i) (fst (snd i)) (snd (snd i)) e)
      (filter (fun i => traced_on x (fst i)) (all_taken (snd (trun x acts)))) new.
Proof.
  induction 1 as [|a acts L _ IH]; intros x.
  - exists []. cbn. rewrite app_nil_r. split; [reflexivity|constructor].
  - destruct (trun_cons x a acts) as [E1 E2]. rewrite E1, E2. destruct (step_event x a) as (new & En & Hn).
    destruct (IH (fst (tstep x a))) as (more & Em & Hm).
    assert (Et : forall n, t_trace (fst (tstep x a)) n = t_trace x n) by (intros n; apply leaves_same, L).
    assert (Ef : forall l : list (entity * (entity * val)), filter (fun i => traced_on (fst (tstep x a)) (fst i)) l = filter (fun i => traced_on x (fst i)) l).
    { intros l. apply filter_ext. intros i. unfold traced_on. rewrite Et. reflexivity. }
    rewrite Ef in Hm.
    assert (Hm' : Forall2 (fun i e => exists t, t_trace x (fst i) = Some t /\ tells t (fst i) (fst (snd i)) (snd (snd i)) e)
      (filter (fun i => traced_on x (fst i)) (all_taken (snd (trun (fst (tstep x a)) acts)))) more).
    { clear - Hm Et. induction Hm as [|i e l l' (t & T1 & T2) _ IHm]; constructor; [|exact IHm]. exists t. rewrite <- Et. auto. }
    exists (new ++ more). split; [rewrite Em, En, app_assoc; reflexivity|].
    destruct (snd (tstep x a)) as [m s v| |m [[s v]| |]| ]; cbn [new_event all_taken] in *; try (rewrite Hn; exact Hm').
    cbn [filter fst]. unfold traced_on at 1. destruct (t_trace x m) as [t|] eqn:Em'; [|rewrite Hn; exact Hm'].
    destruct (t_toggle t); cbn [is_on] in Hn.
    + rewrite Hn. exact Hm'.
    + destruct Hn as (e & -> & T & _). constructor; [|exact Hm']. exists t. auto.
    + destruct Hn as (e & -> & T & _). constructor; [|exact Hm']. exists t. auto.
Qed.

(** ** Tracing does not change what is traced *)
Definition sound_traces (P : trace -> Prop) (x : tworld) : Prop := forall n t, t_trace x n = Some t -> P t.

Lemma harmless_run (P : trace -> Prop) (Q : taction -> Prop) :
  (forall t v, P t -> exists m, message_of t v = inl m) ->
  (forall x a, Q a -> sound_traces P x -> sound_traces P (fst (tstep x a))) ->
  forall acts, Forall Q acts -> forall x, sound_traces P x ->
  t_w (fst (trun x acts)) = fst (irun (t_w x) (traffic acts)) /\
  traffic_outs acts (snd (trun x acts)) = snd (irun (t_w x) (traffic acts)).
Proof.
  intros HP HQ. induction 1 as [|a acts Ha _ IH]; intros x S; [cbn; auto|].
  destruct (trun_cons x a acts) as [E1 E2]. rewrite E1, E2. destruct (IH _ (HQ x a Ha S)) as [I1 I2].
  unfold traffic_outs. cbn [combine flat_map fst snd]. fold (traffic_outs acts (snd (trun (fst (tstep x a)) acts))). rewrite I1, I2.
  assert (O : untraced a = false -> t_w (fst (tstep x a)) = t_w x).
  { intros U. destruct a as [o|m df st i f|m t|e p|e p|e]; try discriminate; cbn [tstep]; try reflexivity.
    - destruct (t_trace x m); reflexivity.
    - destruct (known x e); [reflexivity|]. destruct (match p with Some p => known x p | None => true end); reflexivity.
    - destruct (known x e && negb (known x p)); reflexivity. }
  destruct a as [o|m df st i f|m t|e p|e p|e]; cbn [untraced traffic flat_map app] in *; try (rewrite O by reflexivity; split; reflexivity).
  fold (traffic acts). cbn [irun].
  assert (Y : t_w (fst (tstep x (TIn o))) = fst (istep (t_w x) o) /\ snd (tstep x (TIn o)) = snd (istep (t_w x) o)).
  { assert (D : o = IExec \/ o <> IExec) by (destruct o; auto; right; discriminate). destruct D as [->|D].
    - cbn [tstep istep]. destruct (r_queue (w_roster (t_w x))) as [|n rest]; [split; reflexivity|].
      unfold take_traced. cbn [t_w t_trace]. destruct (take_input _ n) as [w r]. destruct r as [[s v]| |]; [|split; reflexivity..].
      destruct (t_trace x n) as [t|] eqn:Et; [|split; reflexivity]. destruct (is_on (t_toggle t)); [|split; reflexivity].
      destruct (HP t v (S n t Et)) as [m ->]. split; reflexivity.
    - destruct (other_event x o D) as (r & -> & _ & -> & -> & _). split; reflexivity. }
  destruct Y as [Y1 Y2]. rewrite Y1, Y2. destruct (istep (t_w x) o) as [w r]. cbn [fst snd]. destruct (irun w (traffic acts)). cbn. auto.
Qed.

Lemma sound_step (P : trace -> Prop) x a :
  (forall n d s i f, a = TAttach n d s i f -> P (trace_for d s i f)) ->
  (forall n t tr, a = TToggle n t -> P tr -> P (mk_trace t (t_info tr) (t_ser tr))) ->
  sound_traces P x -> sound_traces P (fst (tstep x a)).
Proof.
  intros H1 H2 S n t. destruct a as [o|m df st i f|m t'|e p|e p|e]; cbn [tstep].
  - change (t_trace (fst (tstep x (TIn o))) n = Some t -> P t). rewrite (proj2 (proj2 (in_same x o))). apply S.
  - cbn. unfold emap_set. destruct (n =? m); [intros [= <-]; eapply H1; reflexivity|apply S].
  - destruct (t_trace x m) as [tr|] eqn:E; [|apply S]. cbn. unfold emap_set. destruct (n =? m); [|apply S].
    intros [= <-]. eapply H2; [reflexivity|exact (S _ _ E)].
  - destruct (known x e); [apply S|]. destruct (match p with Some p => known x p | None => true end); apply S.
  - destruct (known x e && negb (known x p)); apply S.
  - apply S.
Qed.
