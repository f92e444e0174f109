(** Requests of a session are handed to services in the order in which they came. *)
From Verif Require Import Base ScopeModel InjectionModel InjectionSpec InjectionProofs InjectionProofs2.

Section InjectionProofs4.
  Context {V R : Type}.
  Notation world := (iworld V R).
  Notation log := (list (ievent V R)).

  Definition inputs_for (s : entity) (w : world) : list V :=
    map snd (filter (fun sv => Nat.eqb (fst sv) s) (iw_inputs w)).

  Definition ordered (w : world) : Prop := forall s, ~ cleaned s (iw_log w) ->
    issued_of s (iw_log w) = started_of s (iw_log w) ++ inputs_for s w.

  Lemma issued_app s (l1 l2 : log) : issued_of s (l1 ++ l2) = issued_of s l1 ++ issued_of s l2.
  Proof. apply flat_map_app. Qed.
  Lemma started_app s (l1 l2 : log) : started_of s (l1 ++ l2) = started_of s l1 ++ started_of s l2.
  Proof. apply flat_map_app. Qed.

  Definition other (e : ievent V R) : bool :=
    match e with JvIssued _ _ | JvStarted _ _ _ => false | _ => true end.

  Lemma other_none s (q : log) : forallb other q = true -> issued_of s q = [] /\ started_of s q = [].
  Proof.
    induction q as [|e q IH]; intros H; [split; reflexivity|]. cbn [forallb] in H.
    apply andb_prop in H as [H1 H2]. destruct (IH H2) as [A B].
    unfold issued_of, started_of in *. cbn [flat_map]. rewrite A, B. destruct e; try discriminate; split; reflexivity.
  Qed.

  Lemma ordered_other (w w' : world) q :
    iw_log w' = iw_log w ++ q -> forallb other q = true ->
    (forall s, ~ cleaned s q -> inputs_for s w' = inputs_for s w) -> ordered w -> ordered w'.
  Proof.
    intros E Q HI H s. rewrite E, cleaned_app, issued_app, started_app. intros C.
    destruct (other_none s q Q) as [-> ->]. rewrite !app_nil_r, HI by tauto. apply H. tauto.
  Qed.

  Lemma ordered_step w o : Inv w -> ordered w -> ordered (istep w o).
  Proof.
    intros I H. destruct o; cbn [istep].
    - intros s' C. unfold inputs_for. cbn [igive iw_log iw_inputs] in *. rewrite cleaned_app in C.
      rewrite issued_app, started_app, (H s') by tauto. unfold inputs_for.
      rewrite filter_app, map_app, app_nil_r, app_assoc. cbn. destruct (Nat.eqb s s'); reflexivity.
    - unfold iexec. destruct (iw_inputs w) as [|[s v] rest] eqn:Ei; [exact H|].
      intros s' C. unfold inputs_for. cbn [iw_log iw_inputs] in *. rewrite cleaned_app in C.
      rewrite issued_app, started_app, (H s') by tauto. unfold inputs_for. rewrite Ei.
      cbn. destruct (Nat.eqb s s'); cbn; rewrite ?app_nil_r, <- ?app_assoc; reflexivity.
    - unfold irespond. destruct (iw_tasks w t) as [x|]; [|exact H]. destruct (it_state x); try exact H.
      eapply ordered_other; [reflexivity|reflexivity|reflexivity|exact H].
    - unfold idispose. destruct (iw_tasks w t) as [x|]; [|exact H]. destruct (it_state x); try exact H.
      eapply ordered_other; [reflexivity|reflexivity|reflexivity|exact H].
    - unfold ifinish. destruct (iw_fins w f) as [[[s r]|]|]; try exact H.
      destruct (find _ _) as [i|]; [destruct (iw_tasks w (in_task i))|];
        (eapply ordered_other; [reflexivity|reflexivity|reflexivity|exact H]).
    - destruct (icleanup_effect now id s w I) as (_ & E2 & _ & _ & _ & E5 & _).
      eapply ordered_other; [exact E5| | |exact H].
      + cbn [forallb other andb]. unfold cleanup_events. destruct (nodes_of s w) as [|a l]; [reflexivity|].
        induction (filter now (a :: l)) as [|b m IH]; [reflexivity|exact IH].
      + intros s' C. unfold inputs_for. rewrite E2, filter_cut. destruct (Nat.eqb_spec s s') as [E|E]; [|reflexivity].
        exfalso. apply C. exists id. left. rewrite E. reflexivity.
    - unfold istopped. destruct (iw_tasks w t) as [x|]; [|exact H]. destruct (it_state x); try exact H.
      unfold istop. destruct (notify_contents _ _ _) as [c d].
      eapply ordered_other; [reflexivity|reflexivity|reflexivity|exact H].
    - unfold ifinalize. destruct (iw_done w) as [|i r]; [exact H|]. destruct (iw_await w i);
        (eapply ordered_other; [reflexivity|reflexivity|reflexivity|exact H]).
  Qed.

  Lemma ordered_irun os : forall w, Inv w -> ordered w -> ordered (irun w os).
  Proof.
    induction os as [|o os IH]; intros w I H; [exact H|]. cbn. apply IH; [apply Inv_step; exact I|].
    apply ordered_step; assumption.
  Qed.
End InjectionProofs4.
