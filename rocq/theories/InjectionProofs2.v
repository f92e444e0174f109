(** Invariants of injection nodes: requests and responses. *)
From Verif Require Import Base ScopeModel ScopeProofs InjectionModel InjectionSpec InjectionProofs.

Section InjectionProofs2.
  Context {V R : Type}.
  Notation world := (iworld V R).
  Notation log := (list (ievent V R)).

  Definition of_session (s : entity) (w : world) : list injected :=
    filter (fun i => Nat.eqb (in_sess i) s) (iw_list w).

  Record Inv (w : world) : Prop := mk_Inv {
    v_list : forall i, In i (iw_list w) ->
      exists st, iw_tasks w (in_task i) = Some (mk_itask (in_sess i) (in_fin i) st) /\
        match st with
        | TRunning | TDisposed => iw_fins w (in_fin i) = Some None
        | TAnswered => exists r, iw_fins w (in_fin i) = Some (Some (in_sess i, r)) /\
                        In (JvResponse (in_sess i) (in_task i) r) (iw_log w)
        | _ => False
        end;
    v_task : forall t x, iw_tasks w t = Some x -> t < iw_next w /\ it_fin x < iw_next w;
    v_live : forall t x, iw_tasks w t = Some x ->
      match it_state x with
      | TRunning | TAnswered | TDisposed => In (mk_injected (it_sess x) t (it_fin x)) (iw_list w)
      | _ => True
      end;
    v_ndt : NoDup (map in_task (iw_list w));
    v_ndf : NoDup (map in_fin (iw_list w));
    v_fin : forall f x, iw_fins w f = Some x -> f < iw_next w;
    v_inputs : forall s, map snd (filter (fun sv => Nat.eqb (fst sv) s) (iw_inputs w))
      = requests_waiting s [] (iw_log w);
    v_open : forall s, map in_task (of_session s w) = tasks_open s [] (iw_log w);
    v_held : forall f s r, iw_fins w f = Some (Some (s, r)) ->
      (exists i, In i (iw_list w) /\ in_fin i = f) \/ cleaned s (iw_log w);
    v_lost : forall s r, In (JvLost s r) (iw_log w) -> cleaned s (iw_log w);
    v_disp : forall s t, In (JvDisposed s t) (iw_log w) ->
      cleaned s (iw_log w) \/
      exists f, In (mk_injected s t f) (iw_list w) /\ iw_tasks w t = Some (mk_itask s f TDisposed);
    v_resp : forall s, ~ cleaned s (iw_log w) ->
      Permutation (responses_of s (iw_log w)) (outs_of s (iw_log w) ++ at_finish w s);
    v_out : forall s t r, In (JvOut s t r) (iw_log w) ->
      t < iw_next w /\ iw_tasks w t = None /\ In (JvResponse s t r) (iw_log w);
    v_once : NoDup (out_tasks (iw_log w)) }.

  Lemma Inv_fresh n : Inv (ifresh n).
  Proof.
    constructor; cbn; try discriminate; try contradiction; try constructor; try reflexivity.
  Qed.

  Lemma in_snoc {A} (x y : A) l : In x (l ++ [y]) <-> In x l \/ x = y.
  Proof. rewrite in_app_iff. cbn [In]. split; intros [H|H]; auto. destruct H as [H|[]]. auto. Qed.

  Lemma Inv_give s v w : Inv w -> Inv (igive s v w).
  Proof.
    intros [A1 A2 A3 A4 A5 A6 A7 A8 A9 A10 A11 A12 A13 A14].
    assert (C : forall s', cleaned s' (iw_log w ++ [JvIssued s v]) <-> cleaned s' (iw_log w)).
    { intros s'. rewrite cleaned_app. split; [|tauto]. intros [H|[id [H|[]]]]; [exact H|discriminate]. }
    constructor; cbn [igive iw_next iw_inputs iw_list iw_tasks iw_fins iw_log of_session] in *; try assumption.
    - intros i Hi. destruct (A1 i Hi) as [st [E1 E2]]. exists st. split; [exact E1|].
      destruct st; auto. destruct E2 as [r [E2 E3]]. exists r. split; [exact E2|]. apply in_snoc. left. exact E3.
    - intros s'. rewrite waiting_app, <- A7, filter_app, map_app. cbn [requests_waiting filter fst].
      destruct (Nat.eqb s s'); cbn [map snd]; rewrite ?app_nil_r; reflexivity.
    - intros s'. rewrite open_app. cbn [tasks_open]. apply A8.
    - intros f s' r H. rewrite C. eapply A9. exact H.
    - intros s' r H. apply in_snoc in H as [H|H]; [|discriminate]. apply C. eapply A10. exact H.
    - intros s' t H. apply in_snoc in H as [H|H]; [|discriminate]. rewrite C. apply A11. exact H.
    - intros s' H. rewrite C in H. rewrite responses_app, outs_app. cbn. rewrite !app_nil_r. apply A12. exact H.
    - intros s' t r H. apply in_snoc in H as [H|H]; [|discriminate]. destruct (A13 _ _ _ H) as [B1 [B2 B3]].
      repeat split; try assumption. apply in_snoc. left. exact B3.
    - rewrite out_tasks_app. cbn. rewrite app_nil_r. exact A14.
  Qed.

  Lemma flat_map_ext_in {A B} (g h : A -> list B) l :
    (forall x, In x l -> g x = h x) -> flat_map g l = flat_map h l.
  Proof.
    induction l as [|a l IH]; cbn [flat_map]; intros H; [reflexivity|].
    rewrite (H a (or_introl eq_refl)), IH; [reflexivity|]. intros x Hx. apply H. right. exact Hx.
  Qed.

  Lemma Inv_exec w : Inv w -> Inv (iexec w).
  Proof.
    intros I. pose proof I as [A1 A2 A3 A4 A5 A6 A7 A8 A9 A10 A11 A12 A13 A14].
    unfold iexec. destruct (iw_inputs w) as [|[s v] rest] eqn:Ei; [exact I|].
    set (n := iw_next w) in *.
    assert (C : forall s', cleaned s' (iw_log w ++ [JvStarted s (S n) v]) <-> cleaned s' (iw_log w)).
    { intros s'. rewrite cleaned_app. split; [|tauto]. intros [H|[id [H|[]]]]; [exact H|discriminate]. }
    assert (LT : forall i, In i (iw_list w) -> in_task i < n /\ in_fin i < n).
    { intros i Hi. destruct (A1 i Hi) as [st [E _]]. apply A2 in E. exact E. }
    constructor; cbn [iw_next iw_inputs iw_list iw_tasks iw_fins iw_log of_session].
    - intros i Hi. apply in_snoc in Hi as [Hi|Hi].
      + destruct (LT i Hi) as [L1 L2]. destruct (A1 i Hi) as [st [E1 E2]]. exists st.
        rewrite emap_set_neq by lia. rewrite emap_set_neq by lia. split; [exact E1|].
        destruct st; auto. destruct E2 as [r [E2 E3]]. exists r. split; [exact E2|]. apply in_snoc. left. exact E3.
      + subst i. cbn [in_sess in_task in_fin]. exists TRunning. rewrite !emap_set_eq. split; reflexivity.
    - intros t x H. destruct (Nat.eq_dec t (S n)) as [E|E].
      + subst t. rewrite emap_set_eq in H. injection H as <-. cbn [it_fin]. lia.
      + rewrite emap_set_neq in H by exact E. apply A2 in H. lia.
    - intros t x H. destruct (Nat.eq_dec t (S n)) as [E|E].
      + subst t. rewrite emap_set_eq in H. injection H as <-. cbn [it_state it_fin it_sess].
        apply in_snoc. right. reflexivity.
      + rewrite emap_set_neq in H by exact E. apply A3 in H.
        destruct (it_state x); try exact Logic.I; apply in_snoc; left; exact H.
    - rewrite map_app. cbn [map in_task]. apply NoDup_app_comm_snoc; [exact A4|].
      intros H. apply in_map_iff in H as [i [E H]]. apply LT in H. lia.
    - rewrite map_app. cbn [map in_fin]. apply NoDup_app_comm_snoc; [exact A5|].
      intros H. apply in_map_iff in H as [i [E H]]. apply LT in H. lia.
    - intros f x H. destruct (Nat.eq_dec f n) as [E|E]; [lia|].
      rewrite emap_set_neq in H by exact E. apply A6 in H. lia.
    - intros s'. rewrite waiting_app, <- A7. cbn [requests_waiting filter fst].
      destruct (Nat.eqb s s'); reflexivity.
    - intros s'. rewrite open_app, <- A8. cbn [tasks_open]. unfold of_session. cbn [iw_list]. rewrite filter_app, map_app.
      cbn [filter in_sess]. destruct (Nat.eqb s s'); cbn [map in_task]; rewrite ?app_nil_r; reflexivity.
    - intros f s' r H. destruct (Nat.eq_dec f n) as [E|E].
      + subst f. rewrite emap_set_eq in H. discriminate.
      + rewrite emap_set_neq in H by exact E. rewrite C.
        destruct (A9 _ _ _ H) as [[i [B1 B2]]|B]; [left; exists i; split; [apply in_snoc; left; exact B1|exact B2]|right; exact B].
    - intros s' r H. apply in_snoc in H as [H|H]; [|discriminate]. apply C. eapply A10. exact H.
    - intros s' t H. apply in_snoc in H as [H|H]; [|discriminate]. rewrite C.
      destruct (A11 _ _ H) as [B|[f [B1 B2]]]; [left; exact B|right]. exists f.
      split; [apply in_snoc; left; exact B1|]. rewrite emap_set_neq; [exact B2|]. apply A2 in B2. lia.
    - intros s' H. rewrite C in H. rewrite responses_app, outs_app. cbn. rewrite !app_nil_r.
      apply A12 in H. eapply Permutation_trans; [exact H|]. apply Permutation_app_head.
      unfold at_finish. cbn [iw_list iw_fins]. rewrite flat_map_app. cbn [flat_map in_sess in_fin].
      rewrite emap_set_eq. destruct (Nat.eqb s s'); cbn [app]; rewrite app_nil_r;
        (match goal with |- Permutation ?a ?b => replace b with a; [apply Permutation_refl|] end;
         apply flat_map_ext_in; intros i Hi; cbv beta;
         rewrite emap_set_neq; [reflexivity|]; apply LT in Hi; lia).
    - intros s' t r H. apply in_snoc in H as [H|H]; [|discriminate]. destruct (A13 _ _ _ H) as [B1 [B2 B3]].
      repeat split; [lia| |apply in_snoc; left; exact B3]. rewrite emap_set_neq by lia. exact B2.
    - rewrite out_tasks_app. cbn. rewrite app_nil_r. exact A14.
  Qed.

  (** An entry of the list is the only one with its task and its finish entity. *)
  Lemma entry_task (w : world) i j : Inv w -> In i (iw_list w) -> In j (iw_list w) -> in_task i = in_task j -> i = j.
  Proof. intros I. apply map_inj. apply (v_ndt _ I). Qed.
  Lemma entry_fin (w : world) i j : Inv w -> In i (iw_list w) -> In j (iw_list w) -> in_fin i = in_fin j -> i = j.
  Proof. intros I. apply map_inj. apply (v_ndf _ I). Qed.

  Lemma at_finish_put (l : list injected) (fins : emap (option (entity * R))) s0 t0 f0 r0 s :
    In (mk_injected s0 t0 f0) l -> NoDup (map in_fin l) -> fins f0 = Some None ->
    Permutation
      (flat_map (fun i =>
         if Nat.eqb (in_sess i) s
         then match emap_set fins f0 (Some (Some (s0, r0))) (in_fin i) with
              | Some (Some (_, r)) => [(in_task i, r)] | _ => [] end
         else []) l)
      (flat_map (fun i =>
         if Nat.eqb (in_sess i) s
         then match fins (in_fin i) with Some (Some (_, r)) => [(in_task i, r)] | _ => [] end
         else []) l ++ (if Nat.eqb s0 s then [(t0, r0)] else [])).
  Proof.
    intros H N F. induction l as [|a l IH]; [contradiction|]. cbn [map] in N. inversion N as [|? ? N1 N2]; subst.
    cbn [flat_map]. destruct H as [H|H].
    - subst a. cbn [in_sess in_fin in_task] in *. rewrite emap_set_eq, F.
      match goal with |- Permutation (_ ++ flat_map ?g l) ((_ ++ flat_map ?h l) ++ _) =>
        replace (flat_map g l) with (flat_map h l) end.
      2:{ apply flat_map_ext_in. intros i Hi. cbv beta. rewrite emap_set_neq; [reflexivity|].
          intros E. apply N1. rewrite <- E. apply in_map. exact Hi. }
      destruct (Nat.eqb s0 s); cbn [app]; [apply Permutation_cons_append|rewrite app_nil_r; apply Permutation_refl].
    - rewrite emap_set_neq.
      + rewrite <- app_assoc. apply Permutation_app_head. apply IH; assumption.
      + intros E. apply N1. rewrite E. apply in_map_iff. exists (mk_injected s0 t0 f0). split; [reflexivity|exact H].
  Qed.

  Lemma Inv_respond t r w : Inv w -> Inv (irespond t r w).
  Proof.
    intros I. pose proof I as [A1 A2 A3 A4 A5 A6 A7 A8 A9 A10 A11 A12 A13 A14].
    unfold irespond. destruct (iw_tasks w t) as [[s f st]|] eqn:Et; [|exact I].
    cbn [it_state it_sess it_fin]. destruct st; try exact I.
    pose proof (A3 _ _ Et) as Hl. cbn [it_state it_sess it_fin] in Hl.
    assert (Ff : iw_fins w f = Some None).
    { destruct (A1 _ Hl) as [st [E1 E2]]. cbn [in_task in_fin in_sess] in *. rewrite Et in E1.
      injection E1 as <-. exact E2. }
    assert (C : forall s', cleaned s' (iw_log w ++ [JvResponse s t r]) <-> cleaned s' (iw_log w)).
    { intros s'. rewrite cleaned_app. split; [|tauto]. intros [H|[id [H|[]]]]; [exact H|discriminate]. }
    constructor; cbn [ilog put_fin put_task set_state it_sess it_fin iw_next iw_inputs iw_list iw_tasks iw_fins iw_log of_session]; try assumption.
    - intros i Hi. destruct (Nat.eq_dec (in_task i) t) as [E|E].
      + assert (i = mk_injected s t f) by (eapply entry_task; [exact I|exact Hi|exact Hl|exact E]). subst i.
        cbn [in_task in_fin in_sess]. exists TAnswered. rewrite !emap_set_eq. split; [reflexivity|].
        exists r. split; [reflexivity|]. apply in_snoc. right. reflexivity.
      + rewrite emap_set_neq by exact E. rewrite emap_set_neq.
        * destruct (A1 i Hi) as [st [E1 E2]]. exists st. split; [exact E1|]. destruct st; auto.
          destruct E2 as [r' [E2 E3]]. exists r'. split; [exact E2|]. apply in_snoc. left. exact E3.
        * intros E'. apply E. assert (i = mk_injected s t f) as ->; [|reflexivity].
          eapply entry_fin; [exact I|exact Hi|exact Hl|exact E'].
    - intros u x H. destruct (Nat.eq_dec u t) as [E|E].
      + subst u. rewrite emap_set_eq in H. injection H as <-. apply (A2 _ _ Et).
      + rewrite emap_set_neq in H by exact E. apply A2. exact H.
    - intros u x H. destruct (Nat.eq_dec u t) as [E|E].
      + subst u. rewrite emap_set_eq in H. injection H as <-. cbn [it_state it_sess it_fin]. exact Hl.
      + rewrite emap_set_neq in H by exact E. apply A3. exact H.
    - intros g x H. destruct (Nat.eq_dec g f) as [E|E].
      + subst g. apply (A6 _ _ Ff).
      + rewrite emap_set_neq in H by exact E. eapply A6. exact H.
    - intros s'. rewrite waiting_app. cbn [requests_waiting]. apply A7.
    - intros s'. rewrite open_app. cbn [tasks_open]. apply A8.
    - intros g s' r' H. rewrite C. destruct (Nat.eq_dec g f) as [E|E].
      + subst g. left. eexists. split; [exact Hl|reflexivity].
      + rewrite emap_set_neq in H by exact E. eapply A9. exact H.
    - intros s' r' H. apply in_snoc in H as [H|H]; [|discriminate]. apply C. eapply A10. exact H.
    - intros s' u H. apply in_snoc in H as [H|H]; [|discriminate]. rewrite C.
      destruct (A11 _ _ H) as [B|[g [B1 B2]]]; [left; exact B|right]. exists g. split; [exact B1|].
      rewrite emap_set_neq; [exact B2|]. intros E. subst u. congruence.
    - intros s' H. rewrite C in H. rewrite responses_app, outs_app. cbn [responses_of outs_of flat_map].
      rewrite !app_nil_r. apply A12 in H.
      unfold at_finish. cbn [ilog put_fin put_task iw_list iw_fins].
      eapply Permutation_trans; [apply Permutation_app_tail; exact H|].
      rewrite <- app_assoc. apply Permutation_app_head. apply Permutation_sym.
      apply (at_finish_put _ _ s t f r s' Hl A5 Ff).
    - intros s' u r' H. apply in_snoc in H as [H|H]; [|discriminate]. destruct (A13 _ _ _ H) as [B1 [B2 B3]].
      repeat split; [exact B1| |apply in_snoc; left; exact B3]. rewrite emap_set_neq; [exact B2|congruence].
    - rewrite out_tasks_app. cbn. rewrite app_nil_r. exact A14.
  Qed.

  Lemma Inv_dispose t w : Inv w -> Inv (idispose t w).
  Proof.
    intros I. pose proof I as [A1 A2 A3 A4 A5 A6 A7 A8 A9 A10 A11 A12 A13 A14].
    unfold idispose. destruct (iw_tasks w t) as [[s f st]|] eqn:Et; [|exact I].
    cbn [it_state it_sess it_fin]. destruct st; try exact I.
    pose proof (A3 _ _ Et) as Hl. cbn [it_state it_sess it_fin] in Hl.
    assert (Ff : iw_fins w f = Some None).
    { destruct (A1 _ Hl) as [st [E1 E2]]. cbn [in_task in_fin in_sess] in *. rewrite Et in E1.
      injection E1 as <-. exact E2. }
    assert (C : forall s', cleaned s' (iw_log w ++ [JvDisposed s t]) <-> cleaned s' (iw_log w)).
    { intros s'. rewrite cleaned_app. split; [|tauto]. intros [H|[id [H|[]]]]; [exact H|discriminate]. }
    constructor; cbn [ilog put_fin put_task set_state it_sess it_fin iw_next iw_inputs iw_list iw_tasks iw_fins iw_log of_session]; try assumption.
    - intros i Hi. destruct (Nat.eq_dec (in_task i) t) as [E|E].
      + assert (i = mk_injected s t f) by (eapply entry_task; [exact I|exact Hi|exact Hl|exact E]). subst i.
        cbn [in_task in_fin in_sess]. exists TDisposed. rewrite emap_set_eq. split; [reflexivity|exact Ff].
      + rewrite emap_set_neq by exact E.
        destruct (A1 i Hi) as [st [E1 E2]]. exists st. split; [exact E1|]. destruct st; auto.
        destruct E2 as [r' [E2 E3]]. exists r'. split; [exact E2|]. apply in_snoc. left. exact E3.
    - intros u x H. destruct (Nat.eq_dec u t) as [E|E].
      + subst u. rewrite emap_set_eq in H. injection H as <-. apply (A2 _ _ Et).
      + rewrite emap_set_neq in H by exact E. apply A2. exact H.
    - intros u x H. destruct (Nat.eq_dec u t) as [E|E].
      + subst u. rewrite emap_set_eq in H. injection H as <-. cbn [it_state it_sess it_fin]. exact Hl.
      + rewrite emap_set_neq in H by exact E. apply A3. exact H.
    - intros s'. rewrite waiting_app. cbn [requests_waiting]. apply A7.
    - intros s'. rewrite open_app. cbn [tasks_open]. apply A8.
    - intros g s' r' H. rewrite C. eapply A9. exact H.
    - intros s' r' H. apply in_snoc in H as [H|H]; [|discriminate]. apply C. eapply A10. exact H.
    - intros s' u H. rewrite C. apply in_snoc in H as [H|H].
      + destruct (A11 _ _ H) as [B|[g [B1 B2]]]; [left; exact B|right]. exists g. split; [exact B1|].
        rewrite emap_set_neq; [exact B2|]. intros E. subst u. congruence.
      + injection H as -> ->. right. exists f. split; [exact Hl|]. apply emap_set_eq.
    - intros s' H. rewrite C in H. rewrite responses_app, outs_app. cbn. rewrite !app_nil_r. apply A12. exact H.
    - intros s' u r' H. apply in_snoc in H as [H|H]; [|discriminate]. destruct (A13 _ _ _ H) as [B1 [B2 B3]].
      repeat split; [exact B1| |apply in_snoc; left; exact B3]. rewrite emap_set_neq; [exact B2|congruence].
    - rewrite out_tasks_app. cbn. rewrite app_nil_r. exact A14.
  Qed.

  Lemma at_finish_take (l : list injected) (fins : emap (option (entity * R))) s0 t0 f0 r0 s :
    In (mk_injected s0 t0 f0) l -> NoDup (map in_fin l) -> fins f0 = Some (Some (s0, r0)) ->
    Permutation
      (flat_map (fun i =>
         if Nat.eqb (in_sess i) s
         then match fins (in_fin i) with Some (Some (_, r)) => [(in_task i, r)] | _ => [] end
         else []) l)
      ((if Nat.eqb s0 s then [(t0, r0)] else []) ++
       flat_map (fun i =>
         if Nat.eqb (in_sess i) s
         then match emap_set fins f0 None (in_fin i) with
              | Some (Some (_, r)) => [(in_task i, r)] | _ => [] end
         else []) (filter (fun i => negb (Nat.eqb (in_fin i) f0)) l)).
  Proof.
    intros H N F. induction l as [|a l IH]; [contradiction|]. cbn [map] in N. inversion N as [|? ? N1 N2]; subst.
    cbn [flat_map filter]. destruct H as [H|H].
    - subst a. cbn [in_sess in_fin in_task] in *. rewrite F, Nat.eqb_refl. cbn [negb].
      rewrite filter_all.
      + apply Permutation_app; [destruct (Nat.eqb s0 s); apply Permutation_refl|].
        match goal with |- Permutation ?a ?b => replace b with a; [apply Permutation_refl|] end.
        apply flat_map_ext_in. intros i Hi. cbv beta. rewrite emap_set_neq; [reflexivity|].
        intros E. apply N1. rewrite <- E. apply in_map. exact Hi.
      + intros i Hi. destruct (Nat.eqb_spec (in_fin i) f0) as [E|E]; [|reflexivity].
        exfalso. apply N1. rewrite <- E. apply in_map. exact Hi.
    - assert (E : in_fin a <> f0).
      { intros E. apply N1. rewrite E. apply in_map_iff. exists (mk_injected s0 t0 f0). split; [reflexivity|exact H]. }
      destruct (Nat.eqb_spec (in_fin a) f0) as [E'|_]; [contradiction|]. cbn [negb flat_map].
      rewrite emap_set_neq by exact E.
      eapply Permutation_trans; [apply Permutation_app_head; apply IH; assumption|].
      rewrite Permutation_app_swap_app. apply Permutation_refl.
  Qed.

  Lemma filter_fin_task (l : list injected) s0 t0 f0 s :
    In (mk_injected s0 t0 f0) l -> NoDup (map in_fin l) -> NoDup (map in_task l) ->
    map in_task (filter (fun i => Nat.eqb (in_sess i) s) (filter (fun i => negb (Nat.eqb (in_fin i) f0)) l))
    = if Nat.eqb s0 s
      then filter (fun u => negb (Nat.eqb u t0)) (map in_task (filter (fun i => Nat.eqb (in_sess i) s) l))
      else map in_task (filter (fun i => Nat.eqb (in_sess i) s) l).
  Proof.
    intros H Nf Nt.
    assert (P : forall i, In i l -> (Nat.eqb (in_fin i) f0 = Nat.eqb (in_task i) t0) /\
                              (in_fin i = f0 -> in_sess i = s0)).
    { intros i Hi. destruct (Nat.eqb_spec (in_fin i) f0) as [E|E], (Nat.eqb_spec (in_task i) t0) as [E'|E'];
        split; auto; try contradiction; intros.
      - assert (i = mk_injected s0 t0 f0) as -> by (eapply (map_inj in_fin); eassumption). reflexivity.
      - assert (i = mk_injected s0 t0 f0) as -> by (eapply (map_inj in_fin); eassumption). contradiction E'. reflexivity.
      - assert (i = mk_injected s0 t0 f0) as -> by (eapply (map_inj in_fin); eassumption). reflexivity.
      - assert (i = mk_injected s0 t0 f0) as -> by (eapply (map_inj in_task); eassumption). contradiction E. reflexivity. }
    clear H Nf Nt. induction l as [|a l IH]; [destruct (Nat.eqb s0 s); reflexivity|].
    destruct (P a (or_introl eq_refl)) as [P1 P2].
    assert (IH' := IH (fun i Hi => P i (or_intror Hi))). clear IH.
    cbn [filter]. rewrite P1 in *. destruct (Nat.eqb_spec (in_task a) t0) as [E|E]; cbn [negb filter].
    - apply Nat.eqb_eq in P1. rewrite (P2 P1). rewrite IH'. destruct (Nat.eqb s0 s) eqn:Es; [|reflexivity].
      cbn [map filter]. rewrite E, Nat.eqb_refl. reflexivity.
    - destruct (Nat.eqb (in_sess a) s) eqn:Ea; cbn [map filter]; [|exact IH'].
      rewrite IH'. destruct (Nat.eqb s0 s); [|reflexivity].
      destruct (Nat.eqb_spec (in_task a) t0); [contradiction|]. reflexivity.
  Qed.

  Lemma Inv_finish f w : Inv w -> Inv (ifinish f w).
  Proof.
    intros I. pose proof I as [A1 A2 A3 A4 A5 A6 A7 A8 A9 A10 A11 A12 A13 A14].
    unfold ifinish. destruct (iw_fins w f) as [[[s r]|]|] eqn:Ef; try exact I.
    pose proof (find_fin f (iw_list w)) as Hf.
    destruct (find (fun i => Nat.eqb (in_fin i) f) (iw_list w)) as [i|].
    - destruct Hf as [Hi Ei]. destruct (A1 i Hi) as [st [E1 E2]]. rewrite E1.
      destruct i as [s0 t f0]. cbn [in_sess in_task in_fin] in *. subst f0.
      assert (S : s0 = s /\ In (JvResponse s t r) (iw_log w)).
      { destruct st; try contradiction; try congruence. destruct E2 as [r' [E2 E3]]. rewrite Ef in E2.
        injection E2 as <- <-. split; [reflexivity|exact E3]. }
      destruct S as [-> HR].
      assert (C : forall s', cleaned s' (iw_log w ++ [JvOut s t r]) <-> cleaned s' (iw_log w)).
      { intros s'. rewrite cleaned_app. split; [|tauto]. intros [H|[id [H|[]]]]; [exact H|discriminate]. }
      assert (NE : forall i, In i (filter (fun i => negb (Nat.eqb (in_fin i) f)) (iw_list w)) ->
                     In i (iw_list w) /\ in_fin i <> f /\ in_task i <> t).
      { intros j Hj. apply filter_In in Hj as [Hj Hn]. split; [exact Hj|].
        destruct (Nat.eqb_spec (in_fin j) f) as [E|E]; [discriminate|]. split; [exact E|].
        intros E'. apply E. assert (j = mk_injected s t f) as ->; [|reflexivity].
        eapply entry_task; [exact I|exact Hj|exact Hi|exact E']. }
      constructor; cbn [ilog put_fin put_task set_list iw_next iw_inputs iw_list iw_tasks iw_fins iw_log].
      + intros j Hj. destruct (NE j Hj) as [Hj' [N1 N2]]. rewrite !emap_set_neq by assumption.
        destruct (A1 j Hj') as [st' [F1 F2]]. exists st'. split; [exact F1|]. destruct st'; auto.
        destruct F2 as [r' [F2 F3]]. exists r'. split; [exact F2|]. apply in_snoc. left. exact F3.
      + intros u x H. destruct (Nat.eq_dec u t) as [E|E]; [subst u; rewrite emap_set_eq in H; discriminate|].
        rewrite emap_set_neq in H by exact E. apply A2. exact H.
      + intros u x H. destruct (Nat.eq_dec u t) as [E|E]; [subst u; rewrite emap_set_eq in H; discriminate|].
        rewrite emap_set_neq in H by exact E. apply A3 in H.
        assert (K : In (mk_injected (it_sess x) u (it_fin x)) (iw_list w) ->
                    In (mk_injected (it_sess x) u (it_fin x)) (filter (fun i => negb (Nat.eqb (in_fin i) f)) (iw_list w))).
        { intros K. apply filter_In. split; [exact K|]. cbn [in_fin].
          destruct (Nat.eqb_spec (it_fin x) f) as [E'|E']; [|reflexivity]. exfalso. apply E.
          assert (Q : mk_injected (it_sess x) u (it_fin x) = mk_injected s t f)
            by (eapply entry_fin; [exact I|exact K|exact Hi|exact E']).
          injection Q. auto. }
        destruct (it_state x); try exact Logic.I; apply K; exact H.
      + apply NoDup_map_filter. exact A4.
      + apply NoDup_map_filter. exact A5.
      + intros g x H. destruct (Nat.eq_dec g f) as [E|E]; [subst g; rewrite emap_set_eq in H; discriminate|].
        rewrite emap_set_neq in H by exact E. eapply A6. exact H.
      + intros s'. rewrite waiting_app. cbn [requests_waiting]. apply A7.
      + intros s'. rewrite open_app, <- A8. cbn [tasks_open]. unfold of_session. cbn [iw_list].
        apply filter_fin_task; assumption.
      + intros g s' r' H. rewrite C.
        destruct (Nat.eq_dec g f) as [E|E]; [subst g; rewrite emap_set_eq in H; discriminate|].
        rewrite emap_set_neq in H by exact E. destruct (A9 _ _ _ H) as [[j [B1 B2]]|B]; [left|right; exact B].
        exists j. split; [|exact B2]. apply filter_In. split; [exact B1|].
        rewrite B2. destruct (Nat.eqb_spec g f); [contradiction|reflexivity].
      + intros s' r' H. apply in_snoc in H as [H|H]; [|discriminate]. apply C. eapply A10. exact H.
      + intros s' u H. apply in_snoc in H as [H|H]; [|discriminate]. rewrite C.
        destruct (A11 _ _ H) as [B|[g [B1 B2]]]; [left; exact B|right]. exists g.
        assert (u <> t).
        { intros ->. rewrite E1 in B2. injection B2 as B2 B3 B4. subst st. congruence. }
        split; [|rewrite emap_set_neq by assumption; exact B2]. apply filter_In. split; [exact B1|]. cbn [in_fin].
        destruct (Nat.eqb_spec g f) as [E|E]; [|reflexivity]. subst g. exfalso. apply H0.
        assert (Q : mk_injected s' u f = mk_injected s t f)
          by (eapply entry_fin; [exact I|exact B1|exact Hi|reflexivity]). injection Q. auto.
      + intros s' H. rewrite C in H. rewrite responses_app, outs_app. cbn [responses_of outs_of flat_map].
        rewrite !app_nil_r. apply A12 in H. eapply Permutation_trans; [exact H|].
        rewrite <- app_assoc. apply Permutation_app_head. unfold at_finish.
        cbn [ilog put_fin put_task set_list iw_list iw_fins].
        apply (at_finish_take _ _ s t f r s' Hi A5 Ef).
      + intros s' u r' H. apply in_snoc in H as [H|H].
        * destruct (A13 _ _ _ H) as [B1 [B2 B3]]. repeat split; [exact B1| |apply in_snoc; left; exact B3].
          destruct (Nat.eq_dec u t) as [E|E]; [subst u; apply emap_set_eq|]. rewrite emap_set_neq by exact E. exact B2.
        * injection H as -> -> ->. repeat split; [apply (A2 _ _ E1)|apply emap_set_eq|apply in_snoc; left; exact HR].
      + rewrite out_tasks_app. cbn [out_tasks flat_map app]. apply NoDup_app_comm_snoc; [exact A14|].
        intros H. apply in_out_tasks in H as [s' [r' H]]. destruct (A13 _ _ _ H) as [_ [B _]]. congruence.
    - assert (CL : cleaned s (iw_log w)).
      { destruct (A9 _ _ _ Ef) as [[i [B1 B2]]|B]; [|exact B]. exfalso. exact (Hf i B1 B2). }
      assert (C : forall s', cleaned s' (iw_log w ++ [JvLost s r]) <-> cleaned s' (iw_log w)).
      { intros s'. rewrite cleaned_app. split; [|tauto]. intros [H|[id [H|[]]]]; [exact H|discriminate]. }
      constructor; cbn [ilog put_fin put_task set_list iw_next iw_inputs iw_list iw_tasks iw_fins iw_log]; try assumption.
      + intros i Hi. rewrite emap_set_neq by (apply Hf; exact Hi).
        destruct (A1 i Hi) as [st' [F1 F2]]. exists st'. split; [exact F1|]. destruct st'; auto.
        destruct F2 as [r' [F2 F3]]. exists r'. split; [exact F2|]. apply in_snoc. left. exact F3.
      + intros g x H. destruct (Nat.eq_dec g f) as [E|E]; [subst g; rewrite emap_set_eq in H; discriminate|].
        rewrite emap_set_neq in H by exact E. eapply A6. exact H.
      + intros s'. rewrite waiting_app. cbn [requests_waiting]. apply A7.
      + intros s'. rewrite open_app. cbn [tasks_open]. apply A8.
      + intros g s' r' H. rewrite C.
        destruct (Nat.eq_dec g f) as [E|E]; [subst g; rewrite emap_set_eq in H; discriminate|].
        rewrite emap_set_neq in H by exact E. eapply A9. exact H.
      + intros s' r' H. apply C. apply in_snoc in H as [H|H]; [eapply A10; exact H|].
        injection H as -> ->. exact CL.
      + intros s' u H. apply in_snoc in H as [H|H]; [|discriminate]. rewrite C. apply A11. exact H.
      + intros s' H. rewrite C in H. rewrite responses_app, outs_app. cbn [responses_of outs_of flat_map].
        rewrite !app_nil_r. apply A12 in H. eapply Permutation_trans; [exact H|]. apply Permutation_app_head.
        unfold at_finish. cbn [ilog put_fin iw_list iw_fins].
        match goal with |- Permutation ?a ?b => replace b with a; [apply Permutation_refl|] end.
        apply flat_map_ext_in. intros i Hi. cbv beta.
        rewrite emap_set_neq by (apply Hf; exact Hi). reflexivity.
      + intros s' u r' H. apply in_snoc in H as [H|H]; [|discriminate]. destruct (A13 _ _ _ H) as [B1 [B2 B3]].
        repeat split; [exact B1|exact B2|apply in_snoc; left; exact B3].
      + rewrite out_tasks_app. cbn. rewrite app_nil_r. exact A14.
  Qed.

  (** Steps that change neither requests nor responses. *)
  Lemma Inv_quiet (w w' : world) (q : log) :
    Inv w -> forallb quiet q = true ->
    iw_next w' = iw_next w -> iw_inputs w' = iw_inputs w -> iw_list w' = iw_list w ->
    iw_fins w' = iw_fins w -> iw_log w' = iw_log w ++ q ->
    (forall t, iw_tasks w' t = iw_tasks w t \/
       exists x id, iw_tasks w t = Some x /\ it_state x = TStopping id /\
         iw_tasks w' t = Some (set_state x TStopped)) ->
    Inv w'.
  Proof.
    intros [A1 A2 A3 A4 A5 A6 A7 A8 A9 A10 A11 A12 A13 A14] Q E1 E2 E3 E4 E5 T.
    assert (C : forall s', cleaned s' (iw_log w ++ q) <-> cleaned s' (iw_log w)).
    { intros s'. rewrite cleaned_app. split; [|tauto]. intros [H|H]; [exact H|].
      exfalso. exact (quiet_cleaned _ _ Q H). }
    assert (O : forall e, quiet e = false -> In e (iw_log w ++ q) -> In e (iw_log w)).
    { intros e He H. apply in_app_or in H as [H|H]; [exact H|]. apply (quiet_in _ _ Q) in H. congruence. }
    constructor; rewrite ?E1, ?E2, ?E3, ?E4, ?E5; try assumption.
    - intros i Hi. destruct (A1 i Hi) as [st [F1 F2]]. exists st. split.
      + destruct (T (in_task i)) as [H|[x [id [H1 [H2 H3]]]]]; [congruence|].
        rewrite F1 in H1. injection H1 as <-. cbn [it_state] in H2. subst st. contradiction.
      + destruct st; auto. destruct F2 as [r [F2 F3]]. exists r. split; [exact F2|]. apply in_or_app. left. exact F3.
    - intros t x H. destruct (T t) as [K|[y [id [H1 [H2 H3]]]]].
      + rewrite K in H. apply A2. exact H.
      + rewrite H3 in H. injection H as <-. apply (A2 _ _ H1).
    - intros t x H. destruct (T t) as [K|[y [id [H1 [H2 H3]]]]].
      + rewrite K in H. apply A3. exact H.
      + rewrite H3 in H. injection H as <-. exact Logic.I.
    - intros s. rewrite waiting_app, (quiet_waiting _ _ Q). apply A7.
    - intros s. rewrite open_app, (quiet_open _ _ Q). unfold of_session. rewrite E3. apply A8.
    - intros f s r H. rewrite C. eapply A9. exact H.
    - intros s r H. apply C. apply O in H; [|reflexivity]. eapply A10. exact H.
    - intros s t H. rewrite C. apply O in H; [|reflexivity].
      destruct (A11 _ _ H) as [B|[f [B1 B2]]]; [left; exact B|right]. exists f. split; [exact B1|].
      destruct (T t) as [K|[y [id [H1 [H2 H3]]]]]; [congruence|].
      rewrite B2 in H1. injection H1 as <-. discriminate.
    - intros s H. rewrite C in H. rewrite responses_app, outs_app, (quiet_responses _ _ Q), (quiet_outs _ _ Q).
      rewrite !app_nil_r. unfold at_finish. rewrite E3, E4. apply A12. exact H.
    - intros s t r H. apply O in H; [|reflexivity]. destruct (A13 _ _ _ H) as [B1 [B2 B3]].
      repeat split; [exact B1| |apply in_or_app; left; exact B3].
      destruct (T t) as [K|[y [id [H1 [H2 H3]]]]]; congruence.
    - rewrite out_tasks_app, (quiet_out_tasks _ Q), app_nil_r. exact A14.
  Qed.

  Lemma Inv_stopped t w : Inv w -> Inv (istopped t w).
  Proof.
    intros I. unfold istopped. destruct (iw_tasks w t) as [x|] eqn:Et; [|exact I].
    destruct (it_state x) as [| | |id|] eqn:Es; try exact I.
    unfold istop. destruct (notify_contents (iw_contents w) id t) as [c d].
    eapply (Inv_quiet w _ [JvStopped t]); try reflexivity; [exact I|].
    intros u. cbn [iw_tasks]. destruct (Nat.eq_dec u t) as [E|E].
    - subst u. right. exists x, id. rewrite emap_set_eq. repeat split; assumption.
    - left. apply emap_set_neq. exact E.
  Qed.

  Lemma Inv_finalize w : Inv w -> Inv (ifinalize w).
  Proof.
    intros I. unfold ifinalize. destruct (iw_done w) as [|id rest]; [exact I|].
    destruct (iw_await w id).
    - eapply (Inv_quiet w _ [JvConfirmed id]); try reflexivity; [exact I|]. intros u. left. reflexivity.
    - eapply (Inv_quiet w _ [JvBroken]); try reflexivity; [exact I|]. intros u. left. reflexivity.
  Qed.

  (** *** Cleanup *)

  Definition nodes_of (s : entity) (w : world) : list entity := map in_task (of_session s w).

  Definition cleanup_events (now : entity -> bool) (id : entity) (nodes : list entity) : log :=
    match nodes with [] => [JvConfirmed id] | _ => map (fun t => JvStopped t) (filter now nodes) end.

  Lemma cleanup_events_quiet now id nodes : forallb quiet (cleanup_events now id nodes) = true.
  Proof.
    unfold cleanup_events. destruct nodes as [|a l]; [reflexivity|].
    induction (filter now (a :: l)) as [|b m IH]; [reflexivity|exact IH].
  Qed.

  Lemma in_nodes_of (w : world) s t : In t (nodes_of s w) <-> exists i, In i (iw_list w) /\ in_sess i = s /\ in_task i = t.
  Proof.
    unfold nodes_of, of_session. rewrite in_map_iff. split.
    - intros [i [E H]]. apply filter_In in H as [H1 H2]. apply Nat.eqb_eq in H2. exists i. auto.
    - intros [i [H [E1 E2]]]. exists i. split; [exact E2|]. apply filter_In. split; [exact H|].
      apply Nat.eqb_eq. exact E1.
  Qed.

  Lemma icleanup_effect now id s (w : world) :
    Inv w ->
    let w' := icleanup now id s w in
    let nodes := nodes_of s w in
    iw_next w' = iw_next w /\
    iw_inputs w' = filter (fun sv => negb (Nat.eqb (fst sv) s)) (iw_inputs w) /\
    iw_list w' = filter (fun i => negb (Nat.eqb (in_sess i) s)) (iw_list w) /\
    iw_fins w' = iw_fins w /\
    (forall t, iw_tasks w' t = stop_all now id nodes (iw_tasks w) t) /\
    iw_log w' = iw_log w ++ JvClean id s :: cleanup_events now id nodes /\
    (forall id', id' <> id -> c_get (iw_contents w') id' = c_get (iw_contents w) id') /\
    (forall id', id' <> id -> iw_await w' id' = iw_await w id') /\
    ((nodes = [] /\ iw_contents w' = iw_contents w /\ iw_await w' id = iw_await w id /\ iw_done w' = iw_done w) \/
     (nodes <> [] /\ iw_await w' id = Some s /\
      let rem := filter (fun t => negb (now t)) nodes in
      ((rem = [] /\ c_get (iw_contents w') id = None /\ iw_done w' = iw_done w ++ [id]) \/
       (rem <> [] /\ c_get (iw_contents w') id = Some rem /\ iw_done w' = iw_done w)))).
  Proof.
    intros I. unfold icleanup. fold (of_session s w). fold (nodes_of s w). cbn zeta.
    destruct (nodes_of s w) as [|n0 ns] eqn:En.
    - cbn [ilog iw_next iw_inputs iw_list iw_tasks iw_fins iw_contents iw_await iw_done iw_log].
      repeat (split; [reflexivity|]).
      split; [rewrite <- app_assoc; reflexivity|]. split; [reflexivity|]. split; [reflexivity|].
      left. repeat split.
    - set (w1 := mk_iworld _ _ _ _ _ _ _ _ _).
      assert (Ne : n0 :: ns <> []) by discriminate.
      destruct (clean_tasks_effect now id (n0 :: ns) w1 []) as (B1 & B2 & B3 & B4 & B5 & B6 & B7 & B8 & B9).
      { intros t Ht. subst w1. cbn [iw_tasks]. rewrite <- En in Ht. apply in_nodes_of in Ht as [i [H1 [H2 H3]]].
        destruct (v_list _ I i H1) as [st [E _]]. rewrite <- H3, E. discriminate. }
      { cbn [app]. rewrite <- En. unfold nodes_of, of_session. apply NoDup_map_filter. apply (v_ndt _ I). }
      { exact Ne. }
      { subst w1. cbn [iw_contents app]. apply c_get_add. }
      unfold cleanup_events.
      rewrite B1, B2, B3, B4, B5, B7. subst w1.
      cbn [iw_next iw_inputs iw_list iw_tasks iw_fins iw_contents iw_await iw_done iw_log] in *.
      repeat (split; [reflexivity|]). split; [exact B6|]. split; [rewrite <- app_assoc; reflexivity|].
      split; [intros id' H; rewrite B8 by exact H; apply c_get_add_neq; exact H|].
      split; [intros id' H; apply emap_set_neq; exact H|].
      right. split; [exact Ne|]. split; [apply emap_set_eq|]. exact B9.
  Qed.

  Lemma Inv_cleanup now id s w : Inv w -> Inv (icleanup now id s w).
  Proof.
    intros I. destruct (icleanup_effect now id s w I) as (E1 & E2 & E3 & E4 & ET & E5 & _).
    set (w' := icleanup now id s w) in *. clearbody w'.
    pose proof I as [A1 A2 A3 A4 A5 A6 A7 A8 A9 A10 A11 A12 A13 A14].
    set (q := cleanup_events now id (nodes_of s w)) in *.
    assert (Q : forallb quiet q = true) by apply cleanup_events_quiet. clearbody q.
    assert (CS : cleaned s (iw_log w')).
    { exists id. rewrite E5. apply in_or_app. right. left. reflexivity. }
    assert (C : forall s', s' <> s -> cleaned s' (iw_log w') <-> cleaned s' (iw_log w)).
    { intros s' N. rewrite E5, cleaned_app. split; [|tauto]. intros [H|[i [H|H]]]; [exact H| |].
      - injection H as _ H. congruence.
      - apply (quiet_in _ _ Q) in H. discriminate. }
    assert (CM : forall s', cleaned s' (iw_log w) -> cleaned s' (iw_log w')).
    { intros s' H. rewrite E5, cleaned_app. left. exact H. }
    assert (O : forall e, quiet e = false -> (forall i s', e <> JvClean i s') -> In e (iw_log w') -> In e (iw_log w)).
    { intros e He Hc H. rewrite E5 in H. apply in_app_or in H as [H|[H|H]]; [exact H| |].
      - exfalso. apply (Hc id s). symmetry. exact H.
      - apply (quiet_in _ _ Q) in H. congruence. }
    assert (OM : forall e, In e (iw_log w) -> In e (iw_log w')).
    { intros e H. rewrite E5. apply in_or_app. left. exact H. }
    assert (KL : forall i, In i (iw_list w') <-> In i (iw_list w) /\ in_sess i <> s).
    { intros i. rewrite E3, filter_In. destruct (Nat.eqb_spec (in_sess i) s); cbn [negb]; intuition congruence. }
    assert (KT : forall i, In i (iw_list w') -> iw_tasks w' (in_task i) = iw_tasks w (in_task i)).
    { intros i Hi. rewrite ET. unfold stop_all. destruct (in_dec _ _ _) as [H|_]; [|reflexivity].
      apply in_nodes_of in H as [j [H1 [H2 H3]]]. apply KL in Hi as [Hi Hs]. exfalso. apply Hs.
      assert (j = i) by (eapply entry_task; [exact I|exact H1|exact Hi|exact H3]). subst j. exact H2. }
    assert (TS : forall t x, iw_tasks w' t = Some x -> exists y, iw_tasks w t = Some y /\ it_sess x = it_sess y /\ it_fin x = it_fin y /\
       (x = y /\ ~ In t (nodes_of s w) \/ it_state x = TStopped \/ it_state x = TStopping id)).
    { intros t x H. rewrite ET in H. unfold stop_all in H.
      destruct (in_dec Nat.eq_dec t (nodes_of s w)) as [K|K].
      - destruct (iw_tasks w t) as [y|]; [|discriminate]. injection H as <-. exists y.
        repeat split; try reflexivity. cbn [set_state it_state]. destruct (now t); auto.
      - exists x. repeat split; auto. }
    constructor.
    - intros i Hi. rewrite (KT i Hi), E4. apply KL in Hi as [Hi Hs].
      destruct (A1 i Hi) as [st [F1 F2]]. exists st. split; [exact F1|]. destruct st; auto.
      destruct F2 as [r [F2 F3]]. exists r. split; [exact F2|]. apply OM. exact F3.
    - intros t x H. rewrite E1. destruct (TS _ _ H) as [y [H1 [_ [H3 _]]]]. rewrite H3. apply A2. exact H1.
    - intros t x H. destruct (TS _ _ H) as [y [H1 [H2 [H3 H4]]]].
      destruct H4 as [[-> H4]|[->| ->]]; try exact Logic.I. apply A3 in H1 as H5.
      assert (K : In (mk_injected (it_sess y) t (it_fin y)) (iw_list w) ->
                  In (mk_injected (it_sess y) t (it_fin y)) (iw_list w')).
      { intros K. apply KL. split; [exact K|]. cbn [in_sess]. intros E. apply H4. apply in_nodes_of.
        eexists. split; [exact K|]. split; [exact E|reflexivity]. }
      destruct (it_state y); try exact Logic.I; apply K; exact H5.
    - rewrite E3. apply NoDup_map_filter. exact A4.
    - rewrite E3. apply NoDup_map_filter. exact A5.
    - rewrite E4, E1. exact A6.
    - intros s'. rewrite E2, E5, waiting_app. cbn [requests_waiting]. rewrite (quiet_waiting _ _ Q), <- A7.
      rewrite (filter_cut fst s s'). destruct (Nat.eqb s s'); reflexivity.
    - intros s'. unfold of_session. rewrite E3, E5, open_app. cbn [tasks_open]. rewrite (quiet_open _ _ Q), <- A8.
      rewrite (filter_cut in_sess s s'). unfold of_session. destruct (Nat.eqb s s'); reflexivity.
    - rewrite E4. intros f s' r H. destruct (A9 _ _ _ H) as [[i [B1 B2]]|B]; [|right; apply CM; exact B].
      destruct (Nat.eq_dec s' s) as [->|N]; [right; exact CS|]. left. exists i. split; [|exact B2].
      apply KL. split; [exact B1|]. destruct (A1 i B1) as [st [_ F]]. rewrite B2, H in F.
      destruct st; try contradiction; try discriminate. destruct F as [r' [F _]]. congruence.
    - intros s' r H. apply O in H; [|reflexivity|discriminate]. apply CM. eapply A10. exact H.
    - intros s' t H. apply O in H; [|reflexivity|discriminate].
      destruct (A11 _ _ H) as [B|[f [B1 B2]]]; [left; apply CM; exact B|].
      destruct (Nat.eq_dec s' s) as [->|N]; [left; exact CS|]. right. exists f.
      assert (K : In (mk_injected s' t f) (iw_list w')) by (apply KL; split; [exact B1|exact N]).
      split; [exact K|]. apply KT in K. cbn [in_task] in K. rewrite K. exact B2.
    - intros s' H. assert (N : s' <> s) by (intros ->; contradiction). rewrite (C s' N) in H. apply A12 in H.
      rewrite E5, responses_app, outs_app. cbn [responses_of outs_of flat_map app].
      fold (responses_of s' q). fold (outs_of s' q). rewrite (quiet_responses _ _ Q), (quiet_outs _ _ Q), !app_nil_r.
      eapply Permutation_trans; [exact H|]. apply Permutation_app_head. unfold at_finish. rewrite E3, E4.
      clear - N. induction (iw_list w) as [|a l IH]; [apply Permutation_refl|]. cbn [flat_map filter].
      destruct (Nat.eqb_spec (in_sess a) s) as [E|E]; cbn [negb flat_map].
      + destruct (Nat.eqb_spec (in_sess a) s') as [E'|E']; [congruence|]. exact IH.
      + apply Permutation_app_head. exact IH.
    - intros s' t r H. apply O in H; [|reflexivity|discriminate]. destruct (A13 _ _ _ H) as [B1 [B2 B3]].
      rewrite E1. repeat split; [exact B1| |apply OM; exact B3].
      rewrite ET. unfold stop_all. rewrite B2. destruct (in_dec _ _ _); reflexivity.
    - rewrite E5, out_tasks_app. cbn [out_tasks flat_map app]. fold (out_tasks q).
      rewrite (quiet_out_tasks _ Q), app_nil_r. exact A14.
  Qed.

  Lemma Inv_step w o : Inv w -> Inv (istep w o).
  Proof.
    intros I. destruct o; cbn [istep].
    - apply Inv_give; exact I. - apply Inv_exec; exact I. - apply Inv_respond; exact I.
    - apply Inv_dispose; exact I. - apply Inv_finish; exact I. - apply Inv_cleanup; exact I.
    - apply Inv_stopped; exact I. - apply Inv_finalize; exact I.
  Qed.

  Lemma Inv_irun os : forall w, Inv w -> Inv (irun w os).
  Proof.
    induction os as [|o os IH]; intros w I; [exact I|]. cbn. apply IH. apply Inv_step. exact I.
  Qed.

  (** Logs only grow. *)
  Lemma step_log (w : world) o : Inv w -> exists q, iw_log (istep w o) = iw_log w ++ q.
  Proof.
    intros I. destruct o; cbn [istep].
    - eexists. reflexivity.
    - unfold iexec. destruct (iw_inputs w) as [|[s v] r]; [exists []; rewrite app_nil_r; reflexivity|eexists; reflexivity].
    - unfold irespond. destruct (iw_tasks w t) as [x|]; [|exists []; rewrite app_nil_r; reflexivity].
      destruct (it_state x); try (exists []; rewrite app_nil_r; reflexivity). eexists. reflexivity.
    - unfold idispose. destruct (iw_tasks w t) as [x|]; [|exists []; rewrite app_nil_r; reflexivity].
      destruct (it_state x); try (exists []; rewrite app_nil_r; reflexivity). eexists. reflexivity.
    - unfold ifinish. destruct (iw_fins w f) as [[[s r]|]|]; try (exists []; rewrite app_nil_r; reflexivity).
      destruct (find _ _) as [i|]; [|eexists; reflexivity]. destruct (iw_tasks w (in_task i)); eexists; reflexivity.
    - destruct (icleanup_effect now id s w I) as (_ & _ & _ & _ & _ & E & _). rewrite E. eexists. reflexivity.
    - unfold istopped. destruct (iw_tasks w t) as [x|]; [|exists []; rewrite app_nil_r; reflexivity].
      destruct (it_state x); try (exists []; rewrite app_nil_r; reflexivity).
      unfold istop. destruct (notify_contents _ _ _). eexists. reflexivity.
    - unfold ifinalize. destruct (iw_done w) as [|i r]; [exists []; rewrite app_nil_r; reflexivity|].
      destruct (iw_await w i); eexists; reflexivity.
  Qed.

  Lemma run_log os : forall w, Inv w -> exists q, iw_log (irun w os) = iw_log w ++ q.
  Proof.
    induction os as [|o os IH]; intros w I; [exists []; rewrite app_nil_r; reflexivity|].
    cbn. destruct (IH (istep w o) (Inv_step w o I)) as [q E]. destruct (step_log w o I) as [q' E'].
    fold (irun (istep w o) os). rewrite E, E'. eexists. rewrite <- app_assoc. reflexivity.
  Qed.
End InjectionProofs2.
