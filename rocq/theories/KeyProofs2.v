(** Keys: every dropped key is noticed if keys are dropped while nothing else happens. *)
From Verif Require Import Base KeyModel KeySpec KeyProofs.

Section KeyProofs2.
  Variable bs : list entity.

  Lemma usage_count w s t : KInv bs w -> kw_held w s = Some t -> bs <> [] ->
    key_usage bs w s = Nat.ltb 1 (length bs + length (tracked_by t (kw_lives w))).
  Proof.
    intros I Hh Hn. unfold key_usage. rewrite Hh, (k_count _ _ I s t Hh).
    destruct bs as [|b l]; [contradiction|]. cbn [existsb].
    destruct (Nat.ltb 1 _); [reflexivity|]. induction l as [|c l IH]; [reflexivity|]. cbn [existsb orb].
    cbn [orb] in *. clear. induction l as [|d l IH]; [reflexivity|]. exact IH.
  Qed.

  Lemma tracked_in t ls : tracked_by t ls <> [] -> exists k l, In (k, l) ls /\ lf_trk l = t.
  Proof.
    unfold tracked_by. destruct (filter _ ls) as [|[k l] m] eqn:E; [intros H; contradiction|]. intros _.
    assert (K : In (k, l) ((k, l) :: m)) by (left; reflexivity). rewrite <- E in K.
    apply filter_In in K as [K1 K2]. apply Nat.eqb_eq in K2. exists k, l. auto.
  Qed.

  (** Nothing is in between the notice and the release. *)
  Definition whole (w : kworld) : Prop := forall k l, In (k, l) (kw_lives w) -> lf_refs l <> 0.

  Definition holder (s : entity) (w : kworld) : Prop :=
    exists k l, In (k, l) (kw_lives w) /\ lf_sess l = s.

  Definition noticed (w : kworld) : Prop := forall s, kw_held w s <> None -> ~ kcleaned s (kw_log w) ->
    found_unused s false (kw_log w) = true \/ holder s w \/ In s (kw_disposed w) \/ In s (map fst (kw_chan w)).

  Lemma hand_fold s t cs : forall w, let w' := fold_left (hand_out s t) cs w in
    kw_held w' = kw_held w /\ kw_disposed w' = kw_disposed w /\ kw_chan w' = kw_chan w /\
    (exists q, kw_log w' = kw_log w ++ q /\ (forall s', ~ In (KvClean s') q) /\
       (forall s' acc, s' <> s -> found_unused s' acc q = acc)) /\
    (exists m, kw_lives w' = kw_lives w ++ m /\ (forall k l, In (k, l) m -> lf_sess l = s /\ lf_refs l = 1) /\
       (cs <> [] -> m <> [])).
  Proof.
    induction cs as [|c cs IH]; intros w.
    - cbn. repeat (split; [reflexivity|]). split.
      + exists []. rewrite app_nil_r. repeat split; auto.
      + exists []. rewrite app_nil_r. repeat split; auto; contradiction.
    - cbn [fold_left]. destruct (IH (hand_out s t w c)) as (B1 & B2 & B3 & (q & B4 & B5 & B6) & (m & B7 & B8 & B9)).
      cbn zeta in *. rewrite B1, B2, B3. repeat (split; [reflexivity|]). split.
      + exists (KvKey s (kw_next w) c :: q). rewrite B4. cbn [hand_out kw_log]. rewrite <- app_assoc.
        split; [reflexivity|]. split.
        * intros s' [H|H]; [discriminate|exact (B5 s' H)].
        * intros s' acc H. cbn [found_unused]. destruct (Nat.eqb_spec s s') as [E|E]; [congruence|]. apply B6. exact H.
      + exists ((kw_next w, mk_life s c t 1) :: m). rewrite B7. cbn [hand_out kw_lives]. rewrite <- app_assoc.
        split; [reflexivity|]. split; [|discriminate]. intros k l [H|H]; [|exact (B8 k l H)].
        injection H as <- <-. split; reflexivity.
  Qed.

  Lemma access_effect s w : let w' := kaccess bs s w in
    (forall s', s' <> s -> kw_held w' s' = kw_held w s') /\ kw_disposed w' = kw_disposed w /\ kw_chan w' = kw_chan w /\
    (exists q, kw_log w' = kw_log w ++ q /\ (forall s', ~ In (KvClean s') q) /\
       (forall s' acc, s' <> s -> found_unused s' acc q = acc)) /\
    (exists m, kw_lives w' = kw_lives w ++ m /\ (forall k l, In (k, l) m -> lf_sess l = s /\ lf_refs l = 1) /\
       (bs <> [] -> m <> [])).
  Proof.
    unfold kaccess. destruct (kw_held w s) as [t|] eqn:Eh.
    - destruct (hand_fold s t bs w) as (B1 & B2 & B3 & B4 & B5). cbn zeta in *. rewrite B1.
      repeat (split; [first [reflexivity|assumption]|]). exact B5.
    - set (w1 := mk_kworld _ _ _ _ _ _ _).
      destruct (hand_fold s (kw_next w) bs w1) as (B1 & B2 & B3 & (q & B4 & B5 & B6) & B7). cbn zeta in *.
      rewrite B1. split; [|split; [exact B2|split; [exact B3|split; [|exact B7]]]].
      + intros s' H. subst w1. cbn [kw_held]. apply emap_set_neq. exact H.
      + exists (map (KvActive s) bs ++ q). rewrite B4. subst w1. cbn [kw_log]. rewrite <- app_assoc.
        split; [reflexivity|]. split.
        * intros s' H. apply in_app_or in H as [H|H]; [|exact (B5 s' H)].
          apply in_map_iff in H as [b [H _]]. discriminate.
        * intros s' acc H. rewrite unused_app.
          replace (found_unused s' acc (map (KvActive s) bs)) with acc; [apply B6; exact H|].
          clear. induction bs as [|b l IH]; [reflexivity|exact IH].
  Qed.

  Lemma cleaned_grow s l q : ~ kcleaned s (l ++ q) -> ~ kcleaned s l.
  Proof. intros H K. apply H. apply in_or_app. left. exact K. Qed.

  Lemma after_drop w k : KInv bs w -> whole w -> noticed w ->
    length bs = 1 -> let w' := krelease k (kdrop k w) in whole w' /\ noticed w'.
  Proof.
    intros I Z N L. cbn zeta. unfold kdrop. destruct (get_life k w) as [l|] eqn:El.
    2:{ unfold krelease. rewrite El. split; assumption. }
    pose proof El as Hl. apply get_life_in in Hl.
    destruct (lf_refs l) as [|n] eqn:Er; [exfalso; exact (Z _ _ Hl Er)|].
    set (w1 := mk_kworld _ _ _ _ _ _ _).
    assert (G : get_life k w1 = Some (set_refs n l)).
    { unfold get_life in *. subst w1. cbn [kw_lives]. unfold put_refs. clear - El.
      induction (kw_lives w) as [|[a b] ls IH]; [discriminate|]. cbn [find map fst snd] in *.
      destruct (Nat.eqb a k) eqn:E; cbn [fst]; rewrite E; [injection El as ->; reflexivity|exact (IH El)]. }
    unfold krelease. rewrite G. cbn [set_refs lf_refs lf_trk].
    destruct n as [|n].
    - (* the last copy *)
      subst w1. cbn [kw_next kw_held kw_count kw_lives kw_chan kw_disposed kw_log].
      assert (F : forall k' l', In (k', l') (filter (fun p => negb (Nat.eqb (fst p) k)) (put_refs k 0 (kw_lives w))) <->
        In (k', l') (kw_lives w) /\ k' <> k).
      { intros k' l'. rewrite filter_In. cbn [fst]. destruct (Nat.eqb_spec k' k) as [E|E]; cbn [negb].
        - split; [intros [_ H]; discriminate|intros [_ H]; contradiction].
        - split; intros [H _]; (split; [|auto]).
          + apply put_refs_in in H as [l2 [H ->]]. destruct (Nat.eqb_spec k' k); [contradiction|exact H].
          + apply (in_put_refs k 0) in H. destruct (Nat.eqb_spec k' k); [contradiction|exact H]. }
      split.
      + intros k' l' H. cbn [kw_lives] in H. apply F in H as [H _]. exact (Z _ _ H).
      + intros s Hs Hc. unfold holder. cbn [kw_held kw_lives kw_disposed kw_chan kw_log] in *.
        pose proof (cleaned_grow _ _ _ Hc) as Hc'. destruct (Nat.eq_dec s (lf_sess l)) as [E|E].
        * right. right. right. subst s. destruct (k_trk _ _ I _ _ Hl) as [T|T]; [|contradiction].
          pose proof (k_count _ _ I _ _ T) as C.
          assert (K : tracked_by (lf_trk l) (kw_lives w) <> []).
          { intros K. assert (X : In (k, l) (tracked_by (lf_trk l) (kw_lives w))).
            { apply filter_In. split; [exact Hl|apply Nat.eqb_refl]. }
            rewrite K in X. exact X. }
          destruct (tracked_by (lf_trk l) (kw_lives w)) as [|x m]; [contradiction|]. cbn [length] in C.
          destruct (Nat.ltb_spec 1 (kw_count w (lf_trk l))); [|lia].
          rewrite map_app. apply in_or_app. right. left. reflexivity.
        * destruct (N s Hs Hc') as [H|[H|[H|H]]].
          -- left. rewrite unused_app, H. cbn [found_unused]. destruct (Nat.eqb_spec (lf_sess l) s); [congruence|reflexivity].
          -- right. left. destruct H as (k' & l' & H1 & H2). exists k', l'. split; [|exact H2]. apply F. split; [exact H1|].
             intros ->. apply E. rewrite <- H2. f_equal. exact (in_unique _ _ _ _ (k_nodup _ _ I) H1 Hl).
          -- right. right. left. exact H.
          -- right. right. right. destruct (Nat.ltb _ _); [rewrite map_app; apply in_or_app; left|]; exact H.
    - (* more copies *)
      subst w1. split.
      + intros k' l' H. cbn [kw_lives] in H. apply put_refs_in in H as [l2 [H ->]].
        destruct (Nat.eqb k' k); [discriminate|exact (Z _ _ H)].
      + intros s Hs Hc. unfold holder. cbn [kw_held kw_lives kw_disposed kw_chan kw_log] in *.
        pose proof (cleaned_grow _ _ _ Hc) as Hc'. destruct (Nat.eq_dec s (lf_sess l)) as [E|E].
        * right. left. exists k, (set_refs (S n) l). split; [|symmetry; exact E].
          apply (in_put_refs k (S n)) in Hl. rewrite Nat.eqb_refl in Hl. exact Hl.
        * destruct (N s Hs Hc') as [H|[H|H]]; [left| |right; right; exact H].
          -- rewrite unused_app, H. cbn [found_unused]. destruct (Nat.eqb_spec (lf_sess l) s); [congruence|reflexivity].
          -- right. left. destruct H as (k' & l' & H1 & H2). apply (in_put_refs k (S n)) in H1.
             eexists. eexists. split; [exact H1|]. destruct (Nat.eqb k' k); exact H2.
  Qed.

  Lemma noticed_step w o : KInv bs w -> whole w -> noticed w -> length bs = 1 ->
    let w' := krun bs w (at_once o) in whole w' /\ noticed w'.
  Proof.
    intros I Z N L. destruct o; cbn [at_once krun fold_left kstep].
    - destruct (access_effect s w) as (B1 & B2 & B3 & (q & B4 & B5 & B6) & (m & B7 & B8 & B9)). cbn zeta in *. split.
      + intros k l H. rewrite B7 in H. apply in_app_or in H as [H|H]; [exact (Z _ _ H)|].
        apply B8 in H as [_ ->]. discriminate.
      + intros s' Hs Hc. unfold holder. rewrite B2, B3, B4, B7 in *. pose proof (cleaned_grow _ _ _ Hc) as Hc'.
        destruct (Nat.eq_dec s' s) as [E|E].
        * subst s'. right. left. destruct m as [|[k l] m]; [exfalso; apply B9; [|reflexivity]|].
          -- intros K. rewrite K in L. discriminate.
          -- exists k, l. split; [apply in_or_app; right; left; reflexivity|]. apply B8 with k. left. reflexivity.
        * rewrite B1 in Hs by exact E. destruct (N s' Hs Hc') as [H|[H|H]]; [left| |right; right; exact H].
          -- rewrite unused_app, H. apply B6. exact E.
          -- right. left. destruct H as (k & l & H1 & H2). exists k, l. split; [apply in_or_app; left; exact H1|exact H2].
    - unfold kcopy. destruct (get_life k w) as [l|] eqn:El; [|split; assumption].
      destruct (lf_refs l) as [|n]; [split; assumption|]. split.
      + intros k' l' H. cbn [kw_lives] in H. apply put_refs_in in H as [l2 [H ->]].
        destruct (Nat.eqb k' k); [discriminate|exact (Z _ _ H)].
      + intros s Hs Hc. unfold holder. cbn [kw_held kw_lives kw_disposed kw_chan kw_log] in *.
        destruct (N s Hs (cleaned_grow _ _ _ Hc)) as [H|[H|H]]; [left| |right; right; exact H].
        * rewrite unused_app, H. reflexivity.
        * right. left. destruct H as (k' & l' & H1 & H2). apply (in_put_refs k (S (S n))) in H1.
          eexists. eexists. split; [exact H1|]. destruct (Nat.eqb k' k); exact H2.
    - apply after_drop; assumption.
    - split; assumption.
    - unfold knotice. destruct (kw_chan w) as [|[s b] r] eqn:Ec; [split; assumption|]. split; [exact Z|].
      intros s' Hs Hc. unfold holder. cbn [kw_held kw_lives kw_disposed kw_chan kw_log] in *.
      destruct (N s' Hs Hc) as [H|[H|[H|H]]]; [left; exact H|right; left; exact H|right; right; left; right; exact H|].
      rewrite Ec in H. cbn [map fst] in H. destruct H as [H|H]; [right; right; left; left; exact H|right; right; right; exact H].
    - unfold kcheck. destruct (kw_disposed w) as [|s r] eqn:Ed; [split; assumption|]. split; [exact Z|].
      intros s' Hs Hc. unfold holder. cbn [kw_held kw_lives kw_disposed kw_chan kw_log] in *.
      pose proof (cleaned_grow _ _ _ Hc) as Hc'. rewrite unused_app. cbn [found_unused].
      destruct (Nat.eqb_spec s s') as [E|E].
      + subst s'. destruct (key_usage bs w s) eqn:Eu.
        * right. left. destruct (kw_held w s) as [t|] eqn:Eh; [|contradiction].
          rewrite (usage_count w s t I Eh) in Eu by (intros K; rewrite K in L; discriminate).
          apply Nat.ltb_lt in Eu. rewrite L in Eu.
          destruct (tracked_in t (kw_lives w)) as (k & l & H1 & H2).
          { intros K. rewrite K in Eu. cbn in Eu. lia. }
          exists k, l. split; [exact H1|]. apply (k_own _ _ I k l s H1). congruence.
        * left. apply orb_true_r.
      + destruct (N s' Hs Hc') as [H|[H|[H|H]]].
        * left. exact H.
        * right. left. exact H.
        * rewrite Ed in H. destruct H as [H|H]; [congruence|right; right; left; exact H].
        * right. right. right. exact H.
    - unfold kclean. destruct scope; [|split; assumption]. set (w1 := mk_kworld _ _ _ _ _ _ _). cbn zeta.
      assert (E : exists w', match kw_held w s with None => w1 | Some t => fold_left (drop_held s t) bs w1 end = w' /\
        kw_held w' = emap_set (kw_held w) s None /\ kw_lives w' = kw_lives w /\
        kw_log w' = kw_log w ++ [KvClean s] /\ kw_disposed w' = kw_disposed w /\
        forall x, In x (kw_chan w) -> In x (kw_chan w')).
      { destruct (kw_held w s) as [t|].
        - eexists. split; [reflexivity|]. destruct (drop_held_same s t bs w1) as (B1 & B2 & B3 & B4 & B5 & B6 & B7).
          cbn zeta in *. rewrite B2, B3, B4, B5. repeat split. exact B7.
        - eexists. split; [reflexivity|]. repeat split. auto. }
      destruct E as (w' & -> & E2 & E3 & E4 & E5 & E6). split.
      + intros k l H. rewrite E3 in H. exact (Z _ _ H).
      + intros s' Hs Hc. unfold holder. rewrite E2, E3, E4, E5 in *.
        destruct (Nat.eq_dec s' s) as [E|E]; [exfalso; apply Hc; apply in_or_app; right; left; rewrite E; reflexivity|].
        rewrite emap_set_neq in Hs by exact E.
        destruct (N s' Hs (cleaned_grow _ _ _ Hc)) as [H|[H|[H|H]]].
        * left. rewrite unused_app, H. reflexivity.
        * right. left. exact H.
        * right. right. left. exact H.
        * right. right. right. apply in_map_iff in H as [x [H1 H2]]. apply in_map_iff. exists x. split; [exact H1|].
          apply E6. exact H2.
  Qed.

  Lemma krun_app os1 os2 w : krun bs w (os1 ++ os2) = krun bs (krun bs w os1) os2.
  Proof. apply fold_left_app. Qed.

  Lemma noticed_run os : forall w, KInv bs w -> whole w -> noticed w -> length bs = 1 ->
    let w' := krun bs w (flat_map at_once os) in whole w' /\ noticed w'.
  Proof.
    induction os as [|o os IH]; intros w I Z N L; [split; assumption|]. cbn [flat_map]. rewrite krun_app.
    destruct (noticed_step w o I Z N L) as [Z' N']. apply IH; try assumption. apply KInv_krun. exact I.
  Qed.
End KeyProofs2.
