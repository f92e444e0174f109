(** The invariant of a series: one token travels along it. *)
From Verif Require Import Base SeriesModel SeriesSpec SeriesProofs.

Section Lemmas.
  Context {V : Type}.
  Implicit Types (s : sstate V) (l : list (event V)).

  Lemma work_app l l' : work (l ++ l') = work l ++ work l'.
  Proof. apply filter_app. Qed.
  Lemma outcomes_app l l' : outcomes (l ++ l') = outcomes l ++ outcomes l'.
  Proof. apply filter_app. Qed.
  Lemma said_snoc (rs : list V) (r : V) : forall j v,
    said j v (rs ++ [r]) = said j v rs ++ [ERan (j + length rs) (latest v rs); EResponded (j + length rs) (Some r)].
  Proof.
    induction rs as [|x rs IH]; intros j v; cbn.
    - rewrite Nat.add_0_r. reflexivity.
    - rewrite IH. cbn. rewrite Nat.add_succ_r. unfold latest.
      replace (match rs with [] => x | _ :: _ => last rs v end) with (last rs x); [reflexivity|].
      destruct rs as [|y rs]; [reflexivity|]. clear. revert y. induction rs as [|z rs IH2]; intros y; [reflexivity|].
      change (last (z :: rs) x = last (z :: rs) v). apply IH2.
  Qed.
  Lemma latest_snoc (v : V) rs r : latest v (rs ++ [r]) = r.
  Proof. unfold latest. apply last_last. Qed.

  Lemma shaped_frame n D t m inp s s' : s_cells s' = s_cells s -> s_next s' = s_next s -> shaped n D t m inp s -> shaped n D t m inp s'.
  Proof. intros E1 E2 [HC HN HM]. split; [intros; rewrite E1; apply HC|rewrite E2; exact HN|exact HM]. Qed.
  Lemma shaped_ext n D t m inp inp' s : (forall j, inp j = inp' j) -> shaped n D t m inp s -> shaped n D t m inp' s.
  Proof. intros E [HC HN HM]. split; [|exact HN|exact HM]. intros j. rewrite HC. unfold ecell. rewrite E. reflexivity. Qed.
  Lemma modify_input n D t m inp s j i : shaped n D t m inp s -> j <= m ->
    shaped n D t m (fun x => if x =? j then i else inp x) (modify j (set_input i) s).
  Proof.
    intros [HC HN HM] L. split; [|exact HN|exact HM]. intros x. cbn. unfold emap_set. destruct (Nat.eqb_spec x j) as [->|N].
    - rewrite HC, !ecell_alive by lia. rewrite Nat.eqb_refl. reflexivity.
    - rewrite HC. unfold ecell. destruct (Nat.eqb_spec x j); [contradiction|]. reflexivity.
  Qed.
  Lemma take_input n D t m s j w : shaped n D t m (at_ j w) s -> j <= m -> shaped n D t m nowhere (modify j (set_input []) s).
  Proof.
    intros SH L. apply (shaped_ext _ _ _ _ (fun x => if x =? j then [] else at_ j w x)); [|apply modify_input; assumption].
    intros x. unfold at_, nowhere. destruct (x =? j); reflexivity.
  Qed.
  Lemma put_input n D t m s j w : shaped n D t m nowhere s -> j <= m -> shaped n D t m (at_ j w) (modify j (set_input [(0, w)]) s).
  Proof.
    intros SH L. apply (shaped_ext _ _ _ _ (fun x => if x =? j then [(0, w)] else nowhere x)); [|apply modify_input; assumption].
    intros x. unfold at_, nowhere. destruct (x =? j); reflexivity.
  Qed.
End Lemmas.

Section Inv.
  Context {V : Type} (v0 : V) (calls : list call) (t : ending).
  Implicit Types (s : sstate V).
  Let n := sessions calls.
  Let D := detached calls.
  Let k := locked calls.
  Local Arguments sessions : simpl never.
  Local Arguments work : simpl never.
  Local Arguments outcomes : simpl never.

  (** How much of the series exists once it was collected. *)
  Definition kept (m : nat) : Prop :=
    (m = n /\ (t <> Unused \/ D n = true)) \/ (m = k /\ 0 < k /\ k < n /\ t = Unused /\ D n = false).
  Lemma kept_le m : kept m -> m <= n.
  Proof. intros [[-> _]|(-> & _ & L & _)]; lia. Qed.

  Definition lists s (later queue cancel despawn : list entity) (running : list (entity * entity)) : Prop :=
    s_later s = later /\ s_queue s = queue /\ s_cancel s = cancel /\ s_despawn s = despawn /\ s_running s = running.
  Definition logged s (l : list (event V)) (o : list (event V)) : Prop := work (s_log s) = l /\ outcomes (s_log s) = o.

  (** Session [length rs] failed. *)
  Definition failed (rs : list V) : list (event V) :=
    said 0 v0 rs ++ [ERan (length rs) (latest v0 rs); EResponded (length rs) None].

  (** What came out of a series which is over. *)
  Inductive fate s : Prop :=
  | F_unused : t = Unused -> k = 0 -> D n = false -> logged s [] [] -> fate s
  | F_done rs : length rs = n -> kept n ->
      logged s (said 0 v0 rs) (outcomes (s_log s)) ->
      match t with
      | Take => outcomes (s_log s) = [EDelivered (latest v0 rs)] \/ (outcomes (s_log s) = [] /\ s_dropped s = true)
      | Store => outcomes (s_log s) = [EStored (latest v0 rs)] \/ (outcomes (s_log s) = [] /\ s_receiver s = false)
      | Push => outcomes (s_log s) = [] /\ s_receiver s = false
      | Unused => outcomes (s_log s) = []
      end -> fate s
  | F_failed rs : length rs < n -> kept n ->
      logged s (failed rs) (outcomes (s_log s)) ->
      match t with
      | Take => outcomes (s_log s) = [ECancelled] \/ (outcomes (s_log s) = [] /\ s_dropped s = true)
      | _ => outcomes (s_log s) = []
      end -> fate s.

  (** Why a cancellation is under way. *)
  Inductive cause (m j : nat) s : list (event V) -> Prop :=
  | C_failed rs : length rs < n -> length rs <= m -> cause m j s (failed rs)
  | C_target rs : m < n -> length rs = S m -> cause m j s (said 0 v0 rs)
  | C_receiver rs : t = Push -> length rs = n -> s_receiver s = false -> m = n -> cause m j s (said 0 v0 rs).

  Inductive inv s : Prop :=
  | I_fresh : shaped n D t n (at_ 0 v0) s -> lists s [0] [] [] [] [] -> s_log s = [] -> inv s
  | I_queued m rs : kept m -> shaped n D t m (at_ (length rs) (latest v0 rs)) s -> length rs <= m -> (length rs = n -> t <> Unused) ->
      lists s [] [length rs] [] [] [] -> logged s (said 0 v0 rs) [] -> inv s
  | I_running m rs : kept m -> shaped n D t m nowhere s -> length rs <= m -> length rs < n ->
      lists s [] [] [] [] [(length rs, 0)] -> logged s (said 0 v0 rs ++ [ERan (length rs) (latest v0 rs)]) [] -> inv s
  | I_cancel m j l : kept m -> shaped n D t m nowhere s -> j <= m -> cause m j s l -> lists s [] [] [j] [] [] -> logged s l [] -> inv s
  | I_despawn rs : kept n -> t = Unused -> shaped n D t n nowhere s -> length rs = n -> lists s [] [] [] [n] [] -> logged s (said 0 v0 rs) [] -> inv s
  | I_stuck m l : kept m -> m < n -> shaped n D t m nowhere s -> cause m 0 s l -> lists s [] [] [] [] [] -> logged s l [] -> inv s
  | I_pushed rs : kept n -> t = Push -> length rs = n -> shaped n D t n nowhere s -> lists s [] [] [] [] [] ->
      logged s (said 0 v0 rs) [EPushed (latest v0 rs)] -> inv s
  | I_gone queue : gone s -> lists s [] queue [] [] [] -> fate s -> inv s.

  Lemma locked_lt : D n = false -> locked calls < n.
  Proof.
    intros E. unfold locked. fold n D. pose proof (last_true_le D n). destruct (Nat.eq_dec (last_true D n) n) as [F|F]; [|lia].
    assert (P : 0 < n) by (unfold n, sessions; lia). pose proof (last_true_true D n). rewrite F in H0. rewrite H0 in E by exact P. discriminate.
  Qed.

  (** ** The steps *)

  (** The frame: dropping the promise or the receiver changes nothing but the flags. *)
  Lemma inv_flags s s' : s_cells s' = s_cells s -> s_next s' = s_next s -> s_later s' = s_later s -> s_queue s' = s_queue s -> s_cancel s' = s_cancel s ->
    s_despawn s' = s_despawn s -> s_running s' = s_running s -> s_log s' = s_log s ->
    (s_dropped s = true -> s_dropped s' = true) -> (s_receiver s = false -> s_receiver s' = false) -> inv s -> inv s'.
  Proof.
    intros E1 E2 E3 E4 E5 E6 E7 E8 ED ER I.
    assert (LI : forall a b c d e, lists s a b c d e -> lists s' a b c d e) by (unfold lists; intros; rewrite E3, E4, E5, E6, E7; assumption).
    assert (LO : forall a b, logged s a b -> logged s' a b) by (unfold logged; intros; rewrite E8; assumption).
    assert (SH : forall m inp, shaped n D t m inp s -> shaped n D t m inp s') by (intros m inp; apply shaped_frame; assumption).
    assert (CA : forall m j l, cause m j s l -> cause m j s' l) by (intros m j l [rs ? ?|rs ? ?|rs ? ? ? ?]; [apply C_failed|apply C_target|apply C_receiver]; auto).
    destruct I.
    - apply I_fresh; auto. rewrite E8. assumption.
    - apply (I_queued s' m rs); auto.
    - apply (I_running s' m rs); auto.
    - apply (I_cancel s' m j l); auto.
    - apply (I_despawn s' rs); auto.
    - apply (I_stuck s' m l); auto.
    - apply (I_pushed s' rs); auto.
    - apply (I_gone s' queue); auto; [intros e; rewrite E1; apply H|]. destruct H1.
      + apply F_unused; auto.
      + apply (F_done s' rs); auto; rewrite E8; auto. destruct t; intuition.
      + apply (F_failed s' rs); auto; rewrite E8; auto. destruct t; intuition.
  Qed.

  Lemma cancel_lists s e a b c d r : lists s a b c d r -> lists (despawn e s) a b c d r.
  Proof. intros H. exact H. Qed.

  (** Which targets a collection finds unused. *)
  Definition unused_targets s : list entity :=
    filter (fun e => match s_cells s e with Some c => c_unused c && match c_detached c with Some _ => true | None => false end | None => false end) (seq 0 (s_next s)).
  Lemma unused_none s : (forall e c, s_cells s e = Some c -> c_unused c = false) -> unused_targets s = [].
  Proof.
    intros H. unfold unused_targets. induction (seq 0 (s_next s)) as [|e l IH]; [reflexivity|]. cbn.
    destruct (s_cells s e) as [c|] eqn:E; [rewrite (H _ _ E); exact IH|exact IH].
  Qed.
  Lemma unused_last s inp : t = Unused -> D n = false -> shaped n D t n inp s -> unused_targets s = [n].
  Proof.
    intros ET ED [HC HN HM]. unfold unused_targets. rewrite HN.
    assert (P : forall e, e < S n -> match s_cells s e with Some c => c_unused c && match c_detached c with Some _ => true | None => false end | None => false end = (e =? n)).
    { intros e L. rewrite HC, ecell_alive by lia. cbn [c_unused c_detached]. rewrite ED, ET. cbn [is_unused negb]. rewrite !andb_true_r.
      destruct (Nat.eqb_spec e n) as [->|]; [|reflexivity]. cbn. destruct (Nat.eqb_spec n 0) as [E|]; [unfold n, sessions in E; lia|reflexivity]. }
    rewrite seq_S. rewrite filter_app. cbn [filter plus]. rewrite P by lia. rewrite Nat.eqb_refl.
    assert (Z : forall l, (forall x, In x l -> x < n) -> filter (fun e => match s_cells s e with Some c => c_unused c && match c_detached c with Some _ => true | None => false end | None => false end) l = []).
    { induction l as [|x l IH]; intros H; [reflexivity|]. cbn. rewrite P by (specialize (H x); cbn in H; lia).
      destruct (Nat.eqb_spec x n) as [E|]; [specialize (H x); cbn in H; lia|]. apply IH. intros y Hy. apply H. right. exact Hy. }
    rewrite Z; [reflexivity|]. intros x Hx. apply in_seq in Hx. lia.
  Qed.

  Lemma shaped_used s m inp : kept m -> shaped n D t m inp s -> forall e c, s_cells s e = Some c -> c_unused c = false.
  Proof.
    intros K [HC HN HM] e c E. rewrite HC in E. destruct (le_lt_dec e m) as [L|L]; [|rewrite ecell_dead in E by lia; discriminate].
    rewrite ecell_alive in E by lia. injection E as <-. cbn. destruct (Nat.eqb_spec e n) as [->|]; [|reflexivity]. cbn.
    destruct K as [[-> [NT|DN]]|(-> & _ & L2 & _)]; [destruct t; [contradiction|reflexivity..]|rewrite DN; apply andb_false_r|lia].
  Qed.

  (** A collection when nothing is unused. *)
  Lemma collect_idle s : unused_targets (set_later (set_queue s (s_queue s ++ s_later s)) []) = [] ->
    collect s = set_channel (set_later (set_queue s (s_queue s ++ s_later s)) []) [].
  Proof. intros H. unfold collect. fold (unused_targets (set_later (set_queue s (s_queue s ++ s_later s)) [])). rewrite H. reflexivity. Qed.

  Lemma inv_collect s : inv s -> inv (collect s).
  Proof.
    intros I. destruct I as [SH LI LO|m rs K SH L1 L2 LI LO|m rs K SH L1 L2 LI LO|m j l K SH L1 CA LI LO|rs K ET SH L1 LI LO|m l K L1 SH CA LI LO|rs K ET L1 SH LI LO|q G LI FA].
    - (* fresh *)
      destruct LI as (A1 & A2 & A3 & A4 & A5).
      set (s1 := set_later (set_queue s (s_queue s ++ s_later s)) []).
      assert (SH1 : shaped n D t n (at_ 0 v0) s1) by (apply (shaped_frame _ _ _ _ _ s); [reflexivity..|exact SH]).
      assert (KEEP : kept n -> inv (collect s)).
      { intros K. rewrite collect_idle; [|apply unused_none, (shaped_used _ n (at_ 0 v0)); [exact K|exact SH1]].
        apply (I_queued _ n []); cbn; auto.
        - apply (shaped_frame _ _ _ _ _ s); [reflexivity..|exact SH].
        - lia.
        - unfold n, sessions. discriminate.
        - unfold lists. cbn. rewrite A1, A2. auto.
        - unfold logged. cbn. rewrite LO. auto. }
      destruct (D n) eqn:DN; [apply KEEP; left; auto|]. assert (CT : t = Unused \/ t <> Unused) by (destruct t; [left; reflexivity|right; discriminate..]).
      destruct CT as [ET|NT]; [|apply KEEP; left; split; [reflexivity|left; exact NT]].
      clear KEEP. unfold collect. fold s1. fold (unused_targets s1).
      assert (U : unused_targets s1 = [n]).
      { apply (unused_last s1 (at_ 0 v0)); [exact ET|exact DN|exact SH1]. }
      rewrite U. cbn [filter]. assert (DF : match s_cells s1 n with Some c => match c_detached c with Some d => d | None => false end | None => false end = false).
      { rewrite (sh_cells _ _ _ _ _ _ SH1), ecell_alive by lia. cbn. destruct (n =? 0); [reflexivity|exact DN]. }
      rewrite DF. cbn [filter negb fold_left].
      pose proof SH1 as SHU. rewrite ET in SHU.
      destruct (drop_spec n D (at_ 0 v0) s1 SHU DN) as (B0 & B1 & B2 & B3 & B4 & B5 & B6 & B7 & B8 & B9 & B10).
      { cbn. rewrite A1, A2. reflexivity. } { unfold n, sessions. lia. }
      set (s2 := drop_target true s1 n) in *. clearbody s2. fold k in B0. change (last_true D n) with k in B0.
      destruct (Nat.eqb_spec k 0) as [K0|K0].
      + apply (I_gone _ [0]).
        * exact B0.
        * unfold lists. cbn. rewrite B2, B3, B4, B5, B6. cbn. auto.
        * apply F_unused; auto. unfold logged. cbn. rewrite B10. cbn. rewrite LO. auto.
      + apply (I_queued _ k []); cbn [length latest last said].
        * right. repeat split; auto; [lia|]. apply locked_lt. exact DN.
        * apply (shaped_frame _ _ _ _ _ s2); [reflexivity..|]. rewrite ET. exact B0.
        * lia.
        * unfold n, sessions. discriminate.
        * unfold lists. cbn. rewrite B2, B3, B4, B5, B6. cbn. auto.
        * unfold logged. cbn. rewrite B10. cbn. rewrite LO. auto.
    - destruct LI as (A1 & A2 & A3 & A4 & A5). rewrite collect_idle.
      + apply (I_queued _ m rs); auto; [apply (shaped_frame _ _ _ _ _ s); [reflexivity..|exact SH]|]. unfold lists. cbn. rewrite A1, A2. auto.
      + apply unused_none. apply (shaped_used s m (at_ (length rs) (latest v0 rs))); assumption.
    - destruct LI as (A1 & A2 & A3 & A4 & A5). rewrite collect_idle.
      + apply (I_running _ m rs); auto; [apply (shaped_frame _ _ _ _ _ s); [reflexivity..|exact SH]|]. unfold lists. cbn. rewrite A1, A2. auto.
      + apply unused_none. apply (shaped_used s m nowhere); assumption.
    - destruct LI as (A1 & A2 & A3 & A4 & A5). rewrite collect_idle.
      + apply (I_cancel _ m j l); auto; [apply (shaped_frame _ _ _ _ _ s); [reflexivity..|exact SH]| |]. 
        * destruct CA; [apply C_failed|apply C_target|apply C_receiver]; auto.
        * unfold lists. cbn. rewrite A1, A2. auto.
      + apply unused_none. apply (shaped_used s m nowhere); assumption.
    - destruct LI as (A1 & A2 & A3 & A4 & A5). rewrite collect_idle.
      + apply (I_despawn _ rs); auto; [apply (shaped_frame _ _ _ _ _ s); [reflexivity..|exact SH]|]. unfold lists. cbn. rewrite A1, A2. auto.
      + apply unused_none. apply (shaped_used s n nowhere); assumption.
    - destruct LI as (A1 & A2 & A3 & A4 & A5). rewrite collect_idle.
      + apply (I_stuck _ m l); auto; [apply (shaped_frame _ _ _ _ _ s); [reflexivity..|exact SH]| |].
        * destruct CA; [apply C_failed|apply C_target|apply C_receiver]; auto.
        * unfold lists. cbn. rewrite A1, A2. auto.
      + apply unused_none. apply (shaped_used s m nowhere); assumption.
    - destruct LI as (A1 & A2 & A3 & A4 & A5). rewrite collect_idle.
      + apply (I_pushed _ rs); auto; [apply (shaped_frame _ _ _ _ _ s); [reflexivity..|exact SH]|]. unfold lists. cbn. rewrite A1, A2. auto.
      + apply unused_none. apply (shaped_used s n nowhere); assumption.
    - destruct LI as (A1 & A2 & A3 & A4 & A5). rewrite collect_idle.
      + apply (I_gone _ q); auto; [unfold lists; cbn; rewrite A1, A2, app_nil_r; auto|].
        destruct FA; [apply F_unused|eapply F_done|eapply F_failed]; eauto.
      + apply unused_none. cbn. intros e c E. rewrite G in E. discriminate.
  Qed.

  Lemma inv_execute s : inv s -> inv (step s AExecute).
  Proof.
    intros I. cbn [step]. pose proof I as I0. destruct I as [SH LI LO|m rs K SH L1 L2 LI LO|m rs K SH L1 L2 LI LO|m j l K SH L1 CA LI LO|rs K ET SH L1 LI LO|m l K L1 SH CA LI LO|rs K ET L1 SH LI LO|q G LI FA];
      destruct LI as (A1 & A2 & A3 & A4 & A5); rewrite A2; try exact I0.
    - clear I0. set (s1 := set_queue s []).
      assert (SH1 : shaped n D t m (at_ (length rs) (latest v0 rs)) s1) by (apply (shaped_frame _ _ _ _ _ s); [reflexivity..|exact SH]).
      pose proof (take_input _ _ _ _ _ _ _ SH1 L1) as SH2.
      unfold execute. rewrite (sh_cells _ _ _ _ _ _ SH1), ecell_alive by exact L1. cbn [c_op c_input]. replace (at_ (length rs) (latest v0 rs) (length rs)) with [(0, latest v0 rs)] by (unfold at_; rewrite Nat.eqb_refl; reflexivity).
      destruct LO as [LO1 LO2].
      destruct (Nat.ltb_spec (length rs) n) as [LN|LN].
      + apply (I_running _ m rs); auto.
        * apply (shaped_frame _ _ _ _ _ (modify (length rs) (set_input []) s1)); [reflexivity..|exact SH2].
        * unfold lists. cbn. rewrite A1, A3, A4, A5. auto.
        * split; cbn; [rewrite work_app, LO1|rewrite outcomes_app, LO2]; reflexivity.
      + assert (EN : length rs = n) by (pose proof (kept_le m K); lia). assert (m = n) by (pose proof (kept_le m K); lia). subst m.
        specialize (L2 EN).
        set (s2 := modify (length rs) (set_input []) s1) in *.
        assert (LI2 : lists s2 [] [] [] [] []) by (unfold lists; cbn; auto).
        assert (LO3 : s_log s2 = s_log s) by reflexivity. assert (DR : s_dropped s2 = s_dropped s) by reflexivity. assert (RE : s_receiver s2 = s_receiver s) by reflexivity.
        clearbody s2. rewrite EN in *. 
        destruct t eqn:ET; [contradiction| | |]; cbn [end_op].
        * (* take *)
          apply (I_gone _ []).
          -- intros x. destruct (s_dropped s2); apply (despawn_top n D Take n nowhere); [exact SH2|apply (shaped_frame _ _ _ _ _ s2); [reflexivity..|exact SH2]].
          -- apply cancel_lists. destruct (s_dropped s2); exact LI2.
          -- apply (F_done _ rs); auto.
             ++ destruct (s_dropped s2); (split; [|reflexivity]); cbn; rewrite LO3; [exact LO1|]. rewrite work_app, LO1. cbn. apply app_nil_r.
             ++ rewrite ET. destruct (s_dropped s2) eqn:EDR; cbn; rewrite LO3; [right; auto|]. left. rewrite outcomes_app, LO2. reflexivity.
        * apply (I_gone _ []).
          -- intros x. destruct (s_receiver s2); apply (despawn_top n D Store n nowhere); [apply (shaped_frame _ _ _ _ _ s2); [reflexivity..|exact SH2]|exact SH2].
          -- apply cancel_lists. destruct (s_receiver s2); exact LI2.
          -- apply (F_done _ rs); auto.
             ++ destruct (s_receiver s2); (split; [|reflexivity]); cbn; rewrite LO3; [|exact LO1]. rewrite work_app, LO1. cbn. apply app_nil_r.
             ++ rewrite ET. destruct (s_receiver s2) eqn:EDR; cbn; rewrite LO3; [|right; auto]. left. rewrite outcomes_app, LO2. reflexivity.
        * destruct (s_receiver s2) eqn:EDR.
          -- apply (I_pushed _ rs); auto; [rewrite ET; apply (shaped_frame _ _ _ _ _ s2); [reflexivity..|exact SH2]|].
             split; cbn; rewrite LO3; [rewrite work_app, LO1; cbn; apply app_nil_r|rewrite outcomes_app, LO2; reflexivity].
          -- apply (I_cancel _ n n (said 0 v0 rs)); auto.
             ++ rewrite ET. apply (shaped_frame _ _ _ _ _ s2); [reflexivity..|exact SH2].
             ++ apply C_receiver; auto.
             ++ destruct LI2 as (C1 & C2 & C3 & C4 & C5). unfold lists. cbn. rewrite C3. auto.
             ++ split; cbn; rewrite LO3; auto.
    - destruct q as [|e q]; [exact I0|]. clear I0. unfold execute. cbn [s_cells set_queue]. rewrite G.
      apply (I_gone _ q); [exact G|unfold lists; cbn; auto|]. destruct FA; [apply F_unused|eapply F_done|eapply F_failed]; eauto.
  Qed.

  Lemma said_run rs r : said 0 v0 (rs ++ [r]) = said 0 v0 rs ++ [ERan (length rs) (latest v0 rs); EResponded (length rs) (Some r)].
  Proof. exact (said_snoc rs r 0 v0). Qed.

  Lemma inv_respond s e r : inv s -> inv (step s (ARespond e r)).
  Proof.
    intros I. cbn [step]. pose proof I as I0. destruct I as [SH LI LO|m rs K SH L1 L2 LI LO|m rs K SH L1 L2 LI LO|m j l K SH L1 CA LI LO|rs K ET SH L1 LI LO|m l K L1 SH CA LI LO|rs K ET L1 SH LI LO|q G LI FA];
      destruct LI as (A1 & A2 & A3 & A4 & A5); rewrite A5; try exact I0.
    cbn [find fst]. destruct (Nat.eqb_spec (length rs) e) as [E|N]; [|exact I0]. clear I0. subst e.
    cbn [filter fst]. rewrite Nat.eqb_refl. cbn [negb].
    set (s1 := note (set_running s []) (EResponded (length rs) r)).
    assert (SH1 : shaped n D t m nowhere s1) by (apply (shaped_frame _ _ _ _ _ s); [reflexivity..|exact SH]).
    assert (LI1 : lists s1 [] [] [] [] []) by (unfold lists; cbn; auto).
    destruct LO as [LO1 LO2].
    assert (LO3 : logged s1 (said 0 v0 rs ++ [ERan (length rs) (latest v0 rs); EResponded (length rs) r]) []).
    { split; cbn; [rewrite work_app, LO1, <- app_assoc|rewrite outcomes_app, LO2]; reflexivity. }
    clearbody s1. rewrite (sh_cells _ _ _ _ _ _ SH1), ecell_alive by exact L1. cbn [c_op].
    destruct (Nat.ltb_spec (length rs) n) as [_|]; [|lia].
    assert (FAIL : forall l, cause m (length rs) s1 l -> logged s1 l [] -> inv (fail (length rs) s1)).
    { intros l CA LL. apply (I_cancel _ m (length rs) l); auto.
      - apply (shaped_frame _ _ _ _ _ s1); [reflexivity..|exact SH1].
      - destruct CA; [apply C_failed|apply C_target|apply C_receiver]; auto.
      - destruct LI1 as (C1 & C2 & C3 & C4 & C5). unfold lists. cbn. rewrite C3. auto. }
    destruct r as [w|]; [|apply (FAIL _ (C_failed _ _ _ rs L2 L1)); exact LO3].
    rewrite <- said_run in LO3. assert (LS : length (rs ++ [w]) = S (length rs)) by (rewrite app_length; cbn; lia).
    destruct LI1 as (C1 & C2 & C3 & C4 & C5).
    unfold give. rewrite (sh_cells _ _ _ _ _ _ SH1 (S (length rs))). destruct (le_lt_dec (S (length rs)) m) as [L3|L3].
    - rewrite ecell_alive by exact L3. cbn [c_op c_input c_unused c_detached].
      rewrite (sh_cells _ _ _ _ _ _ SH1), ecell_alive by lia. cbn [c_active Nat.eqb].
      assert (PUT : shaped n D t m (at_ (length (rs ++ [w])) (latest v0 (rs ++ [w]))) (modify (S (length rs)) (set_input [(0, w)]) s1)).
      { rewrite LS, latest_snoc. apply put_input; assumption. }
      assert (GO : forall q, q = S (length rs) -> (S (length rs) = n -> t <> Unused) -> inv (set_queue (modify (S (length rs)) (set_input (nowhere (S (length rs)) ++ [(0, w)])) s1) (s_queue s1 ++ [q]))).
      { intros q -> NU. apply (I_queued _ m (rs ++ [w])); auto; try (rewrite LS; auto).
        - rewrite LS in PUT. apply (shaped_frame _ _ _ _ _ (modify (S (length rs)) (set_input [(0, w)]) s1)); [reflexivity..|exact PUT].
        - unfold lists. cbn. rewrite C2. auto. }
      destruct (Nat.ltb_spec (S (length rs)) n) as [L4|L4].
      + apply GO; [reflexivity|lia].
      + assert (EN : S (length rs) = n) by (pose proof (kept_le m K); lia). assert (m = n) by (pose proof (kept_le m K); lia). subst m.
        destruct t eqn:ET; cbn [end_op]; [|apply GO; [reflexivity|discriminate]..].
        assert (DN : D n = true) by (destruct K as [[_ [X|X]]|(E & _ & L & _)]; [contradiction|exact X|lia]).
        rewrite DN. cbn [negb]. rewrite andb_false_r, EN, DN. apply (I_despawn _ (rs ++ [w])); auto; try lia.
        * rewrite ET. apply (shaped_frame _ _ _ _ _ s1); [reflexivity..|exact SH1].
        * unfold lists. cbn. rewrite C4. auto.
    - rewrite ecell_dead by exact L3. apply (FAIL (said 0 v0 (rs ++ [w]))); [|exact LO3].
      apply C_target; [|rewrite LS]; lia.
  Qed.

  Lemma inv_cancel s : inv s -> inv (step s ACancel).
  Proof.
    intros I. cbn [step]. pose proof I as I0. destruct I as [SH LI LO|m rs K SH L1 L2 LI LO|m rs K SH L1 L2 LI LO|m j l K SH L1 CA LI LO|rs K ET SH L1 LI LO|m l K L1 SH CA LI LO|rs K ET L1 SH LI LO|q G LI FA];
      destruct LI as (A1 & A2 & A3 & A4 & A5); rewrite A3; try exact I0. clear I0.
    set (s1 := set_cancel s []).
    assert (SH1 : shaped n D t m nowhere s1) by (apply (shaped_frame _ _ _ _ _ s); [reflexivity..|exact SH]).
    assert (LI1 : lists s1 [] [] [] [] []) by (unfold lists; cbn; auto).
    assert (CA1 : cause m j s1 l) by (destruct CA; [apply C_failed|apply C_target|apply C_receiver]; auto).
    assert (LO1 : logged s1 l []) by exact LO. clearbody s1. clear CA LO SH A1 A2 A3 A4 A5.
    unfold cancel. rewrite (sh_cells _ _ _ _ _ _ SH1), ecell_alive by exact L1.
    rewrite (terminal_chain n D t m nowhere); [|apply (sh_cells _ _ _ _ _ _ SH1)|apply (sh_m _ _ _ _ _ _ SH1)|exact L1|rewrite (sh_next _ _ _ _ _ _ SH1); pose proof (kept_le m K); lia].
    destruct (Nat.ltb_spec m n) as [LM|LM].
    - rewrite (sh_cells _ _ _ _ _ _ SH1), ecell_dead by lia.
      apply (I_stuck _ m l); auto.
      + split; [|cbn; apply (sh_next _ _ _ _ _ _ SH1)|apply (kept_le m K)]. intros x. rewrite (despawn_missing n D t m nowhere) by (auto; lia). apply (sh_cells _ _ _ _ _ _ SH1).
      + destruct CA1; [apply C_failed|apply C_target|apply C_receiver]; auto.
    - assert (m = n) by (pose proof (kept_le m K); lia). subst m.
      rewrite (sh_cells _ _ _ _ _ _ SH1), ecell_alive by lia. cbn [c_op]. rewrite Nat.ltb_irrefl.
      assert (NOTE : shaped n D t n nowhere (note s1 ECancelled)) by (apply (shaped_frame _ _ _ _ _ s1); [reflexivity..|exact SH1]).
      destruct LO1 as [W O].
      apply (I_gone _ []).
      + intros x. destruct t; cbn [end_op]; try destruct (s_dropped s1); eapply despawn_top; eassumption.
      + destruct t; cbn [end_op]; try destruct (s_dropped s1); exact LI1.
      + destruct CA1 as [rs LR _|rs LR1 LR2|rs ET LR RE _].
        * apply (F_failed _ rs); auto.
          -- destruct t; cbn [end_op]; try destruct (s_dropped s1); (split; [|reflexivity]); cbn; try exact W. rewrite work_app, W. apply app_nil_r.
          -- destruct t; cbn [end_op]; try (cbn; exact O). destruct (s_dropped s1) eqn:DR; cbn; [right; auto|left; rewrite outcomes_app, O; reflexivity].
        * lia.
        * assert (EO : end_op t = Some OPush) by (rewrite ET; reflexivity). rewrite EO. apply (F_done _ rs); auto; [split; [exact W|reflexivity]|].
          rewrite ET. split; [exact O|exact RE].
  Qed.

  Lemma inv_despawn s : inv s -> inv (step s ADespawn).
  Proof.
    intros I. cbn [step]. pose proof I as I0. destruct I as [SH LI LO|m rs K SH L1 L2 LI LO|m rs K SH L1 L2 LI LO|m j l K SH L1 CA LI LO|rs K ET SH L1 LI LO|m l K L1 SH CA LI LO|rs K ET L1 SH LI LO|q G LI FA];
      destruct LI as (A1 & A2 & A3 & A4 & A5); rewrite A4; cbn [fold_left]; try (apply (inv_flags s); cbn; auto; fail).
    apply (I_gone _ []).
    - intros x. apply (despawn_top n D t n nowhere). apply (shaped_frame _ _ _ _ _ s); [reflexivity..|exact SH].
    - unfold lists. cbn. auto.
    - apply (F_done _ rs); auto; [split; [apply LO|reflexivity]|]. rewrite ET. cbn. apply LO.
  Qed.

  Lemma inv_step s a : inv s -> inv (step s a).
  Proof.
    intros I. destruct a.
    - apply inv_collect, I.
    - apply inv_execute, I.
    - apply inv_respond, I.
    - apply inv_cancel, I.
    - apply inv_despawn, I.
    - apply (inv_flags s); cbn; auto.
    - apply (inv_flags s); cbn; auto.
  Qed.

  Lemma inv_run acts : inv (run v0 calls t acts).
  Proof.
    unfold run. assert (I : inv (series v0 calls t)).
    { destruct (series_shape v0 calls t) as (SH & A1 & A2 & A3 & A4 & A5 & _ & _ & _ & L). apply I_fresh; auto. unfold lists. auto. }
    revert I. generalize (series v0 calls t). induction acts as [|a acts IH]; intros s I; [exact I|]. cbn. apply IH, inv_step, I.
  Qed.
End Inv.
