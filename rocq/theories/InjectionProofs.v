(** Invariants of injection nodes. *)
From Verif Require Import Base ScopeModel ScopeProofs InjectionModel InjectionSpec.

Section InjectionProofs.
  Context {V R : Type}.
  Notation world := (iworld V R).
  Notation log := (list (ievent V R)).

  (** *** Logs *)

  Lemma waiting_app s (l1 l2 : log) : forall acc,
    requests_waiting s acc (l1 ++ l2) = requests_waiting s (requests_waiting s acc l1) l2.
  Proof. induction l1 as [|e l1 IH]; intros acc; [reflexivity|]. destruct e; cbn; apply IH. Qed.

  Lemma open_app s (l1 l2 : log) : forall acc,
    tasks_open s acc (l1 ++ l2) = tasks_open s (tasks_open s acc l1) l2.
  Proof. induction l1 as [|e l1 IH]; intros acc; [reflexivity|]. destruct e; cbn; apply IH. Qed.

  Lemma cleaned_app s (l1 l2 : log) : cleaned s (l1 ++ l2) <-> cleaned s l1 \/ cleaned s l2.
  Proof.
    unfold cleaned. split.
    - intros [id H]. apply in_app_or in H as [H|H]; [left|right]; exists id; exact H.
    - intros [[id H]|[id H]]; exists id; apply in_or_app; tauto.
  Qed.

  (** Events that only matter for cleanups. *)
  Definition quiet (e : ievent V R) : bool :=
    match e with JvStopped _ | JvConfirmed _ | JvBroken => true | _ => false end.

  Lemma quiet_waiting s (l : log) : forallb quiet l = true ->
    forall acc, requests_waiting s acc l = acc.
  Proof.
    induction l as [|e l IH]; intros H acc; [reflexivity|]. cbn [forallb] in H.
    apply andb_prop in H as [A B]. destruct e; try discriminate; cbn; apply IH; exact B.
  Qed.

  Lemma quiet_open s (l : log) : forallb quiet l = true -> forall acc, tasks_open s acc l = acc.
  Proof.
    induction l as [|e l IH]; intros H acc; [reflexivity|]. cbn [forallb] in H.
    apply andb_prop in H as [A B]. destruct e; try discriminate; cbn; apply IH; exact B.
  Qed.

  Lemma quiet_in (l : log) e : forallb quiet l = true -> In e l -> quiet e = true.
  Proof. intros H. rewrite forallb_forall in H. apply H. Qed.

  Lemma quiet_cleaned s (l : log) : forallb quiet l = true -> ~ cleaned s l.
  Proof. intros H [id A]. apply (quiet_in _ _ H) in A. discriminate. Qed.

  Lemma quiet_responses s (l : log) : forallb quiet l = true -> responses_of s l = [].
  Proof.
    induction l as [|e l IH]; intros H; [reflexivity|]. cbn [forallb] in H.
    apply andb_prop in H as [A B]. destruct e; try discriminate; cbn; apply IH; exact B.
  Qed.

  Lemma quiet_outs s (l : log) : forallb quiet l = true -> outs_of s l = [].
  Proof.
    induction l as [|e l IH]; intros H; [reflexivity|]. cbn [forallb] in H.
    apply andb_prop in H as [A B]. destruct e; try discriminate; cbn; apply IH; exact B.
  Qed.

  Lemma responses_app s (l1 l2 : log) : responses_of s (l1 ++ l2) = responses_of s l1 ++ responses_of s l2.
  Proof. apply flat_map_app. Qed.

  Lemma outs_app s (l1 l2 : log) : outs_of s (l1 ++ l2) = outs_of s l1 ++ outs_of s l2.
  Proof. apply flat_map_app. Qed.

  (** All outputs, of whatever session. *)
  Definition out_tasks (l : log) : list entity :=
    flat_map (fun e => match e with JvOut _ t _ => [t] | _ => [] end) l.

  Lemma out_tasks_app (l1 l2 : log) : out_tasks (l1 ++ l2) = out_tasks l1 ++ out_tasks l2.
  Proof. apply flat_map_app. Qed.

  Lemma quiet_out_tasks (l : log) : forallb quiet l = true -> out_tasks l = [].
  Proof.
    induction l as [|e l IH]; intros H; [reflexivity|]. cbn [forallb] in H.
    apply andb_prop in H as [A B]. destruct e; try discriminate; cbn; apply IH; exact B.
  Qed.

  Lemma in_out_tasks (l : log) t : In t (out_tasks l) <-> exists s r, In (JvOut s t r) l.
  Proof.
    unfold out_tasks. rewrite in_flat_map. split.
    - intros [e [A B]]. destruct e; try contradiction. destruct B as [<-|[]]. eexists _, _. exact A.
    - intros [s [r A]]. exists (JvOut s t r). split; [exact A|left; reflexivity].
  Qed.

  Lemma in_responses s t r (l : log) : In (t, r) (responses_of s l) <-> In (JvResponse s t r) l.
  Proof.
    unfold responses_of. rewrite in_flat_map. split.
    - intros [e [A B]]. destruct e as [| |s' t' r'| | | | | | |]; try contradiction.
      destruct (Nat.eqb_spec s' s) as [E|E]; [|contradiction]. subst s'.
      destruct B as [B|[]]. injection B as <- <-. exact A.
    - intros A. exists (JvResponse s t r). split; [exact A|]. rewrite Nat.eqb_refl. left. reflexivity.
  Qed.

  Lemma in_outs s t r (l : log) : In (t, r) (outs_of s l) <-> In (JvOut s t r) l.
  Proof.
    unfold outs_of. rewrite in_flat_map. split.
    - intros [e [A B]]. destruct e as [| | | |s' t' r'| | | | |]; try contradiction.
      destruct (Nat.eqb_spec s' s) as [E|E]; [|contradiction]. subst s'.
      destruct B as [B|[]]. injection B as <- <-. exact A.
    - intros A. exists (JvOut s t r). split; [exact A|]. rewrite Nat.eqb_refl. left. reflexivity.
  Qed.

  (** *** Lists *)

  Lemma find_fin f (l : list injected) :
    match find (fun i => Nat.eqb (in_fin i) f) l with
    | Some i => In i l /\ in_fin i = f
    | None => forall i, In i l -> in_fin i <> f
    end.
  Proof.
    destruct (find (fun i => Nat.eqb (in_fin i) f) l) as [i|] eqn:E.
    - apply find_some in E as [A B]. apply Nat.eqb_eq in B. split; assumption.
    - intros i Hi H. apply (find_none _ _ E) in Hi. rewrite H, Nat.eqb_refl in Hi. discriminate.
  Qed.

  Lemma map_inj {A B} (g : A -> B) (l : list A) x y :
    NoDup (map g l) -> In x l -> In y l -> g x = g y -> x = y.
  Proof.
    induction l as [|a l IH]; cbn [map]; intros N Hx Hy E; [contradiction|]. inversion N; subst.
    destruct Hx as [Hx|Hx], Hy as [Hy|Hy]; subst.
    - reflexivity.
    - exfalso. apply H1. rewrite E. apply in_map. exact Hy.
    - exfalso. apply H1. rewrite <- E. apply in_map. exact Hx.
    - apply IH; assumption.
  Qed.

  Lemma NoDup_map_filter {A B} (g : A -> B) p (l : list A) : NoDup (map g l) -> NoDup (map g (filter p l)).
  Proof.
    induction l as [|a l IH]; cbn [map filter]; intros N; [constructor|]. inversion N; subst.
    destruct (p a); cbn [map]; [|apply IH; assumption]. constructor; [|apply IH; assumption].
    intros H. apply H1. apply in_map_iff in H as [x [E H]]. apply filter_In in H as [H _].
    rewrite <- E. apply in_map. exact H.
  Qed.

  Lemma filter_comm {A} (p q : A -> bool) l : filter p (filter q l) = filter q (filter p l).
  Proof.
    induction l as [|a l IH]; cbn [filter]; [reflexivity|].
    destruct (q a) eqn:Q, (p a) eqn:P; cbn [filter]; rewrite ?P, ?Q, ?IH; reflexivity.
  Qed.

  Lemma filter_none {A} (p : A -> bool) l : (forall x, In x l -> p x = false) -> filter p l = [].
  Proof.
    induction l as [|a l IH]; cbn [filter]; intros H; [reflexivity|].
    rewrite (H a (or_introl eq_refl)). apply IH. intros x Hx. apply H. right. exact Hx.
  Qed.

  Lemma filter_all {A} (p : A -> bool) l : (forall x, In x l -> p x = true) -> filter p l = l.
  Proof.
    induction l as [|a l IH]; cbn [filter]; intros H; [reflexivity|].
    rewrite (H a (or_introl eq_refl)). f_equal. apply IH. intros x Hx. apply H. right. exact Hx.
  Qed.

  Lemma filter_cut {A} (key : A -> nat) (s s' : nat) (l : list A) :
    filter (fun x => Nat.eqb (key x) s') (filter (fun x => negb (Nat.eqb (key x) s)) l)
    = if Nat.eqb s s' then [] else filter (fun x => Nat.eqb (key x) s') l.
  Proof.
    induction l as [|a l IH]; cbn [filter]; [destruct (Nat.eqb s s'); reflexivity|].
    destruct (Nat.eqb_spec (key a) s) as [E|E]; cbn [negb filter].
    - rewrite IH, E. destruct (Nat.eqb_spec s s'); [reflexivity|]. reflexivity.
    - rewrite IH. destruct (Nat.eqb_spec (key a) s') as [E'|E'], (Nat.eqb_spec s s'); try reflexivity.
      congruence.
  Qed.

  (** *** Stopping the tasks of a cleanup *)

  Definition stop_all (now : entity -> bool) (id : entity) (l : list entity) (m : emap itask) : emap itask :=
    fun t => if in_dec Nat.eq_dec t l
             then match m t with
                  | Some x => Some (set_state x (if now t then TStopped else TStopping id))
                  | None => None
                  end
             else m t.

  Lemma clean_tasks_effect now id l : forall (w : world) pre,
    (forall t, In t l -> iw_tasks w t <> None) ->
    NoDup (pre ++ l) -> pre ++ l <> [] -> c_get (iw_contents w) id = Some (pre ++ l) ->
    let w' := clean_tasks now id l w in
    let rem := pre ++ filter (fun t => negb (now t)) l in
    iw_next w' = iw_next w /\ iw_inputs w' = iw_inputs w /\ iw_list w' = iw_list w /\
    iw_fins w' = iw_fins w /\ iw_await w' = iw_await w /\
    (forall t, iw_tasks w' t = stop_all now id l (iw_tasks w) t) /\
    iw_log w' = iw_log w ++ map (fun t => JvStopped t) (filter now l) /\
    (forall id', id' <> id -> c_get (iw_contents w') id' = c_get (iw_contents w) id') /\
    ((rem = [] /\ c_get (iw_contents w') id = None /\ iw_done w' = iw_done w ++ [id]) \/
     (rem <> [] /\ c_get (iw_contents w') id = Some rem /\ iw_done w' = iw_done w)).
  Proof.
    induction l as [|t l IH]; intros w pre Ht N Hne Hc; cbn [clean_tasks filter map].
    - cbn zeta. rewrite !app_nil_r in *. repeat (split; [reflexivity|]).
      right. repeat split; [exact Hne|exact Hc].
    - assert (Nt : ~ In t (pre ++ l)) by (apply NoDup_remove_2; exact N).
      assert (N' : NoDup (pre ++ l)) by (apply NoDup_remove_1 in N; exact N).
      assert (Ntl : ~ In t l) by (intros H; apply Nt, in_or_app; right; exact H).
      destruct (iw_tasks w t) as [x|] eqn:Ex; [|exfalso; apply (Ht t (or_introl eq_refl)); exact Ex].
      destruct (now t) eqn:En; cbn [negb filter map].
      + assert (W : without t (pre ++ t :: l) = pre ++ l).
        { unfold without. rewrite filter_app. cbn [filter]. rewrite Nat.eqb_refl. cbn [negb].
          rewrite <- filter_app. apply filter_all. intros y Hy.
          destruct (Nat.eqb_spec y t) as [E|E]; [|reflexivity]. subst y. contradiction. }
        unfold istop. pose proof (notify_some _ id t _ Hc) as NS. rewrite W in NS.
        pose proof (notify_other (iw_contents w) id t) as NO.
        destruct (notify_contents (iw_contents w) id t) as [c d] eqn:En'. cbn [fst snd] in NS, NO.
        set (w1 := mk_iworld _ _ _ _ _ _ _ _ _).
        assert (T : forall u, stop_all now id l (iw_tasks w1) u = stop_all now id (t :: l) (iw_tasks w) u).
        { intros u. unfold stop_all. subst w1. cbn [iw_tasks].
          destruct (Nat.eq_dec u t) as [E|E].
          - subst u. destruct (in_dec Nat.eq_dec t l) as [H|_]; [contradiction|].
            destruct (in_dec Nat.eq_dec t (t :: l)) as [_|H]; [|exfalso; apply H; left; reflexivity].
            rewrite emap_set_eq, Ex, En. reflexivity.
          - rewrite emap_set_neq by exact E.
            destruct (in_dec Nat.eq_dec u l) as [H|H], (in_dec Nat.eq_dec u (t :: l)) as [H'|H']; try reflexivity.
            + exfalso. apply H'. right. exact H.
            + exfalso. destruct H' as [H'|H']; [congruence|contradiction]. }
        destruct NS as [[E1 [E2 E3]]|[E1 [E2 E3]]]; subst d.
        * apply app_eq_nil in E1 as [-> ->]. cbn [clean_tasks filter app].
          repeat (split; [reflexivity|]). split; [exact T|]. split; [reflexivity|].
          split; [exact NO|]. left. repeat split. exact E3.
        * specialize (IH w1 pre). cbn zeta in IH.
          destruct IH as (A1 & A2 & A3 & A4 & A5 & A6 & A7 & A8 & A9).
          { intros u Hu. subst w1. cbn [iw_tasks].
            rewrite emap_set_neq by (intros E; subst u; contradiction). apply Ht. right. exact Hu. }
          { exact N'. } { exact E1. } { exact E3. }
          cbn zeta. rewrite A1, A2, A3, A4, A5, A7. subst w1.
          cbn [iw_next iw_inputs iw_list iw_fins iw_await iw_log iw_contents iw_done] in *.
          repeat (split; [reflexivity|]). split; [intros u; rewrite A6; apply T|].
          split; [rewrite <- app_assoc; reflexivity|].
          split; [intros id' H; rewrite A8 by exact H; apply NO; exact H|]. exact A9.
      + set (w1 := put_task t _ w).
        assert (T : forall u, stop_all now id l (iw_tasks w1) u = stop_all now id (t :: l) (iw_tasks w) u).
        { intros u. unfold stop_all. subst w1. cbn [iw_tasks put_task].
          destruct (Nat.eq_dec u t) as [E|E].
          - subst u. destruct (in_dec Nat.eq_dec t l) as [H|_]; [contradiction|].
            destruct (in_dec Nat.eq_dec t (t :: l)) as [_|H]; [|exfalso; apply H; left; reflexivity].
            rewrite emap_set_eq, Ex, En. reflexivity.
          - rewrite emap_set_neq by exact E.
            destruct (in_dec Nat.eq_dec u l) as [H|H], (in_dec Nat.eq_dec u (t :: l)) as [H'|H']; try reflexivity.
            + exfalso. apply H'. right. exact H.
            + exfalso. destruct H' as [H'|H']; [congruence|contradiction]. }
        specialize (IH w1 (pre ++ [t])). cbn zeta in IH. rewrite <- !app_assoc in IH. cbn [app] in IH.
        destruct IH as (A1 & A2 & A3 & A4 & A5 & A6 & A7 & A8 & A9).
        { intros u Hu. subst w1. cbn [iw_tasks put_task].
          rewrite emap_set_neq by (intros E; subst u; contradiction). apply Ht. right. exact Hu. }
        { exact N. } { exact Hne. } { exact Hc. }
        cbn zeta. rewrite A1, A2, A3, A4, A5, A7. subst w1.
        cbn [iw_next iw_inputs iw_list iw_fins iw_await iw_log iw_contents iw_done put_task] in *.
        repeat (split; [reflexivity|]). split; [intros u; rewrite A6; apply T|].
        split; [reflexivity|]. split; [exact A8|]. exact A9.
  Qed.
End InjectionProofs.
