(** Proofs about the buffer model. *)
From Verif Require Import Base BufferModel BufferSpec.

Section BufferProofs.
Context {V : Type}.
Implicit Types (q l : list V) (b : storage V) (o : bop V) (ops : list (bop V)).

(** ** Each operation only reads and writes the queue of its own session *)

Definition lstep (p : retention) (oq : option (list V)) (o : bop V)
  : option (list V) * bout V :=
  let r := bstep (mk_storage p (fun _ => oq)) o in
  (queues (fst r) (op_session o), snd r).

Lemma bstep_facts b o :
  policy (fst (bstep b o)) = policy b /\
  snd (bstep b o) = snd (lstep (policy b) (queues b (op_session o)) o) /\
  queues (fst (bstep b o)) (op_session o) = fst (lstep (policy b) (queues b (op_session o)) o) /\
  (forall s, s <> op_session o -> queues (fst (bstep b o)) s = queues b s).
Proof.
  destruct b as [p m].
  destruct o; cbn [op_session];
    unfold lstep, bstep, force_push, push, push_as_oldest, pull, pull_newest, consume,
      clear_session, ensure_session, iter_mut, oldest_mut, newest_mut,
      newest_mut_or_else, get_mut, drain_all, drain, count, op_session;
    cbn [policy queues fst snd];
    repeat (match goal with
            | |- context [match ?x with _ => _ end] =>
                lazymatch x with
                | context [match _ with _ => _ end] => fail
                | _ => destruct x eqn:?
                end
            end; cbn [policy queues fst snd]);
    repeat split; intros; cbn [policy queues fst snd] in *;
    rewrite ?emap_set_eq; try (rewrite emap_set_neq by assumption); congruence.
Qed.

Lemma bstep_policy b o : policy (fst (bstep b o)) = policy b.
Proof. exact (proj1 (bstep_facts b o)). Qed.

Lemma bstep_out b o :
  snd (bstep b o) = snd (lstep (policy b) (queues b (op_session o)) o).
Proof. exact (proj1 (proj2 (bstep_facts b o))). Qed.

Lemma bstep_queue b o :
  queues (fst (bstep b o)) (op_session o)
  = fst (lstep (policy b) (queues b (op_session o)) o).
Proof. exact (proj1 (proj2 (proj2 (bstep_facts b o)))). Qed.

Lemma bstep_other b o s :
  s <> op_session o -> queues (fst (bstep b o)) s = queues b s.
Proof. exact (proj2 (proj2 (proj2 (bstep_facts b o))) s). Qed.

Lemma brun_cons b o ops :
  brun b (o :: ops)
  = (fst (brun (fst (bstep b o)) ops), snd (bstep b o) :: snd (brun (fst (bstep b o)) ops)).
Proof.
  cbn [brun]. destruct (bstep b o) as [b1 r]. cbn [fst snd].
  destruct (brun b1 ops) as [b2 rs]. reflexivity.
Qed.

Lemma brun_policy b ops : policy (fst (brun b ops)) = policy b.
Proof.
  revert b. induction ops as [|o ops IH]; intros b; [reflexivity|].
  rewrite brun_cons. cbn [fst]. rewrite IH. apply bstep_policy.
Qed.

(** ** List facts *)

Lemma rev_update_nth l i (f : V -> V) :
  i < length l ->
  rev (update_nth (length l - i - 1) f l) = update_nth i f (rev l).
Proof.
  revert i. induction l as [|x l IH]; intros i Hi; cbn [length] in *; [lia|].
  cbn [rev].
  destruct (Nat.eq_dec i (length l)) as [E|E].
  - subst i. replace (S (length l) - length l - 1) with 0 by lia. cbn [update_nth rev].
    rewrite <- (rev_length l). generalize (rev l) as m. intros m. clear.
    induction m as [|y m IH]; cbn [length update_nth app]; [reflexivity|].
    rewrite <- IH. reflexivity.
  - replace (S (length l) - i - 1) with (S (length l - i - 1)) by lia.
    cbn [update_nth rev]. rewrite IH by lia.
    assert (H : i < length (rev l)) by (rewrite rev_length; lia).
    clear - H. revert i H. generalize (rev l) as m. clear l. intros m.
    induction m as [|y m IH]; intros i Hm; cbn [length] in Hm; [inversion Hm|].
    destruct i as [|i]; cbn [update_nth app]; [reflexivity|].
    rewrite IH by lia. reflexivity.
Qed.

Lemma update_nth_split l i (f : V -> V) x :
  nth_error l i = Some x ->
  update_nth i f l = firstn i l ++ [f x] ++ skipn (S i) l.
Proof.
  revert i. induction l as [|y l IH]; intros [|i] H; cbn [nth_error] in H; try discriminate.
  - injection H as ->. reflexivity.
  - cbn [update_nth firstn app]. rewrite (IH i H). reflexivity.
Qed.

Lemma nth_error_rev l i :
  i < length l -> nth_error (rev l) i = nth_error l (length l - i - 1).
Proof.
  revert i. induction l as [|x l IH]; intros i Hi; cbn [length] in *; [lia|].
  cbn [rev]. destruct (Nat.eq_dec i (length l)) as [E|E].
  - subst i. rewrite nth_error_app2 by (rewrite rev_length; lia).
    rewrite rev_length. replace (length l - length l) with 0 by lia.
    replace (S (length l) - length l - 1) with 0 by lia. reflexivity.
  - rewrite nth_error_app1 by (rewrite rev_length; lia).
    rewrite IH by lia. replace (S (length l) - i - 1) with (S (length l - i - 1)) by lia.
    reflexivity.
Qed.

Lemma last_opt_rev l : last_opt (rev l) = hd_error l.
Proof. destruct l as [|x l]; [reflexivity|]. cbn [rev hd_error]. apply last_opt_app. Qed.

Lemma hd_error_rev l : hd_error (rev l) = last_opt l.
Proof. rewrite <- (rev_involutive l) at 2. symmetry. apply last_opt_rev. Qed.

Lemma removelast_rev l : removelast (rev l) = rev (tl l).
Proof. destruct l as [|x l]; [reflexivity|]. cbn [rev tl]. apply removelast_last. Qed.

Lemma pop_last_rev l :
  pop_last (rev l)
  = (rev (tl l), hd_error l).
Proof.
  destruct l as [|x l]; [reflexivity|]. cbn [rev tl hd_error]. apply pop_last_app.
Qed.

Lemma mapi_spec i (f : nat -> V -> V) l : mapi_from i f l = spec_mapi i f l.
Proof. revert i; induction l as [|x l IH]; intros i; cbn; [reflexivity|]. rewrite IH. reflexivity. Qed.

Lemma rev_firstn_skipn l k : k <= length l -> rev (firstn k l) = skipn (length l - k) (rev l).
Proof.
  intros H. rewrite skipn_rev.
  replace (length l - (length l - k)) with k by lia. reflexivity.
Qed.

Lemma rev_skipn_firstn l k : k <= length l -> rev (skipn k l) = firstn (length l - k) (rev l).
Proof.
  intros H. rewrite firstn_rev.
  replace (length l - (length l - k)) with k by lia. reflexivity.
Qed.

(** ** The abstraction: reverse the stored queue *)

Definition good (p : retention) (o : bop V) : Prop :=
  partial_drain o = false /\ (p = KeepFirst 0 -> pushes_oldest o = false).

Definition qok (p : retention) (oq : option (list V)) : Prop :=
  match oq with Some q => within_limit p (length q) | None => True end.

Lemma impl_push_refines p q v :
  within_limit p (length q) ->
  spec_arrive p (rev q) v
  = (rev (fst (impl_push q p v)), snd (impl_push q p v)).
Proof.
  intros Hlim. destruct p as [n|n|]; unfold within_limit in Hlim; cbn [limit] in Hlim.
  - (* KeepLast *)
    unfold spec_arrive, impl_push. rewrite app_length, rev_length. cbn [length].
    destruct n as [|n].
    + assert (q = []) by (destruct q; cbn in Hlim; [reflexivity|lia]). subst q. reflexivity.
    + destruct (Nat.leb_spec (length q + 1) (S n)) as [H1|H1];
        destruct (Nat.leb_spec (S n) (length q)) as [H2|H2]; try lia.
      * reflexivity.
      * cbn [Nat.ltb Nat.leb andb].
        assert (E : length q = S n) by lia.
        destruct (rev_case q) as [->|[q0 [x ->]]]; [cbn in E; lia|].
        rewrite pop_last_app. cbn [fst snd].
        rewrite rev_app_distr. cbn [rev app].
        rewrite app_length in *; cbn [length] in *.
        replace (length q0 + 1 + 1 - S n) with 1 by lia. reflexivity.
  - (* KeepFirst *)
    unfold spec_arrive, impl_push. rewrite rev_length.
    destruct (Nat.ltb_spec (length q) n); destruct (Nat.leb_spec n (length q)); try lia; reflexivity.
  - reflexivity.
Qed.

Lemma firstn_last_length l n :
  length l = S n -> firstn n l = removelast l.
Proof.
  intros H. destruct (rev_case l) as [->|[l0 [x ->]]]; [discriminate|].
  rewrite app_length in H; cbn [length] in H.
  rewrite removelast_last. rewrite firstn_app.
  replace (n - length l0) with 0 by lia. cbn [firstn]. rewrite app_nil_r.
  apply firstn_all2. lia.
Qed.

Lemma lstep_refines p oq o :
  good p o -> qok p oq ->
  spec_step p (option_map (@rev V) oq) o
  = (option_map (@rev V) (fst (lstep p oq o)), snd (lstep p oq o)).
Proof.
  intros [Hd Hk] Hok.
  destruct o; cbn [partial_drain pushes_oldest] in *; try discriminate;
    unfold lstep, bstep; cbn [op_session];
    unfold force_push, push, push_as_oldest, pull, pull_newest, consume, clear_session,
      ensure_session, iter_mut, oldest_mut, newest_mut, newest_mut_or_else, get_mut,
      drain_all, count;
    cbn [policy queues fst snd].
  - (* force push *)
    assert (H : spec_arrive p (rev (match oq with Some q => q | None => [] end)) v
                = (rev (fst (impl_push (match oq with Some q => q | None => [] end) p v)),
                   snd (impl_push (match oq with Some q => q | None => [] end) p v))).
    { apply impl_push_refines. destruct oq as [q|]; [exact Hok|].
      unfold within_limit; destruct (limit p); cbn; [lia|exact I]. }
    destruct oq as [q|]; cbn [option_map spec_step] in *;
      [|change (rev []) with (@nil V) in H]; rewrite H;
      destruct (impl_push _ p v) as [q' r]; cbn [fst snd queues]; rewrite emap_set_eq; reflexivity.
  - (* push *)
    destruct oq as [q|]; cbn [option_map spec_step]; [|reflexivity].
    rewrite (impl_push_refines p q v Hok).
    destruct (impl_push q p v) as [q' r]; cbn [fst snd queues]; rewrite emap_set_eq; reflexivity.
  - (* push as oldest *)
    destruct oq as [q|]; cbn [option_map spec_step]; [|reflexivity].
    destruct p as [n|n|]; cbn [spec_arrive_oldest].
    + rewrite rev_length.
      destruct (Nat.ltb_spec (length q) n); destruct (Nat.leb_spec n (length q)); try lia;
        cbn [fst snd queues]; rewrite ?emap_set_eq; cbn [option_map];
        rewrite ?rev_app_distr; reflexivity.
    + unfold qok, within_limit in Hok; cbn [limit] in Hok.
      destruct n as [|n]; [specialize (Hk eq_refl); discriminate|].
      cbn [length]. rewrite rev_length. cbn [Nat.ltb Nat.leb andb].
      destruct (Nat.leb_spec (length q) n) as [H1|H1];
        destruct q as [|x q]; cbn [length Nat.leb] in *.
      * cbn [fst snd queues]; rewrite emap_set_eq; reflexivity.
      * destruct (Nat.leb_spec n (length q)); [lia|].
        cbn [fst snd queues]; rewrite emap_set_eq; cbn [option_map].
        rewrite rev_app_distr; reflexivity.
      * lia.
      * destruct (Nat.leb_spec n (length q)); [|lia].
        cbn [fst snd queues]; rewrite emap_set_eq; cbn [option_map].
        change (v :: rev (x :: q)) with ((v :: rev q) ++ [x]).
        rewrite last_opt_app. f_equal. f_equal. f_equal.
        rewrite rev_app_distr. cbn [rev app].
        change (v :: (rev q ++ [x])) with ((v :: rev q) ++ [x]).
        rewrite firstn_app. cbn [length]. rewrite rev_length.
        replace (S n - S (length q)) with 0 by lia. cbn [firstn]. rewrite app_nil_r.
        f_equal. apply firstn_all2. rewrite rev_length. lia.
    + cbn [fst snd queues]. rewrite emap_set_eq. cbn [option_map].
      rewrite rev_app_distr. reflexivity.
  - (* pull *)
    destruct oq as [q|]; cbn [option_map spec_step]; [|reflexivity].
    destruct (rev_case q) as [->|[q0 [x ->]]].
    + cbn. rewrite emap_set_eq. reflexivity.
    + rewrite pop_last_app. cbn [fst snd queues]. rewrite emap_set_eq.
      rewrite rev_app_distr. reflexivity.
  - (* pull newest *)
    destruct oq as [q|]; cbn [option_map spec_step]; [|reflexivity].
    rewrite last_opt_rev. destruct q as [|x q]; [reflexivity|].
    cbn [hd_error fst snd queues]. rewrite emap_set_eq. rewrite removelast_rev. reflexivity.
  - (* consume *)
    destruct oq as [q|]; cbn [option_map spec_step]; [|reflexivity].
    cbn [fst snd queues]. rewrite emap_set_eq. reflexivity.
  - (* clear *) cbn [spec_step fst snd queues]. rewrite emap_set_eq. reflexivity.
  - (* ensure *)
    destruct oq as [q|]; cbn [option_map spec_step fst snd queues]; [reflexivity|].
    rewrite emap_set_eq. reflexivity.
  - (* iter_mut *)
    destruct oq as [q|]; cbn [option_map spec_step fst snd queues]; [|reflexivity].
    rewrite emap_set_eq. cbn [option_map]. rewrite rev_involutive. reflexivity.
  - (* oldest_mut *)
    destruct oq as [q|]; cbn [option_map spec_step fst snd queues]; [|reflexivity].
    destruct (rev_case q) as [->|[q0 [x ->]]]; [reflexivity|].
    rewrite last_opt_app, rev_app_distr. cbn [rev app fst snd queues]. rewrite emap_set_eq.
    cbn [option_map]. rewrite app_length; cbn [length].
    replace (length q0 + 1 - 1) with (length (q0 ++ [x]) - 0 - 1)
      by (rewrite app_length; cbn [length]; lia).
    rewrite rev_update_nth by (rewrite app_length; cbn [length]; lia).
    rewrite rev_app_distr. reflexivity.
  - (* newest_mut *)
    destruct oq as [q|]; cbn [option_map spec_step fst snd queues]; [|reflexivity].
    rewrite last_opt_rev. destruct q as [|x q]; [reflexivity|].
    cbn [hd_error fst snd queues]. rewrite emap_set_eq, removelast_rev. reflexivity.
  - (* newest_mut_or_else *)
    destruct oq as [q|]; cbn [option_map spec_step fst snd queues]; [|reflexivity].
    destruct q as [|x q].
    + cbn [rev].
      pose proof (impl_push_refines p [] d Hok) as H. cbn [rev] in H.
      rewrite H. cbn [fst]. rewrite last_opt_rev.
      destruct (fst (impl_push [] p d)) as [|y q']; cbn [hd_error fst snd queues];
        rewrite emap_set_eq; [reflexivity|]. rewrite removelast_rev. reflexivity.
    + replace (match rev (x :: q) with [] => fst (spec_arrive p [] d) | _ :: _ => rev (x :: q) end)
        with (rev (x :: q)).
      2:{ destruct (rev (x :: q)) eqn:E; [|reflexivity]. cbn [rev] in E.
          apply app_eq_nil in E. destruct E; discriminate. }
      rewrite last_opt_rev. cbn [hd_error fst snd queues]. rewrite emap_set_eq, removelast_rev.
      reflexivity.
  - (* get_mut *)
    destruct oq as [q|]; cbn [option_map spec_step fst snd queues]; [|reflexivity].
    destruct (Nat.leb_spec (length q) i) as [H|H].
    + assert (E : nth_error (rev q) i = None) by (apply nth_error_None; rewrite rev_length; lia).
      rewrite E. reflexivity.
    + rewrite nth_error_rev by lia.
      destruct (nth_error q (length q - i - 1)) as [x|] eqn:E.
      2:{ apply nth_error_None in E. lia. }
      cbn [fst snd queues]. rewrite emap_set_eq. cbn [option_map].
      rewrite rev_update_nth by lia.
      rewrite (update_nth_split (rev q) i f x); [reflexivity|].
      rewrite nth_error_rev by lia. exact E.
  - (* drain all *)
    destruct oq as [q|]; cbn [option_map spec_step fst snd queues]; unfold drain; cbn [queues policy];
      [|reflexivity].
    change (length q <? 0) with false. rewrite Nat.ltb_irrefl. cbn [orb fst snd queues].
    rewrite emap_set_eq. cbn [firstn skipn app option_map]. rewrite skipn_all.
    rewrite Nat.sub_0_r, firstn_all. reflexivity.
Qed.

(** ** The limit *)

Lemma impl_push_limit p q v :
  within_limit p (length q) -> within_limit p (length (fst (impl_push q p v))).
Proof.
  destruct p as [n|n|]; unfold within_limit; cbn [limit]; intros H; [| |exact I].
  - unfold impl_push. destruct n as [|n].
    + cbn. exact H.
    + change (0 <? S n) with true. cbn [andb].
      destruct (Nat.leb_spec (S n) (length q)) as [H1|H1]; [|change (S n =? 0) with false; cbn [fst length]; lia].
      destruct (rev_case q) as [->|[q0 [x ->]]]; [cbn [length] in H1; lia|].
      rewrite pop_last_app. rewrite app_length in *. cbn [fst length] in *. lia.
  - unfold impl_push. destruct (Nat.leb_spec n (length q)); cbn [fst length]; lia.
Qed.

Lemma within_le p n m : m <= n -> within_limit p n -> within_limit p m.
Proof. unfold within_limit; destruct (limit p); intros; [lia|exact I]. Qed.

Lemma within_zero p : within_limit p 0.
Proof. unfold within_limit; destruct (limit p); [lia|exact I]. Qed.

Lemma spec_mapi_length i (f : nat -> V -> V) l : length (spec_mapi i f l) = length l.
Proof. revert i; induction l as [|x l IH]; intros i; cbn; auto. Qed.

Lemma lstep_limit p oq o :
  (p = KeepFirst 0 -> pushes_oldest o = false) ->
  qok p oq -> qok p (fst (lstep p oq o)).
Proof.
  intros Hk Hok.
  destruct o; cbn [pushes_oldest] in *;
    unfold lstep, bstep; cbn [op_session];
    unfold force_push, push, push_as_oldest, pull, pull_newest, consume, clear_session,
      ensure_session, iter_mut, oldest_mut, newest_mut, newest_mut_or_else, get_mut,
      drain_all, drain, count;
    cbn [policy queues fst snd].
  - pose proof (impl_push_limit p (match oq with Some q => q | None => [] end) v) as H.
    destruct (impl_push _ p v) as [q' r]. cbn [fst snd queues] in *. rewrite emap_set_eq; cbn [qok]. cbn [qok].
    apply H. destruct oq as [q|]; [exact Hok|apply within_zero].
  - destruct oq as [q|]; cbn [fst queues qok]; [|exact I].
    pose proof (impl_push_limit p q v Hok) as H.
    destruct (impl_push q p v) as [q' r]. cbn [fst snd queues] in *. rewrite emap_set_eq; cbn [qok]. exact H.
  - destruct oq as [q|]; cbn [fst queues qok]; [|exact I].
    destruct p as [n|n|]; unfold qok, within_limit in *; cbn [limit] in *.
    + destruct (Nat.leb_spec n (length q)); cbn [fst queues]; rewrite ?emap_set_eq; [exact Hok|].
      rewrite app_length; cbn [length]; lia.
    + destruct n as [|n]; [specialize (Hk eq_refl); discriminate|].
      cbn [Nat.ltb Nat.leb andb]. destruct q as [|x q].
      * cbn [length fst queues]. rewrite emap_set_eq; cbn [qok]. cbn. lia.
      * cbn [length] in *. destruct (Nat.leb_spec n (length q)); cbn [fst queues];
          rewrite emap_set_eq; cbn [qok]; rewrite app_length; cbn [length]; lia.
    + cbn [fst queues]. rewrite emap_set_eq; cbn [qok]. exact I.
  - destruct oq as [q|]; cbn [fst queues qok]; [|exact I].
    destruct (rev_case q) as [->|[q0 [x ->]]]; [cbn; rewrite emap_set_eq; apply within_zero|].
    rewrite pop_last_app. cbn [fst queues]. rewrite emap_set_eq; cbn [qok].
    eapply within_le; [|exact Hok]. rewrite app_length. lia.
  - destruct oq as [[|x q]|]; cbn [fst queues qok]; [exact Hok| |exact I].
    rewrite emap_set_eq; cbn [qok]. eapply within_le; [|exact Hok]. cbn; lia.
  - destruct oq as [q|]; cbn [fst queues qok]; [|exact I]. rewrite emap_set_eq; cbn [qok]. apply within_zero.
  - rewrite emap_set_eq; cbn [qok]. exact I.
  - destruct oq as [q|]; cbn [fst queues qok]; [exact Hok|]. rewrite emap_set_eq; cbn [qok]. apply within_zero.
  - destruct oq as [q|]; cbn [fst queues qok]; [|exact I]. rewrite emap_set_eq; cbn [qok].
    rewrite rev_length, mapi_spec, spec_mapi_length, rev_length. exact Hok.
  - destruct oq as [q|]; cbn [fst queues qok]; [|exact I].
    destruct (last_opt q); cbn [fst queues]; [|exact Hok]. rewrite emap_set_eq; cbn [qok].
    rewrite update_nth_length. exact Hok.
  - destruct oq as [[|x q]|]; cbn [fst queues qok]; [exact Hok| |exact I].
    rewrite emap_set_eq; cbn [qok]. exact Hok.
  - destruct oq as [q|]; cbn [fst queues qok]; [|exact I].
    assert (H : within_limit p (length (match q with [] => fst (impl_push [] p d) | _ :: _ => q end))).
    { destruct q; [apply impl_push_limit, within_zero|exact Hok]. }
    destruct (match q with [] => fst (impl_push [] p d) | _ :: _ => q end) as [|y q'];
      cbn [fst queues]; rewrite emap_set_eq; exact H.
  - destruct oq as [q|]; cbn [fst queues qok]; [|exact I].
    destruct (length q <=? i); cbn [fst queues]; [exact Hok|]. rewrite emap_set_eq; cbn [qok].
    rewrite update_nth_length. exact Hok.
  - destruct oq as [q|]; cbn [fst queues qok]; [|exact I].
    destruct ((hi <? lo) || (length q <? hi)) eqn:E; cbn [fst queues]; [exact Hok|].
    rewrite emap_set_eq; cbn [qok]. eapply within_le; [|exact Hok].
    apply orb_false_elim in E. destruct E as [E1 E2].
    apply Nat.ltb_ge in E1. apply Nat.ltb_ge in E2.
    rewrite app_length, firstn_length, skipn_length. lia.
  - destruct oq as [q|]; cbn [fst queues qok]; [|exact I].
    destruct ((length q <? 0) || (length q <? length q)) eqn:E; cbn [fst queues]; [exact Hok|].
    rewrite emap_set_eq; cbn [qok]. cbn [firstn app]. rewrite skipn_all. apply within_zero.
Qed.

(** ** Histories *)

Definition rel (b : storage V) (st : entity -> option (list V)) : Prop :=
  forall s, option_map (@rev V) (queues b s) = st s.

Lemma run_refines p ops : forall b st,
  policy b = p -> (forall s, qok p (queues b s)) -> rel b st ->
  Forall (good p) ops ->
  snd (brun b ops) = snd (spec_run p st ops) /\
  rel (fst (brun b ops)) (fst (spec_run p st ops)).
Proof.
  induction ops as [|o ops IH]; intros b st Hp Hq Hr Hg; [split; [reflexivity|exact Hr]|].
  inversion Hg as [|? ? Ho Hg']; subst.
  rewrite brun_cons. cbn [spec_run fst snd].
  rewrite <- (Hr (op_session o)).
  rewrite (lstep_refines (policy b) (queues b (op_session o)) o Ho (Hq _)).
  set (st1 := fun s' : entity => if Nat.eqb s' (op_session o)
                        then option_map (@rev V) (fst (lstep (policy b) (queues b (op_session o)) o))
                        else st s').
  assert (H : snd (brun (fst (bstep b o)) ops) = snd (spec_run (policy b) st1 ops) /\
              rel (fst (brun (fst (bstep b o)) ops)) (fst (spec_run (policy b) st1 ops))).
  { apply IH.
    - apply bstep_policy.
    - intros s. destruct (Nat.eq_dec s (op_session o)) as [->|Hn].
      + rewrite bstep_queue. apply lstep_limit; [exact (proj2 Ho)|apply Hq].
      + rewrite bstep_other by assumption. apply Hq.
    - intros s. unfold st1. destruct (Nat.eqb_spec s (op_session o)) as [->|Hn].
      + rewrite bstep_queue. reflexivity.
      + rewrite bstep_other by assumption. apply Hr.
    - exact Hg'. }
  destruct (spec_run (policy b) st1 ops) as [st2 rs]. cbn [fst snd] in *.
  destruct H as [H1 H2]. split; [rewrite bstep_out; f_equal; exact H1|exact H2].
Qed.

Lemma limit_run p ops : forall b,
  policy b = p -> (forall s, qok p (queues b s)) ->
  (p = KeepFirst 0 -> Forall (fun o => pushes_oldest o = false) ops) ->
  forall s, qok p (queues (fst (brun b ops)) s).
Proof.
  induction ops as [|o ops IH]; intros b Hp Hq Hk s; [apply Hq|].
  rewrite brun_cons. cbn [fst]. apply IH.
  - rewrite bstep_policy. exact Hp.
  - intros s'. destruct (Nat.eq_dec s' (op_session o)) as [->|Hn].
    + rewrite bstep_queue, Hp. apply lstep_limit; [|apply Hq].
      intros E. specialize (Hk E). inversion Hk; assumption.
    + rewrite bstep_other by assumption. apply Hq.
  - intros E. specialize (Hk E). inversion Hk; assumption.
Qed.

Lemma buffer_limit p ops s :
  (p = KeepFirst 0 -> Forall (fun o => pushes_oldest o = false) ops) ->
  within_limit p (count (fst (brun (new_storage p) ops)) s).
Proof.
  intros Hk. pose proof (limit_run p ops (new_storage p) eq_refl (fun _ => I) Hk s) as H.
  unfold count. destruct (queues _ s); [exact H|apply within_zero].
Qed.

Lemma buffer_refines p ops :
  Forall (fun o => partial_drain o = false) ops ->
  (p = KeepFirst 0 -> Forall (fun o => pushes_oldest o = false) ops) ->
  let r := brun (new_storage p) ops in
  let sp := spec_run p (fun _ => None) ops in
  snd r = snd sp /\
  forall s, let l := match fst sp s with Some l => l | None => [] end in
    iter (fst r) s = l /\
    count (fst r) s = length l /\
    oldest (fst r) s = hd_error l /\
    newest (fst r) s = last_opt l /\
    forall i, get (fst r) s i = nth_error l i.
Proof.
  intros Hd Hk. cbn zeta.
  destruct (run_refines p ops (new_storage p) (fun _ => None)) as [H1 H2].
  - reflexivity.
  - intros s. exact I.
  - intros s. reflexivity.
  - rewrite Forall_forall in Hd |- *. intros o Ho. split; [exact (Hd o Ho)|].
    intros E. specialize (Hk E). rewrite Forall_forall in Hk. exact (Hk o Ho).
  - split; [exact H1|]. intros s. specialize (H2 s). rewrite <- H2.
    unfold iter, count, oldest, newest, get.
    destruct (queues (fst (brun (new_storage p) ops)) s) as [q|]; cbn [option_map].
    + split; [reflexivity|]. split; [symmetry; apply rev_length|].
      split; [symmetry; apply hd_error_rev|].
      split; [symmetry; apply last_opt_rev|].
      intros i. destruct (Nat.leb_spec (length q) i) as [H|H].
      * symmetry. apply nth_error_None. rewrite rev_length. lia.
      * symmetry. apply nth_error_rev. lia.
    + repeat split. intros i. symmetry. apply nth_error_None. cbn. lia.
Qed.

(** ** Conservation *)

Lemma impl_push_conserves p q v :
  Permutation (v :: q)
    (fst (impl_push q p v) ++ match snd (impl_push q p v) with Some x => [x] | None => [] end).
Proof.
  destruct p as [n|n|]; unfold impl_push.
  - destruct n as [|n].
    + cbn. apply Permutation_cons_append.
    + cbn [Nat.ltb Nat.leb andb].
      destruct (length q) as [|m] eqn:E; [cbn; rewrite app_nil_r; apply Permutation_refl|].
      destruct (Nat.leb n m); [|cbn; rewrite app_nil_r; apply Permutation_refl].
      destruct (rev_case q) as [->|[q0 [x ->]]]; [discriminate|].
      rewrite pop_last_app. cbn. apply Permutation_refl.
  - destruct (n <=? length q); cbn; [apply Permutation_cons_append|].
    rewrite app_nil_r. apply Permutation_refl.
  - cbn. rewrite app_nil_r. apply Permutation_refl.
Qed.

Definition qlist (oq : option (list V)) : list V := match oq with Some q => q | None => [] end.

Definition back (r : bout V) : list V :=
  match r with RVal (Some v) => [v] | RList l => l | _ => [] end.

Lemma drain_perm q lo hi :
  lo <= hi -> hi <= length q ->
  Permutation q ((firstn lo q ++ skipn hi q) ++ rev (firstn (hi - lo) (skipn lo q))).
Proof.
  intros H1 H2.
  rewrite <- (firstn_skipn lo q) at 1. rewrite <- app_assoc. apply Permutation_app_head.
  rewrite <- (firstn_skipn (hi - lo) (skipn lo q)) at 1.
  rewrite skipn_skipn. replace (hi - lo + lo) with hi by lia.
  rewrite Permutation_app_comm. apply Permutation_app_head. apply Permutation_rev.
Qed.

Lemma lstep_conserves p oq o :
  edits o = false ->
  (match o with OClear _ => False | _ => True end) ->
  Permutation (offered (op_session o) o ++ qlist oq)
    (qlist (fst (lstep p oq o)) ++ back (snd (lstep p oq o))).
Proof.
  intros He Hc.
  destruct o; cbn [edits] in He; try discriminate; try contradiction;
    unfold lstep, bstep, offered; cbn [op_session]; rewrite ?Nat.eqb_refl;
    unfold force_push, push, push_as_oldest, pull, pull_newest, consume,
      ensure_session, drain_all, drain, count;
    cbn [policy queues fst snd app].
  - pose proof (impl_push_conserves p (qlist oq) v) as H. unfold qlist in *.
    destruct (impl_push (match oq with Some q => q | None => [] end) p v) as [q' r].
    cbn [fst snd queues] in *. rewrite emap_set_eq. cbn [qlist back].
    apply H.
  - destruct oq as [q|]; cbn [fst snd queues qlist back]; [|apply Permutation_refl].
    pose proof (impl_push_conserves p q v) as H.
    destruct (impl_push q p v) as [q' r]. cbn [fst snd queues] in *. rewrite emap_set_eq. exact H.
  - destruct oq as [q|]; cbn [fst snd queues qlist back]; [|apply Permutation_refl].
    destruct p as [n|n|].
    + destruct (n <=? length q); cbn [fst snd queues back]; rewrite ?emap_set_eq; cbn [qlist];
        rewrite ?app_nil_r; apply Permutation_cons_append.
    + destruct ((0 <? n) && (n <=? length q)) eqn:E.
      * destruct q as [|x q]; cbn [fst snd queues back]; rewrite emap_set_eq; cbn [qlist].
        -- cbn. apply Permutation_refl.
        -- rewrite <- app_assoc. cbn [app].
           change (v :: x :: q) with ([v; x] ++ q).
           rewrite Permutation_app_comm. apply Permutation_refl.
      * cbn [fst snd queues back]; rewrite emap_set_eq; cbn [qlist].
        rewrite app_nil_r. apply Permutation_cons_append.
    + cbn [fst snd queues back]; rewrite emap_set_eq; cbn [qlist].
      rewrite app_nil_r. apply Permutation_cons_append.
  - destruct oq as [q|]; cbn [fst snd queues qlist back]; [|apply Permutation_refl].
    destruct (rev_case q) as [->|[q0 [x ->]]].
    + cbn. rewrite emap_set_eq. apply Permutation_refl.
    + rewrite pop_last_app. cbn [fst snd queues back]. rewrite emap_set_eq. apply Permutation_refl.
  - destruct oq as [[|x q]|]; cbn [fst snd queues qlist back]; [apply Permutation_refl| |apply Permutation_refl].
    rewrite emap_set_eq. cbn [qlist]. apply Permutation_cons_append.
  - destruct oq as [q|]; cbn [fst snd queues qlist back]; [|apply Permutation_refl].
    rewrite emap_set_eq. cbn. apply Permutation_rev.
  - destruct oq as [q|]; cbn [fst snd queues qlist back]; rewrite ?emap_set_eq; cbn; rewrite ?app_nil_r;
      apply Permutation_refl.
  - destruct oq as [q|]; cbn [fst snd queues qlist back]; [|apply Permutation_refl].
    destruct ((hi <? lo) || (length q <? hi)) eqn:E; cbn [fst snd queues back qlist].
    + rewrite app_nil_r. apply Permutation_refl.
    + rewrite emap_set_eq. cbn [qlist].
      apply orb_false_elim in E. destruct E as [E1 E2].
      apply Nat.ltb_ge in E1. apply Nat.ltb_ge in E2. apply drain_perm; assumption.
  - destruct oq as [q|]; cbn [fst snd queues qlist back]; [|apply Permutation_refl].
    change (length q <? 0) with false. rewrite Nat.ltb_irrefl. cbn [orb fst snd queues back].
    rewrite emap_set_eq. cbn [qlist]. apply drain_perm; lia.
Qed.

Lemma conserve_run s ops : forall b,
  Forall (fun o => edits o = false) ops ->
  Permutation (flat_map (offered s) ops ++ iter b s)
    (iter (fst (brun b ops)) s ++ zip_back s ops (snd (brun b ops)) ++ cleared s b ops).
Proof.
  induction ops as [|o ops IH]; intros b He.
  - cbn. rewrite app_nil_r. apply Permutation_refl.
  - inversion He as [|? ? He1 He2]; subst.
    specialize (IH (fst (bstep b o)) He2).
    rewrite brun_cons. cbn [flat_map fst snd zip_back cleared].
    set (rs := snd (brun (fst (bstep b o)) ops)) in *.
    set (bf := fst (brun (fst (bstep b o)) ops)) in *.
    set (clr := match o with OClear s' => if Nat.eqb s' s then iter b s else [] | _ => [] end).
    assert (Hstep : Permutation (offered s o ++ iter b s)
              (iter (fst (bstep b o)) s ++ given_back s o (snd (bstep b o)) ++ clr)).
    { unfold given_back. destruct (Nat.eqb_spec (op_session o) s) as [E|E].
      - subst s.
        assert (Hc : (exists s', o = OClear s') \/ (match o with OClear _ => False | _ => True end)).
        { destruct o; try (right; exact I). left; eexists; reflexivity. }
        destruct Hc as [[s' ->]|Hc].
        + cbn. unfold clr. cbn. rewrite Nat.eqb_refl.
          unfold iter at 2. cbn. rewrite emap_set_eq. cbn. apply Permutation_refl.
        + assert (clr = []) as -> by (unfold clr; destruct o; try reflexivity; contradiction).
          rewrite app_nil_r, bstep_out.
          pose proof (lstep_conserves (policy b) (queues b (op_session o)) o He1 Hc) as H.
          unfold iter. rewrite bstep_queue.
          assert (Hi : forall oq, Permutation (match oq with Some q => rev q | None => [] end) (qlist oq)).
          { intros [q|]; [apply Permutation_sym, Permutation_rev|apply Permutation_refl]. }
          rewrite !Hi. exact H.
      - assert (offered s o = []) as ->.
        { destruct o; cbn in *; try reflexivity;
            destruct (Nat.eqb_spec s0 s); try reflexivity; contradiction. }
        assert (clr = []) as ->.
        { unfold clr. destruct o; cbn in *; try reflexivity;
            destruct (Nat.eqb_spec s0 s); try reflexivity; contradiction. }
        unfold iter. rewrite bstep_other by auto. cbn. rewrite app_nil_r. apply Permutation_refl. }
    (* combine *)
    rewrite <- app_assoc.
    rewrite (Permutation_app_comm (offered s o)). rewrite <- app_assoc.
    rewrite (Permutation_app_comm (iter b s)).
    rewrite Hstep.
    rewrite app_assoc. rewrite IH.
    rewrite <- !app_assoc. apply Permutation_app_head.
    set (z := zip_back s ops rs). set (c := cleared s (fst (bstep b o)) ops).
    set (gb := given_back s o (snd (bstep b o))).
    perm.
Qed.

Lemma buffer_conserves p s ops :
  Forall (fun o => edits o = false) ops ->
  let r := brun (new_storage p) ops in
  Permutation (flat_map (offered s) ops)
    (iter (fst r) s ++ zip_back s ops (snd r) ++ cleared s (new_storage p) ops).
Proof.
  intros He. cbn zeta.
  rewrite <- (conserve_run s ops (new_storage p) He).
  unfold iter, new_storage, emap_empty. cbn [queues]. rewrite app_nil_r. apply Permutation_refl.
Qed.

(** ** Sessions do not interfere *)

Lemma noninterference s ops : forall b1 b2,
  policy b1 = policy b2 -> queues b1 s = queues b2 s ->
  let r1 := brun b1 ops in
  let r2 := brun b2 (filter (fun o => Nat.eqb (op_session o) s) ops) in
  queues (fst r1) s = queues (fst r2) s /\
  outs_of s ops (snd r1) = snd r2.
Proof.
  induction ops as [|o ops IH]; intros b1 b2 Hp Hs; cbn zeta; [split; [exact Hs|reflexivity]|].
  cbn [filter]. rewrite brun_cons. cbn [fst snd outs_of].
  destruct (Nat.eqb_spec (op_session o) s) as [E|E].
  - rewrite brun_cons. cbn [fst snd].
    destruct (IH (fst (bstep b1 o)) (fst (bstep b2 o))) as [H1 H2].
    + rewrite !bstep_policy. exact Hp.
    + subst s. rewrite !bstep_queue. rewrite Hs, Hp. reflexivity.
    + split; [exact H1|]. rewrite H2. f_equal. rewrite !bstep_out. subst s. rewrite Hp, Hs. reflexivity.
  - apply IH; [rewrite bstep_policy; exact Hp|]. rewrite bstep_other by auto. exact Hs.
Qed.

(** ** What drain really does *)

Lemma drain_exact b s q lo hi :
  queues b s = Some q -> lo <= hi -> hi <= length q ->
  let r := drain b s lo hi in
  let l := iter b s in
  snd r = Drained (firstn (hi - lo) (skipn (length l - hi) l)) /\
  iter (fst r) s = firstn (length l - hi) l ++ skipn (length l - lo) l.
Proof.
  intros Hq H1 H2. cbn zeta. unfold drain, iter. rewrite Hq.
  assert (E : (hi <? lo) || (length q <? hi) = false).
  { apply orb_false_intro; apply Nat.ltb_ge; lia. }
  rewrite E. cbn [fst snd queues]. rewrite emap_set_eq. rewrite rev_length. split.
  - f_equal. rewrite rev_firstn_skipn by (rewrite skipn_length; lia).
    rewrite rev_skipn_firstn by lia. rewrite skipn_length.
    rewrite skipn_firstn_comm. f_equal; [lia|]. f_equal; lia.
  - rewrite rev_app_distr. rewrite rev_skipn_firstn, rev_firstn_skipn by lia. reflexivity.
Qed.

Lemma iter_none b s : queues b s = None -> iter b s = [].
Proof. unfold iter. intros ->. reflexivity. Qed.

Lemma drain_positions b s lo hi :
  lo <= hi -> hi <= length (iter b s) ->
  let r := drain b s lo hi in
  let l := iter b s in
  snd r = Drained (firstn (hi - lo) (skipn (length l - hi) l)) /\
  iter (fst r) s = firstn (length l - hi) l ++ skipn (length l - lo) l.
Proof.
  intros H1 H2. destruct (queues b s) as [q|] eqn:E.
  - apply (drain_exact b s q lo hi E H1).
    unfold iter in H2. rewrite E, rev_length in H2. exact H2.
  - rewrite iter_none in * by exact E. unfold drain. rewrite E. cbn [fst snd].
    rewrite iter_none by exact E. rewrite !skipn_nil, !firstn_nil. split; reflexivity.
Qed.

Lemma buffer_isolated p s ops :
  let r1 := brun (new_storage p) ops in
  let r2 := brun (new_storage p) (filter (fun o => Nat.eqb (op_session o) s) ops) in
  iter (fst r1) s = iter (fst r2) s /\
  outs_of s ops (snd r1) = snd r2.
Proof.
  cbn zeta.
  destruct (noninterference s ops (new_storage p) (new_storage p) eq_refl eq_refl) as [H1 H2].
  split; [unfold iter; rewrite H1; reflexivity|exact H2].
Qed.

Lemma nth_error_update_nth l i j (f : V -> V) :
  nth_error (update_nth i f l) j
  = if Nat.eqb j i then option_map f (nth_error l j) else nth_error l j.
Proof.
  revert i j. induction l as [|x l IH]; intros [|i] [|j]; cbn; try reflexivity.
  - destruct (Nat.eqb j i); reflexivity.
  - apply IH.
Qed.

Lemma get_positions b s i (f : V -> V) :
  get b s i = nth_error (iter b s) i /\
  snd (get_mut b s i f) = nth_error (iter b s) i /\
  (forall j, nth_error (iter (fst (get_mut b s i f)) s) j
     = if Nat.eqb j i then option_map f (nth_error (iter b s) j) else nth_error (iter b s) j).
Proof.
  unfold get, get_mut. unfold iter at 1 2 4 5. destruct (queues b s) as [q|] eqn:E.
  - destruct (Nat.leb_spec (length q) i) as [H|H]; cbn [fst snd].
    + assert (En : nth_error (rev q) i = None) by (apply nth_error_None; rewrite rev_length; lia).
      rewrite En. repeat split. intros j. unfold iter. rewrite E.
      destruct (Nat.eqb_spec j i) as [->|Hn]; [rewrite En; reflexivity|reflexivity].
    + rewrite nth_error_rev by lia. repeat split. intros j. unfold iter. cbn [queues].
      rewrite emap_set_eq, rev_update_nth by lia. apply nth_error_update_nth.
  - cbn [fst snd]. rewrite (iter_none b s E).
    repeat split; intros; [destruct i; reflexivity|destruct i; reflexivity|].
    destruct (Nat.eqb j i); destruct j; reflexivity.
Qed.

End BufferProofs.

Lemma keep_first_zero_count n (v : nat) : forall b,
  policy b = KeepFirst 0 -> queues b 0 <> None ->
  count (fst (brun b (repeat (OPushOldest 0 v) n))) 0 = n + count b 0.
Proof.
  induction n as [|n IH]; intros b Hp Hq; [reflexivity|].
  cbn [repeat]. rewrite brun_cons. cbn [fst].
  destruct (queues b 0) as [q|] eqn:E; [|congruence].
  assert (E1 : fst (bstep b (OPushOldest 0 v))
               = mk_storage (policy b) (emap_set (queues b) 0 (Some (q ++ [v])))).
  { cbn. unfold push_as_oldest. rewrite E, Hp. cbn. reflexivity. }
  rewrite E1, IH.
  - unfold count. cbn [queues]. rewrite emap_set_eq, E, app_length. cbn. lia.
  - exact Hp.
  - cbn [queues]. rewrite emap_set_eq. discriminate.
Qed.

Lemma keep_first_zero_unbounded (n : nat) : exists ops : list (bop nat),
  ~ within_limit (KeepFirst 0) (count (fst (brun (new_storage (KeepFirst 0)) ops)) 0) /\
  n <= count (fst (brun (new_storage (KeepFirst 0)) ops)) 0.
Proof.
  exists (OEnsure 0 :: repeat (OPushOldest 0 1) (S n)).
  rewrite brun_cons. cbn [fst].
  rewrite keep_first_zero_count; [|reflexivity|cbn; discriminate].
  unfold within_limit. cbn [limit]. lia.
Qed.

Lemma drain_get_disagree :
  exists (b : storage nat) (s : entity),
  get b s 0 = Some 1 /\ snd (drain b s 0 1) = Drained [2] /\
  exists ops, b = fst (brun (new_storage KeepAll) ops).
Proof.
  exists (fst (brun (new_storage KeepAll) [OForcePush 0 1; OForcePush 0 2])), 0.
  repeat split. eexists. reflexivity.
Qed.
