From Verif Require Import Base RosterModel BufferModel BufferSpec BufferProofs InputModel InputSpec
  InputProofs GateModel GateSpec GateProofs ErasedModel ErasedSpec.

Section Sess.
Context {V : Type}.
Implicit Types (st : storage V) (l : list V).

(** Session [s] of the storage holds [l], oldest first. *)
Definition sess st s (p : retention) l : Prop :=
  queues st s = Some (rev l) /\ policy st = p /\ within_limit p (length l).

Lemma sess_iter st s p l : sess st s p l -> iter st s = l.
Proof. intros [H _]. unfold iter. rewrite H. apply rev_involutive. Qed.

Lemma sess_op st s p l o :
  sess st s p l -> p <> KeepFirst 0 -> partial_drain o = false -> op_session o = s ->
  forall l', fst (spec_step p (Some l) o) = Some l' ->
  sess (fst (bstep st o)) s p l' /\ snd (bstep st o) = snd (spec_step p (Some l) o) /\
  forall s', s' <> s -> queues (fst (bstep st o)) s' = queues st s'.
Proof.
  intros [Hq [Hp Hl]] Hk Hd Hs l' Hl'.
  pose proof (bstep_queue st o) as HQ. pose proof (bstep_out st o) as HO.
  rewrite Hs, Hq, Hp in *.
  assert (Hl2 : within_limit p (length (rev l))) by (rewrite rev_length; exact Hl).
  pose proof (lstep_refines p (Some (rev l)) o) as R. cbn [option_map] in R.
  rewrite rev_involutive in R. specialize (R (conj Hd (fun e => False_ind _ (Hk e))) Hl2).
  assert (Hlim : qok p (fst (lstep p (Some (rev l)) o))) by (apply lstep_limit; [congruence|exact Hl2]).
  rewrite R in *. cbn [fst snd] in *.
  destruct (fst (lstep p (Some (rev l)) o)) as [q'|]; [|discriminate].
  cbn [option_map] in Hl'. injection Hl' as <-.
  split; [|split].
  - split; [rewrite HQ, rev_involutive; reflexivity|].
    split; [rewrite bstep_policy; exact Hp|]. rewrite rev_length. exact Hlim.
  - exact HO.
  - intros s' Hn. apply bstep_other. rewrite Hs. exact Hn.
Qed.

Lemma sess_drain st s p l lo hi :
  sess st s p l -> in_range lo hi l = true ->
  exists st', drain st s lo hi = (st', Drained (range_taken lo hi l)) /\
    sess st' s p (range_kept lo hi l) /\
    forall s', s' <> s -> queues st' s' = queues st s'.
Proof.
  intros [Hq [Hp Hl]] Hr. unfold in_range in Hr. apply andb_true_iff in Hr. destruct Hr as [R1 R2].
  apply Nat.leb_le in R1, R2. unfold drain. rewrite Hq, rev_length.
  destruct (Nat.ltb_spec hi lo); [lia|]. destruct (Nat.ltb_spec (length l) hi); [lia|]. cbn [orb].
  assert (T : rev (firstn (hi - lo) (skipn lo (rev l))) = range_taken lo hi l).
  { unfold range_taken. rewrite skipn_rev, firstn_rev, rev_involutive, firstn_length.
    rewrite skipn_firstn_comm. f_equal; [lia|]. f_equal. lia. }
  assert (K : rev (firstn lo (rev l) ++ skipn hi (rev l)) = range_kept lo hi l).
  { unfold range_kept. rewrite rev_app_distr, firstn_rev, skipn_rev, !rev_involutive. reflexivity. }
  rewrite T. eexists. split; [reflexivity|]. split; [split; [|split]|].
  - cbn [queues]. rewrite emap_set_eq, <- K, rev_involutive. reflexivity.
  - exact Hp.
  - eapply within_le; [|exact Hl]. unfold range_kept. rewrite app_length, firstn_length, skipn_length. lia.
  - intros s' Hs'. cbn [queues]. apply emap_set_neq. exact Hs'.
Qed.

Lemma sess_drain_out st s p l lo hi :
  sess st s p l -> in_range lo hi l = false -> drain st s lo hi = (st, DrainPanic).
Proof.
  intros [Hq _] Hr. unfold drain. rewrite Hq, rev_length. unfold in_range in Hr.
  destruct (Nat.ltb_spec hi lo); [reflexivity|]. destruct (Nat.ltb_spec (length l) hi); [reflexivity|].
  destruct (Nat.leb_spec lo hi), (Nat.leb_spec hi (length l)); try lia; discriminate.
Qed.

Lemma sess_oldest st s p l : sess st s p l -> oldest st s = hd_error l.
Proof. intros [Hq _]. unfold oldest. rewrite Hq, <- hd_error_rev, rev_involutive. reflexivity. Qed.

Lemma sess_newest st s p l : sess st s p l -> newest st s = last_opt l.
Proof. intros [Hq _]. unfold newest. rewrite Hq, <- last_opt_rev, rev_involutive. reflexivity. Qed.

Lemma sess_get st s p l i : sess st s p l -> get st s i = nth_error l i.
Proof.
  intros [Hq _]. unfold get. rewrite Hq, rev_length.
  destruct (Nat.leb_spec (length l) i) as [H|H].
  - symmetry. apply nth_error_None. exact H.
  - rewrite nth_error_rev by lia. f_equal. lia.
Qed.

Lemma sess_count st s p l : sess st s p l -> count st s = length l.
Proof. intros [Hq _]. unfold count. rewrite Hq. apply rev_length. Qed.

(** What every call has to establish. *)
Definition goes st st' s p l' : Prop :=
  sess st' s p l' /\ forall s', s' <> s -> queues st' s' = queues st s'.

Lemma goes_refl st s p l : sess st s p l -> goes st st s p l.
Proof. intros H. split; auto. Qed.

Ltac via o :=
  match goal with
  | H : sess ?st ?s ?p ?l, K : ?p <> KeepFirst 0 |- _ =>
      let X := fresh in
      pose proof (sess_op st s p l o H K eq_refl eq_refl) as X; cbn [spec_step] in X
  end.

Lemma go_push st s p l v :
  sess st s p l -> p <> KeepFirst 0 ->
  exists st', push st s v = (st', snd (spec_arrive p l v)) /\ goes st st' s p (fst (spec_arrive p l v)).
Proof.
  intros H K. via (OPush s v). destruct (spec_arrive p l v) as [l' r]. cbn [fst snd] in *.
  destruct (H0 l' eq_refl) as [A [B C]]. cbn [bstep] in *.
  destruct (push st s v) as [st' r']. cbn [fst snd] in *. injection B as ->. exists st'. split; [reflexivity|split; auto].
Qed.

Lemma go_push_oldest st s p l v :
  sess st s p l -> p <> KeepFirst 0 ->
  exists st', push_as_oldest st s v = (st', snd (spec_arrive_oldest p l v)) /\
    goes st st' s p (fst (spec_arrive_oldest p l v)).
Proof.
  intros H K. via (OPushOldest s v). destruct (spec_arrive_oldest p l v) as [l' r]. cbn [fst snd] in *.
  destruct (H0 l' eq_refl) as [A [B C]]. cbn [bstep] in *.
  destruct (push_as_oldest st s v) as [st' r']. cbn [fst snd] in *. injection B as ->.
  exists st'. split; [reflexivity|split; auto].
Qed.

Lemma go_pull st s p l :
  sess st s p l -> p <> KeepFirst 0 ->
  exists st', pull st s = (st', hd_error l) /\ goes st st' s p (tl l).
Proof.
  intros H K. via (@OPull V s). cbn [bstep] in H0.
  destruct l as [|x l]; cbn [fst snd hd_error tl] in *;
    destruct (H0 _ eq_refl) as [A [B C]]; destruct (pull st s) as [st' r']; cbn [fst snd] in *;
    injection B as ->; exists st'; (split; [reflexivity|split; auto]).
Qed.

Lemma removelast_none l : last_opt l = None -> l = [].
Proof. destruct (rev_case l) as [->|[l0 [x ->]]]; [reflexivity|]. rewrite last_opt_app. discriminate. Qed.

Lemma go_pull_newest st s p l :
  sess st s p l -> p <> KeepFirst 0 ->
  exists st', pull_newest st s = (st', last_opt l) /\ goes st st' s p (removelast l).
Proof.
  intros H K. via (@OPullNewest V s). cbn [bstep] in H0.
  destruct (last_opt l) as [x|] eqn:E; cbn [fst snd] in *;
    destruct (H0 _ eq_refl) as [A [B C]]; destruct (pull_newest st s) as [st' r']; cbn [fst snd] in *;
    injection B as ->; exists st'; (split; [reflexivity|]).
  - split; auto.
  - rewrite (removelast_none l E) in *. split; auto.
Qed.

Lemma go_oldest_mut st s p l f :
  sess st s p l -> p <> KeepFirst 0 ->
  exists st', oldest_mut st s f = (st', hd_error l) /\ goes st st' s p (at_oldest f l).
Proof.
  intros H K. via (OOldestMut s f). cbn [bstep] in H0.
  destruct l as [|x l]; cbn [fst snd hd_error at_oldest] in *;
    destruct (H0 _ eq_refl) as [A [B C]]; destruct (oldest_mut st s f) as [st' r']; cbn [fst snd] in *;
    injection B as ->; exists st'; (split; [reflexivity|split; auto]).
Qed.

Lemma go_newest_mut st s p l f :
  sess st s p l -> p <> KeepFirst 0 ->
  exists st', newest_mut st s f = (st', last_opt l) /\ goes st st' s p (at_newest f l).
Proof.
  intros H K. via (ONewestMut s f). cbn [bstep] in H0. unfold at_newest.
  destruct (last_opt l) as [x|] eqn:E; cbn [fst snd] in *;
    destruct (H0 _ eq_refl) as [A [B C]]; destruct (newest_mut st s f) as [st' r']; cbn [fst snd] in *;
    injection B as ->; exists st'; (split; [reflexivity|split; auto]).
Qed.

Lemma go_get_mut st s p l i f :
  sess st s p l -> p <> KeepFirst 0 ->
  exists st', get_mut st s i f = (st', nth_error l i) /\ goes st st' s p (at_index i f l).
Proof.
  intros H K. via (OGetMut s i f). cbn [bstep] in H0. unfold at_index.
  destruct (nth_error l i) as [x|] eqn:E; cbn [fst snd] in *;
    destruct (H0 _ eq_refl) as [A [B C]]; destruct (get_mut st s i f) as [st' r']; cbn [fst snd] in *;
    injection B as ->; exists st'; (split; [reflexivity|split; auto]).
Qed.

Lemma go_drain st s p l lo hi :
  sess st s p l -> p <> KeepFirst 0 ->
  exists st', drain st s lo hi
    = (st', if in_range lo hi l then Drained (range_taken lo hi l) else DrainPanic) /\
    goes st st' s p (if in_range lo hi l then range_kept lo hi l else l).
Proof.
  intros H K. destruct (in_range lo hi l) eqn:E.
  - destruct (sess_drain st s p l lo hi H E) as [st' [A [B C]]]. exists st'. split; [exact A|split; auto].
  - exists st. split; [eapply sess_drain_out; eauto|apply goes_refl; exact H].
Qed.

Lemma go_drain_all st s p l :
  sess st s p l -> p <> KeepFirst 0 ->
  exists st', drain_all st s = (st', Drained l) /\ goes st st' s p [].
Proof.
  intros H K. unfold drain_all. rewrite (sess_count _ _ _ _ H).
  destruct (go_drain st s p l 0 (length l) H K) as [st' [A B]].
  assert (E : in_range 0 (length l) l = true).
  { unfold in_range. rewrite Nat.leb_refl. reflexivity. }
  rewrite E in *. exists st'.
  assert (T : range_taken 0 (length l) l = l).
  { unfold range_taken. rewrite Nat.sub_diag, Nat.sub_0_r. cbn [skipn]. apply firstn_all. }
  assert (R : range_kept 0 (length l) l = []).
  { unfold range_kept. rewrite Nat.sub_diag, Nat.sub_0_r, skipn_all. reflexivity. }
  rewrite T in A. rewrite R in B. split; assumption.
Qed.

Lemma at_oldest_ext f g l : (forall x, hd_error l = Some x -> f x = g x) -> at_oldest f l = at_oldest g l.
Proof. destruct l; cbn; intros H; [reflexivity|]. rewrite (H _ eq_refl). reflexivity. Qed.

Lemma at_newest_ext f g l : (forall x, last_opt l = Some x -> f x = g x) -> at_newest f l = at_newest g l.
Proof. unfold at_newest. destruct (last_opt l); intros H; [|reflexivity]. rewrite (H _ eq_refl). reflexivity. Qed.

Lemma at_index_ext i f g l :
  (forall x, nth_error l i = Some x -> f x = g x) -> at_index i f l = at_index i g l.
Proof. unfold at_index. destruct (nth_error l i); intros H; [|reflexivity]. rewrite (H _ eq_refl). reflexivity. Qed.

End Sess.

Section Any.
Context {V : Type}.
Implicit Types (st : storage V) (l : list V) (w : gworld V).

Lemma typed_map T (o : option V) : option_map (mk_box T) o = typed T o.
Proof. destruct o; reflexivity. Qed.

Lemma as_type_edit t T (f : V -> V) x : as_type t T f x = edit_as t T f x.
Proof. unfold as_type, edit_as. destruct (Nat.eqb t T); reflexivity. Qed.

(** The flag the code keeps. *)
Definition any_flag (T : nat) (c : acall V) : bool := any_wakes T c && negb (boxed_push c).

Lemma any_call_ok T st s p l m c :
  sess st s p l -> p <> KeepFirst 0 ->
  exists st', any_call T st s m c = (st', m || any_flag T c, snd (any_spec p T l c)) /\
    goes st st' s p (fst (any_spec p T l c)).
Proof.
  intros H K. unfold any_flag.
  destruct c as [x|x|x|x| | |t f|t f|i t f|lo hi| | | | |i|];
    cbn [any_call any_spec any_wakes boxed_push negb andb];
    unfold any_push, any_push_as_oldest, from_any_message; rewrite ?andb_true_r, ?andb_false_r, ?orb_true_r, ?orb_false_r.
  1,2: destruct (Nat.eqb (bx_ty x) T); cbn [fst snd orb];
    [destruct (go_push st s p l (bx_val x) H K) as [st' [-> G]]; exists st'; rewrite ?typed_map, ?orb_true_r; auto
    |exists st; rewrite ?orb_false_r; split; [reflexivity|apply goes_refl; exact H]].
  1,2: destruct (Nat.eqb (bx_ty x) T); cbn [fst snd orb];
    [destruct (go_push_oldest st s p l (bx_val x) H K) as [st' [-> G]]; exists st'; rewrite ?typed_map, ?orb_true_r; auto
    |exists st; rewrite ?orb_false_r; split; [reflexivity|apply goes_refl; exact H]].
  - destruct (go_pull st s p l H K) as [st' [-> G]]. exists st'. rewrite typed_map. auto.
  - destruct (go_pull_newest st s p l H K) as [st' [-> G]]. exists st'. rewrite typed_map. auto.
  - destruct (go_oldest_mut st s p l (as_type t T f) H K) as [st' [-> G]]. exists st'.
    rewrite typed_map. cbn [fst snd]. split; [reflexivity|].
    rewrite (at_oldest_ext (edit_as t T f) (as_type t T f)); [exact G|].
    intros; symmetry; apply as_type_edit.
  - destruct (go_newest_mut st s p l (as_type t T f) H K) as [st' [-> G]]. exists st'.
    rewrite typed_map. cbn [fst snd]. split; [reflexivity|].
    rewrite (at_newest_ext (edit_as t T f) (as_type t T f)); [exact G|].
    intros; symmetry; apply as_type_edit.
  - destruct (go_get_mut st s p l i (as_type t T f) H K) as [st' [-> G]]. exists st'.
    rewrite typed_map. cbn [fst snd]. split; [reflexivity|].
    rewrite (at_index_ext i (edit_as t T f) (as_type t T f)); [exact G|].
    intros; symmetry; apply as_type_edit.
  - destruct (go_drain st s p l lo hi H K) as [st' [-> G]]. exists st'.
    destruct (in_range lo hi l); cbn [any_drained fst snd]; auto.
  - destruct (go_drain_all st s p l H K) as [st' [-> G]]. exists st'. auto.
  - exists st. split; [reflexivity|apply goes_refl; exact H].
  - exists st. rewrite (sess_oldest _ _ _ _ H), typed_map. split; [reflexivity|apply goes_refl; exact H].
  - exists st. rewrite (sess_newest _ _ _ _ H), typed_map. split; [reflexivity|apply goes_refl; exact H].
  - exists st. rewrite (sess_get _ _ _ _ i H), typed_map. split; [reflexivity|apply goes_refl; exact H].
  - exists st. rewrite (sess_count _ _ _ _ H). split; [reflexivity|apply goes_refl; exact H].
Qed.

Lemma goes_trans st1 st2 st3 s p l2 l3 :
  goes st1 st2 s p l2 -> goes st2 st3 s p l3 -> goes st1 st3 s p l3.
Proof.
  intros [_ A] [B C]. split; [exact B|]. intros s' Hs'. rewrite C, A by assumption. reflexivity.
Qed.

Lemma any_spec_run_cons p T l c cs :
  any_spec_run p T l (c :: cs)
  = match snd (any_spec p T l c) with
    | AOPanic => (fst (any_spec p T l c), [AOPanic])
    | o => (fst (any_spec_run p T (fst (any_spec p T l c)) cs),
            o :: snd (any_spec_run p T (fst (any_spec p T l c)) cs))
    end.
Proof. cbn [any_spec_run]. destruct (any_spec p T l c) as [l1 []]; reflexivity. Qed.

Lemma any_calls_ok T cs : forall st s p l m,
  sess st s p l -> p <> KeepFirst 0 ->
  exists st' m', any_calls T st s m cs = (st', m', snd (any_spec_run p T l cs)) /\
    goes st st' s p (fst (any_spec_run p T l cs)).
Proof.
  induction cs as [|c cs IH]; intros st s p l m H K.
  - exists st, m. split; [reflexivity|apply goes_refl; exact H].
  - cbn [any_calls]. destruct (any_call_ok T st s p l m c H K) as [st1 [E G]].
    rewrite any_spec_run_cons, E.
    destruct (IH st1 s p (fst (any_spec p T l c)) (m || any_flag T c) (proj1 G) K) as [st2 [m2 [E2 G2]]].
    rewrite E2.
    destruct (snd (any_spec p T l c)); cbn [fst snd]; eexists _, _; (split; [reflexivity|]);
      first [exact G | eapply goes_trans; eassumption].
Qed.

Lemma drain_all_fine st s : exists st' l, drain_all st s = (st', Drained l).
Proof.
  unfold drain_all, drain, count. destruct (queues st s) as [q|]; [|eexists _, _; reflexivity].
  destruct (Nat.ltb_spec (length q) 0); [lia|]. destruct (Nat.ltb_spec (length q) (length q)); [lia|].
  cbn [orb]. eexists _, _. reflexivity.
Qed.

Lemma any_calls_flag T cs : forall st s m,
  snd (fst (any_calls T st s m cs)) = m || existsb (any_flag T) cs.
Proof.
  induction cs as [|c cs IH]; intros st s m; cbn [any_calls existsb]; [rewrite orb_false_r; reflexivity|].
  assert (E : snd (fst (any_call T st s m c)) = m || any_flag T c /\
     (snd (any_call T st s m c) = AOPanic -> any_flag T c = true)).
  { unfold any_flag. destruct c as [x|x|x|x| | |t f|t f|i t f|lo hi| | | | |i|];
      cbn [any_call any_wakes boxed_push]; unfold any_push, any_push_as_oldest, from_any_message;
      repeat match goal with
      | |- context [if Nat.eqb ?a ?b then _ else _] => destruct (Nat.eqb a b)
      | |- context [let '(_, _) := ?x in _] => destruct x as [? ?] eqn:?
      end; cbn [fst snd negb andb any_drained]; rewrite ?orb_true_r, ?orb_false_r;
      (split; [reflexivity|try reflexivity; try discriminate]);
      match goal with
      | H : (let '(_, _) := ?x in _) = _ |- _ => destruct x; injection H as <- <-; discriminate
      end. }
  destruct (any_call T st s m c) as [[st1 m1] o]. cbn [fst snd] in E. destruct E as [-> E].
  specialize (IH st1 s (m || any_flag T c)).
  destruct o;
    try (rewrite (E eq_refl); cbn [fst snd orb]; rewrite ?orb_true_r; reflexivity);
    destruct (any_calls T st1 s (m || any_flag T c) cs) as [[st2 m2] os]; cbn [fst snd] in *;
    rewrite IH, orb_assoc; reflexivity.
Qed.

(** *** Worlds *)

Lemma storage_of_opens types w k n : opens types w k n -> storage_of types w k = Some n.
Proof. intros [H1 H2]. unfold storage_of. rewrite H1, Nat.eqb_refl. exact H2. Qed.

Lemma session_sess (n : bufnode V) s :
  session_ok n s -> sess (bn_store n) s (policy (bn_store n)) (iter (bn_store n) s) /\
                    policy (bn_store n) <> KeepFirst 0.
Proof.
  intros [[q Hq] [Hl Hk]]. split; [|exact Hk]. split; [|split; [reflexivity|exact Hl]].
  unfold iter. rewrite Hq, rev_involutive. reflexivity.
Qed.

Lemma close_access_bufs w n k st m :
  gw_bufs (close_access w n k st m)
  = emap_set (gw_bufs w) (ek_buf k) (Some (mk_bufnode st (bn_gates n) (bn_targets n))).
Proof. unfold close_access. destruct m; reflexivity. Qed.

Lemma close_access_effect types w k n st m l' :
  opens types w k n -> goes (bn_store n) st (ek_sess k) (policy (bn_store n)) l' ->
  forall w', gw_bufs w' = gw_bufs (close_access w n k st m) ->
  forall b s, buf_contents w' b s
    = (if Nat.eqb b (ek_buf k) && Nat.eqb s (ek_sess k) then l' else buf_contents w b s) /\
    gate_reads w' b s = gate_reads w b s /\ targets_of w' b = targets_of w b.
Proof.
  intros [_ Hb] [G1 G2] w' Hw b s. unfold buf_contents, gate_reads, targets_of.
  rewrite Hw, close_access_bufs. unfold emap_set.
  destruct (Nat.eqb_spec b (ek_buf k)) as [->|]; cbn [andb]; [|auto].
  rewrite Hb. cbn [bn_store bn_gates bn_targets]. split; [|auto].
  destruct (Nat.eqb_spec s (ek_sess k)) as [->|Hs]; [eapply sess_iter; exact G1|].
  unfold iter. rewrite G2 by assumption. reflexivity.
Qed.

Lemma any_edit_effect types w k n cs :
  opens types w k n -> session_ok n (ek_sess k) ->
  let R := any_spec_run (policy (bn_store n)) (ek_ty k) (buf_contents w (ek_buf k) (ek_sess k)) cs in
  snd (any_edit types w k cs) = Some (snd R) /\
  snd (world_any_buffer_mut types w k cs) = Some (snd R) /\
  forall w', w' = fst (any_edit types w k cs) \/ w' = fst (world_any_buffer_mut types w k cs) ->
  forall b s, buf_contents w' b s
    = (if Nat.eqb b (ek_buf k) && Nat.eqb s (ek_sess k) then fst R else buf_contents w b s) /\
    gate_reads w' b s = gate_reads w b s /\ targets_of w' b = targets_of w b.
Proof.
  intros Ho Hs R. destruct (session_sess n (ek_sess k) Hs) as [S K].
  assert (EC : buf_contents w (ek_buf k) (ek_sess k) = iter (bn_store n) (ek_sess k)).
  { unfold buf_contents. rewrite (proj2 Ho). reflexivity. }
  destruct (any_calls_ok (ek_ty k) cs (bn_store n) (ek_sess k) _ _ false S K) as [st [m [E G]]].
  rewrite <- EC in E, G. fold R in E, G.
  unfold world_any_buffer_mut, any_edit. rewrite (storage_of_opens _ _ _ _ Ho), E. cbn [fst snd].
  split; [reflexivity|]. split; [reflexivity|].
  intros w' Hw'. apply (close_access_effect types w k n st m (fst R) Ho G).
  destruct Hw' as [->| ->]; reflexivity.
Qed.

(** A closed access whose flag is set wakes the listeners except the accessor. *)
Lemma close_access_notifies types w k n st :
  opens types w k n -> gw_cmds w = [] -> ready w (ek_buf k) (ek_sess k) ->
  gate_reads w (ek_buf k) (ek_sess k) = Some Open ->
  forall t s', wakes (apply_next (close_access w n k st true)) t s'
    = wakes w t s' +
      (if Nat.eqb s' (ek_sess k)
       then (if match ek_acc k with Some a => Nat.eqb a t | None => false end
             then 0 else count_occ Nat.eq_dec (targets_of w (ek_buf k)) t)
       else 0).
Proof.
  intros [_ Hb] Hc [Hr [Hs _]] Hg t s'. unfold targets_of, gate_reads in *. rewrite Hb in *.
  unfold close_access, apply_next. cbn [set_buf gw_cmds gw_bufs gw_lis]. rewrite Hc. cbn [app].
  unfold notify_apply. cbn [nt_buffer nt_session nt_accessor gw_bufs gw_lis].
  rewrite emap_set_eq. cbn [bn_gates bn_targets]. rewrite is_closed_reads.
  injection Hg as ->. cbn [gate_eqb].
  destruct (wake_all_active
    (filter (fun t => negb (match ek_acc k with Some a => Nat.eqb a t | None => false end)) (bn_targets n))
    (gw_lis w) (ek_sess k)) as [l' [E [_ [_ W]]]].
  - intros t' Ht'. apply filter_In in Ht'. apply Hr. apply Ht'.
  - exact Hs.
  - rewrite E. cbn [fst]. rewrite !wakes_lwakes. cbn [gw_lis]. rewrite W.
    destruct (Nat.eqb s' (ek_sess k)); [|reflexivity]. f_equal. apply count_filter.
Qed.

Lemma any_edit_wakes types w k n cs :
  opens types w k n -> gw_cmds w = [] -> ready w (ek_buf k) (ek_sess k) ->
  gate_reads w (ek_buf k) (ek_sess k) = Some Open ->
  forall t s', wakes (apply_next (fst (any_edit types w k cs))) t s'
    = wakes w t s' +
      (if existsb (any_flag (ek_ty k)) cs && Nat.eqb s' (ek_sess k)
       then (if match ek_acc k with Some a => Nat.eqb a t | None => false end
             then 0 else count_occ Nat.eq_dec (targets_of w (ek_buf k)) t)
       else 0).
Proof.
  intros Ho Hc Hr Hg t s'. unfold any_edit. rewrite (storage_of_opens _ _ _ _ Ho).
  pose proof (any_calls_flag (ek_ty k) cs (bn_store n) (ek_sess k) false) as F.
  destruct (any_calls (ek_ty k) (bn_store n) (ek_sess k) false cs) as [[st m] os].
  cbn [fst snd orb] in *. subst m.
  destruct (existsb (any_flag (ek_ty k)) cs); cbn [andb].
  - apply (close_access_notifies types); assumption.
  - unfold close_access, apply_next. cbn [set_buf gw_cmds]. rewrite Hc, Nat.add_0_r. reflexivity.
Qed.

Lemma world_any_silent types w k cs :
  gw_cmds (fst (world_any_buffer_mut types w k cs)) = gw_cmds w /\
  forall t s', wakes (fst (world_any_buffer_mut types w k cs)) t s' = wakes w t s'.
Proof.
  unfold world_any_buffer_mut, any_edit. destruct (storage_of types w k) as [n|]; [|split; reflexivity].
  destruct (any_calls _ _ _ _ _) as [[st m] os]. cbn [fst gw_cmds]. split; [reflexivity|].
  intros t s'. rewrite !wakes_lwakes. cbn [gw_lis]. unfold close_access. destruct m; reflexivity.
Qed.

(** *** Keys *)

Lemma convert_keys_same json cs : forall kk k kk' k',
  convert_keys json cs (kk, k) = Some (kk', k') -> k' = k.
Proof.
  induction cs as [|c cs IH]; intros kk k kk' k'; cbn [convert_keys]; [congruence|].
  destruct (convert_key json c (kk, k)) as [[kk1 k1]|] eqn:E; [|discriminate].
  intros H. apply IH in H. subst k'.
  unfold convert_key in E. destruct c as [| |t|kk2 t|], kk; try discriminate;
    repeat match type of E with
    | context [match ?x with _ => _ end] => destruct x
    end; congruence.
Qed.

Lemma convert_keys_typed json cs : forall kk k kk' k',
  convert_keys json cs (kk, k) = Some (kk', k') ->
  forall t, In (KvForMessage t) cs -> t = ek_ty k.
Proof.
  induction cs as [|c cs IH]; intros kk k kk' k'; cbn [convert_keys]; [intros _ t []|].
  destruct (convert_key json c (kk, k)) as [[kk1 k1]|] eqn:E; [|discriminate].
  intros H t [->|Ht].
  - unfold convert_key in E. destruct kk; try discriminate; destruct (Nat.eqb_spec t (ek_ty k)); congruence.
  - assert (E1 : k1 = k) by (apply (convert_keys_same json [c] kk k kk1 k1); cbn [convert_keys]; rewrite E; reflexivity).
    subst k1. eapply IH; eauto.
Qed.

End Any.

Section Json.
Context {V J : Type}.
Context (ser : nat -> V -> option J) (de : nat -> J -> option V).
Implicit Types (st : storage V) (l : list V) (w : gworld V).

Lemma to_value_json T (o : option V) : to_value ser T o = as_json ser T o.
Proof. reflexivity. Qed.

Lemma pulled_converted a (o : jout J) : pulled_as a o = converted a o.
Proof. destruct o as [| |[]| | |]; reflexivity. Qed.

Lemma json_mut_act T v m a :
  exists m', json_mut ser de T v m a = (fst (json_act ser de T v a), m', snd (json_act ser de T v a)).
Proof.
  destruct a as [|j|j|f]; cbn [json_mut json_act]; unfold json_insert.
  - eexists. reflexivity.
  - destruct (de T j), (ser T v); eexists; reflexivity.
  - destruct (de T j); eexists; reflexivity.
  - destruct (ser T v) as [j|]; [destruct (de T (f j))|]; eexists; reflexivity.
Qed.

Lemma json_call_ok T st s p l m c :
  sess st s p l -> p <> KeepFirst 0 -> json_pushes_oldest c = false ->
  exists st' m', json_call ser de T st s m c = (st', m', snd (json_spec ser de p T l c)) /\
    goes st st' s p (fst (json_spec ser de p T l c)).
Proof.
  intros H K Hc.
  assert (P : forall j, exists st', json_push ser de T st s j
      = (st', snd (json_arrives ser de p T l false (Some j))) /\
      goes st st' s p (fst (json_arrives ser de p T l false (Some j)))).
  { intros j. unfold json_push, json_arrives. destruct (de T j) as [v|].
    - destruct (go_push st s p l v H K) as [st' [-> G]]. exists st'.
      destruct (spec_arrive p l v); auto.
    - exists st. split; [reflexivity|apply goes_refl; exact H]. }
  destruct c as [[j|]|j|o|j| | |a|a|a|a|i a|lo hi| | | | |i|]; try discriminate;
    cbn [json_call json_spec].
  - destruct (P j) as [st' [-> G]]. exists st', true. auto.
  - exists st, m. split; [reflexivity|apply goes_refl; exact H].
  - destruct (P j) as [st' [-> G]]. exists st', true. auto.
  - destruct (go_pull st s p l H K) as [st' [-> G]]. exists st', true. auto.
  - destruct (go_pull_newest st s p l H K) as [st' [-> G]]. exists st', true. auto.
  - destruct (go_pull st s p l H K) as [st' [-> G]]. exists st', true. rewrite pulled_converted. auto.
  - destruct (go_pull_newest st s p l H K) as [st' [-> G]]. exists st', true. rewrite pulled_converted. auto.
  - rewrite (sess_oldest _ _ _ _ H). unfold json_act_at. destruct (hd_error l) as [v|] eqn:E.
    + destruct (json_mut_act T v m a) as [m' ->].
      destruct (go_oldest_mut st s p l (fun _ => fst (json_act ser de T v a)) H K) as [st' [-> G]].
      exists st', m'. cbn [fst snd]. split; [reflexivity|].
      rewrite (at_oldest_ext (json_edit_by ser de T a) (fun _ => fst (json_act ser de T v a))); [exact G|].
      rewrite E. intros x [= <-]. reflexivity.
    + exists st, m. split; [reflexivity|]. destruct l; [|discriminate]. apply goes_refl; exact H.
  - rewrite (sess_newest _ _ _ _ H). unfold json_act_at. destruct (last_opt l) as [v|] eqn:E.
    + destruct (json_mut_act T v m a) as [m' ->].
      destruct (go_newest_mut st s p l (fun _ => fst (json_act ser de T v a)) H K) as [st' [-> G]].
      exists st', m'. cbn [fst snd]. split; [reflexivity|].
      rewrite (at_newest_ext (json_edit_by ser de T a) (fun _ => fst (json_act ser de T v a))); [exact G|].
      rewrite E. intros x [= <-]. reflexivity.
    + exists st, m. split; [reflexivity|]. unfold at_newest. rewrite E. apply goes_refl; exact H.
  - rewrite (sess_get _ _ _ _ i H). unfold json_act_at. destruct (nth_error l i) as [v|] eqn:E.
    + destruct (json_mut_act T v m a) as [m' ->].
      destruct (go_get_mut st s p l i (fun _ => fst (json_act ser de T v a)) H K) as [st' [-> G]].
      exists st', m'. cbn [fst snd]. split; [reflexivity|].
      rewrite (at_index_ext i (json_edit_by ser de T a) (fun _ => fst (json_act ser de T v a))); [exact G|].
      rewrite E. intros x [= <-]. reflexivity.
    + exists st, m. split; [reflexivity|]. unfold at_index. rewrite E. apply goes_refl; exact H.
  - destruct (go_drain st s p l lo hi H K) as [st' [-> G]]. exists st', true.
    destruct (in_range lo hi l); cbn [json_drained fst snd]; auto.
  - destruct (go_drain_all st s p l H K) as [st' [-> G]]. exists st', true. auto.
  - exists st, true. split; [reflexivity|apply goes_refl; exact H].
  - exists st, m. rewrite (sess_oldest _ _ _ _ H). split; [reflexivity|apply goes_refl; exact H].
  - exists st, m. rewrite (sess_newest _ _ _ _ H). split; [reflexivity|apply goes_refl; exact H].
  - exists st, m. rewrite (sess_get _ _ _ _ i H). split; [reflexivity|apply goes_refl; exact H].
  - exists st, m. rewrite (sess_count _ _ _ _ H). split; [reflexivity|apply goes_refl; exact H].
Qed.

Lemma json_spec_run_cons p T l c cs :
  json_spec_run ser de p T l (c :: cs)
  = match snd (json_spec ser de p T l c) with
    | JOPanic => (fst (json_spec ser de p T l c), [JOPanic])
    | o => (fst (json_spec_run ser de p T (fst (json_spec ser de p T l c)) cs),
            o :: snd (json_spec_run ser de p T (fst (json_spec ser de p T l c)) cs))
    end.
Proof. cbn [json_spec_run]. destruct (json_spec ser de p T l c) as [l1 []]; reflexivity. Qed.

Lemma json_calls_ok T cs : forall st s p l m,
  sess st s p l -> p <> KeepFirst 0 -> Forall (fun c => json_pushes_oldest c = false) cs ->
  exists st' m', json_calls ser de T st s m cs = (st', m', snd (json_spec_run ser de p T l cs)) /\
    goes st st' s p (fst (json_spec_run ser de p T l cs)).
Proof.
  induction cs as [|c cs IH]; intros st s p l m H K Hc.
  - exists st, m. split; [reflexivity|apply goes_refl; exact H].
  - inversion Hc; subst. cbn [json_calls].
    destruct (json_call_ok T st s p l m c H K) as [st1 [m1 [E G]]]; [assumption|].
    rewrite json_spec_run_cons, E.
    destruct (IH st1 s p (fst (json_spec ser de p T l c)) m1 (proj1 G) K) as [st2 [m2 [E2 G2]]]; [assumption|].
    rewrite E2.
    destruct (snd (json_spec ser de p T l c)); cbn [fst snd]; eexists _, _; (split; [reflexivity|]);
      first [exact G | eapply goes_trans; eassumption].
Qed.

Lemma json_edit_effect types w k n cs :
  opens types w k n -> session_ok n (ek_sess k) ->
  Forall (fun c => json_pushes_oldest c = false) cs ->
  let R := json_spec_run ser de (policy (bn_store n)) (ek_ty k)
             (buf_contents w (ek_buf k) (ek_sess k)) cs in
  snd (world_json_buffer_mut ser de types w k cs) = Some (snd R) /\
  forall b s, buf_contents (fst (world_json_buffer_mut ser de types w k cs)) b s
    = (if Nat.eqb b (ek_buf k) && Nat.eqb s (ek_sess k) then fst R else buf_contents w b s) /\
    gate_reads (fst (world_json_buffer_mut ser de types w k cs)) b s = gate_reads w b s /\
    targets_of (fst (world_json_buffer_mut ser de types w k cs)) b = targets_of w b.
Proof.
  intros Ho Hs Hc R. destruct (session_sess n (ek_sess k) Hs) as [S K].
  assert (EC : buf_contents w (ek_buf k) (ek_sess k) = iter (bn_store n) (ek_sess k)).
  { unfold buf_contents. rewrite (proj2 Ho). reflexivity. }
  destruct (json_calls_ok (ek_ty k) cs (bn_store n) (ek_sess k) _ _ false S K Hc) as [st [m [E G]]].
  rewrite <- EC in E, G. fold R in E, G.
  unfold world_json_buffer_mut, json_edit. rewrite (storage_of_opens _ _ _ _ Ho), E. cbn [fst snd].
  split; [reflexivity|].
  apply (close_access_effect types w k n st m (fst R) Ho G). reflexivity.
Qed.

(** The order of messages aside, pushing as oldest is pushing. *)
Lemma json_call_error T st s p l m c :
  sess st s p l -> p <> KeepFirst 0 -> json_puts c = true ->
  (match c with
   | JCPush (Some j) | JCPushJson j | JCPushOldest (Some j) | JCPushJsonOldest j => de T j = None
   | _ => True
   end) ->
  snd (json_call ser de T st s m c) = JOErr ->
  goes st (fst (fst (json_call ser de T st s m c))) s p l.
Proof.
  intros H K Hc Hd He.
  assert (Act : forall v a m', snd (json_mut ser de T v m a) = JOErr ->
     fst (fst (json_mut ser de T v m' a)) = v).
  { intros v a m' E. destruct (json_mut_act T v m a) as [m1 E1]. rewrite E1 in E. cbn [snd] in E.
    destruct (json_mut_act T v m' a) as [m2 E2]. rewrite E2. cbn [fst].
    destruct a as [|j|j|f]; cbn [json_act fst snd] in *.
    - reflexivity.
    - destruct (de T j), (ser T v); cbn [fst snd] in *; try reflexivity; discriminate.
    - destruct (de T j); cbn [fst snd] in *; try reflexivity; discriminate.
    - destruct (ser T v) as [j|]; [destruct (de T (f j))|]; cbn [fst snd] in *; try reflexivity; discriminate. }
  destruct c as [[j|]|j|[j|]|j| | |a|a|a|a|i a|lo hi| | | | |i|]; try discriminate;
    cbn [json_call] in *; unfold json_push, json_push_as_oldest in *;
    try rewrite Hd in *; cbn [fst snd] in *; try (apply goes_refl; exact H).
  - rewrite (sess_oldest _ _ _ _ H) in *. destruct (hd_error l) as [v|] eqn:E; [|discriminate].
    specialize (Act v a m). destruct (json_mut ser de T v m a) as [[v' m'] o]. cbn [fst snd] in *.
    rewrite (Act He).
    destruct (go_oldest_mut st s p l (fun _ => v) H K) as [st' [-> G]]. cbn [fst].
    rewrite (at_oldest_ext (fun _ => v) (fun x => x)) in G by (rewrite E; congruence).
    destruct l; exact G.
  - rewrite (sess_newest _ _ _ _ H) in *. destruct (last_opt l) as [v|] eqn:E; [|discriminate].
    specialize (Act v a m). destruct (json_mut ser de T v m a) as [[v' m'] o]. cbn [fst snd] in *.
    rewrite (Act He).
    destruct (go_newest_mut st s p l (fun _ => v) H K) as [st' [-> G]]. cbn [fst].
    unfold at_newest in G. rewrite E in G.
    destruct (rev_case l) as [->|[l0 [x ->]]]; [discriminate|].
    rewrite last_opt_app in E. injection E as ->. rewrite removelast_last in G. exact G.
  - rewrite (sess_get _ _ _ _ i H) in *. destruct (nth_error l i) as [v|] eqn:E; [|discriminate].
    specialize (Act v a m). destruct (json_mut ser de T v m a) as [[v' m'] o]. cbn [fst snd] in *.
    rewrite (Act He).
    destruct (go_get_mut st s p l i (fun _ => v) H K) as [st' [-> G]]. cbn [fst].
    unfold at_index in G. rewrite E in G.
    destruct (nth_error_split _ _ E) as [l1 [l2 [-> El]]].
    rewrite <- El, firstn_app, Nat.sub_diag, firstn_all in G. cbn [firstn] in G. rewrite app_nil_r in G.
    rewrite skipn_app in G. replace (S (length l1) - length l1) with 1 in G by lia.
    rewrite skipn_all2 in G by lia. exact G.
Qed.

Lemma world_json_silent types w k cs :
  gw_cmds (fst (world_json_buffer_mut ser de types w k cs)) = gw_cmds w /\
  forall t s', wakes (fst (world_json_buffer_mut ser de types w k cs)) t s' = wakes w t s'.
Proof.
  unfold world_json_buffer_mut, json_edit. destruct (storage_of types w k) as [n|]; [|split; reflexivity].
  destruct (json_calls _ _ _ _ _ _ _) as [[st m] os]. cbn [fst gw_cmds]. split; [reflexivity|].
  intros t s'. rewrite !wakes_lwakes. cbn [gw_lis]. unfold close_access. destruct m; reflexivity.
Qed.

Lemma json_iter_ok T st s n : forall i,
  json_iter ser T st s i n
  = map (fun k => as_json ser T (nth_error (iter st s) k)) (seq i n).
Proof.
  induction n as [|n IH]; intros i; cbn [json_iter seq map]; [reflexivity|].
  rewrite IH. f_equal. unfold get, iter. destruct (queues st s) as [q|].
  - destruct (Nat.leb_spec (length q) i) as [H|H].
    + assert (E : nth_error (rev q) i = None) by (apply nth_error_None; rewrite rev_length; exact H).
      rewrite E. reflexivity.
    + rewrite nth_error_rev by exact H. reflexivity.
  - destruct i; reflexivity.
Qed.

End Json.
