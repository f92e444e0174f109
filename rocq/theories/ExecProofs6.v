(** Where the messages, the batches, the responses and the cancellations of a session come
    from. *)
From Verif Require Import Base RosterModel BufferModel InputModel InputSpec InputProofs GateModel
  OpsModel OpsSpec OpsProofs ReachModel ReachSpec ReachProofs ExecModel ExecSpec ExecProofs ExecProofs2 ExecProofs3
  ExecProofs4 ExecProofs5.

(** ** Facts about [occurs] *)
Lemma occurs_trans f e v n w m u : occurs f e v n w -> occurs f n w m u -> occurs f e v m u.
Proof.
  intros H1 H2. induction H2 as [|n' k w' ms dropped t u' H IH Hk Hr Hin|n' min max t l Hk _ IH Hw]; [exact H1| |].
  - exact (O_sent _ _ _ _ _ _ _ _ _ _ IH Hk Hr Hin).
  - exact (O_batch _ _ _ _ _ _ _ _ Hk IH Hw).
Qed.

(** Without collects, everything beyond the first node comes from one of its messages. *)
Lemma occurs_first f e v m u : collect_free f -> occurs f e v m u -> (e = m /\ v = u) \/
  exists k ms dropped t w, f_kind f e = Some k /\ reacts k v = Some (Sends ms dropped) /\ In (t, w) ms /\
    occurs f t w m u.
Proof.
  intros Hc H. induction H as [|n k w ms dropped t u H IH Hk Hr Hin|n min max t l Hk _ _ _].
  - auto.
  - right. destruct IH as [[-> ->]|[k' [ms' [d' [t' [w' [K [R [I O]]]]]]]]].
    + exists k, ms, dropped, t, u. repeat (split; [assumption|]). constructor.
    + exists k', ms', d', t', w'. repeat (split; [assumption|]). exact (O_sent _ _ _ _ _ _ _ _ _ _ O Hk Hr Hin).
  - exfalso. specialize (Hc n). unfold is_collect in Hc. rewrite Hk in Hc. discriminate.
Qed.

Lemma reacts_targets k v ms dropped t w : reacts k v = Some (Sends ms dropped) -> In (t, w) ms -> In t (targets_of k).
Proof.
  intros Hr Hin. destruct k as [g t0|ts|ts|act ta tb|t0|g t0|g t0|min max t0| | |]; cbn [reacts targets_of] in *;
    try discriminate.
  - injection Hr as <- <-. destruct Hin as [E|[]]. injection E as <- _. left. reflexivity.
  - injection Hr as <- <-. apply in_map_iff in Hin. destruct Hin as [t' [E H]]. injection E as <- _. exact H.
  - destruct v; try discriminate. destruct (length l =? length ts); [|discriminate]. injection Hr as <- <-.
    apply in_combine_l in Hin. exact Hin.
  - destruct (act v) as [[a b]|]; [|discriminate]. injection Hr as <- <-. apply in_app_or in Hin.
    destruct Hin as [Hin|Hin]; [destruct a|destruct b]; cbn in Hin; try contradiction;
      destruct Hin as [E|[]]; injection E as <- _; cbn; auto.
  - destruct v; try discriminate. injection Hr as <- <-. apply in_map_iff in Hin. destruct Hin as [y [E _]].
    injection E as <- _. left. reflexivity.
  - destruct (g v); injection Hr as <- <-; [|destruct Hin]. destruct Hin as [E|[]]. injection E as <- _. left. reflexivity.
  - destruct (g v); [|discriminate]. injection Hr as <- <-. destruct Hin as [E|[]]. injection E as <- _. left. reflexivity.
Qed.

Lemma occurs_leads f n w m u : collect_free f -> occurs f n w m u -> leads f m -> leads f n.
Proof.
  intros Hc H. induction H as [|m k w' ms dropped t u H IH Hk Hr Hin|m min max t l Hk _ _ _]; intros Hl.
  - exact Hl.
  - apply IH. apply (L_next f m t); [|exact Hl]. unfold node_targets. rewrite Hk.
    exact (reacts_targets _ _ _ _ _ _ Hr Hin).
  - exfalso. specialize (Hc m). unfold is_collect in Hc. rewrite Hk in Hc. discriminate.
Qed.

Lemma sends_not_terminal f n k v ms dropped : built f -> f_kind f n = Some k -> reacts k v = Some (Sends ms dropped) ->
  n <> f_terminal f.
Proof. intros Hb Hk Hr ->. rewrite (proj2 (proj1 (proj2 (proj2 (proj2 (proj2 Hb)))) _) eq_refl) in Hk. injection Hk as <-. discriminate. Qed.

(** ** Reasons *)
Definition of_session (f : workflow) (log : list xevent) (s n : entity) (w : val) : Prop :=
  exists v, In (EStart s v) log /\ occurs f (f_entry f) v n w.

(** Why session [s] is cancelled with cause [c]; [E] are the sessions cancelled from outside. *)
Inductive why (f : workflow) (E : entity -> Prop) (log : list xevent) (s : entity) : nat -> Prop :=
| W_node c v n : c = cause_triggered \/ c = cause_filtered -> In (EStart s v) log ->
    occurs_with f (f_entry f) v n Cancels -> why f E log s c
| W_unreachable : (collect_free f -> exists v, In (EStart s v) log /\ forall r, ~ occurs f (f_entry f) v (f_terminal f) r) ->
    why f E log s cause_unreachable
| W_broken n : In (EBroken n) log -> why f E log s cause_broken
| W_circular : circular f (f_nodes f) = true -> why f E log s cause_circular
| W_external : E s -> why f E log s cause_external.

(** Why node [n] was reported as broken. *)
Definition breaks (f : workflow) (log : list xevent) (n : entity) : Prop :=
  f_kind f n = Some OCancel \/
  (exists s v, In (EStart s v) log /\ occurs_with f (f_entry f) v n Breaks) \/
  (n = f_terminal f /\ exists s v r w, In (EStart s v) log /\ In (EOut s r) log /\ occurs f (f_entry f) v n w).

Definition explained (f : workflow) (E : entity -> Prop) (log : list xevent) (e : xevent) : Prop :=
  match e with
  | EStart _ _ => True
  | EOut s r => of_session f log s (f_terminal f) r
  | ECancelled s c => why f E log s c
  | EBroken n => breaks f log n
  | EPanic _ => False
  end.

Section Grow.
Variables (f : workflow) (E : entity -> Prop) (log log' : list xevent).
Hypothesis Hg : forall e, In e log -> In e log'.

Lemma of_session_grow s n w : of_session f log s n w -> of_session f log' s n w.
Proof. intros [v [H1 H2]]. exists v. auto. Qed.

Lemma why_grow s c : why f E log s c -> why f E log' s c.
Proof.
  intros [c' v n H1 H2 H3|H|n H|H|H].
  - apply (W_node f E log' s c' v n); auto.
  - apply W_unreachable. intros Hc. destruct (H Hc) as [v [H1 H2]]. eauto.
  - apply (W_broken f E log' s n); auto.
  - apply W_circular, H.
  - apply W_external, H.
Qed.

Lemma breaks_grow n : breaks f log n -> breaks f log' n.
Proof.
  intros [H|[[s [v [H1 H2]]]|[H [s [v [r [w [H1 [H2 H3]]]]]]]]].
  - left. exact H.
  - right. left. exists s, v. auto.
  - right. right. split; [exact H|]. exists s, v, r, w. auto.
Qed.

Lemma explained_grow e : explained f E log e -> explained f E log' e.
Proof.
  destruct e; cbn; auto.
  - apply of_session_grow.
  - apply why_grow.
  - apply breaks_grow.
Qed.
End Grow.

(** ** The invariant *)
Definition whole (f : workflow) (o : oworld) (s : entity) (v : val) : Prop :=
  forall r, occurs f (f_entry f) v (f_terminal f) r ->
    exists n w, In (s, w) (pending (o_w o) n) /\ occurs f n w (f_terminal f) r.

Record traced (f : workflow) (E : entity -> Prop) (x : xworld) : Prop := mk_traced {
  t_once : forall s v v', In (EStart s v) (x_log x) -> In (EStart s v') (x_log x) -> v = v';
  t_pend : forall s w n, In (s, w) (pending (o_w (x_o x)) n) -> of_session f (x_log x) s n w;
  t_coll : forall n s w, In w (progress (x_o x) n s) -> of_session f (x_log x) s n w;
  t_room : forall n s min m t, f_kind f n = Some (OCollect min (Some m) t) -> length (progress (x_o x) n s) < m;
  t_late : forall s w, In (s, w) (pending (o_w (x_o x)) (f_terminal f)) -> ~ In s (x_ongoing x) ->
             exists r, In (EOut s r) (x_log x);
  t_asked : forall c s, In c (asked (x_o x)) -> c_session c = Some s -> why f E (x_log x) s (c_cause c);
  t_all : forall c, In c (asked (x_o x)) -> c_session c = None ->
            c_cause c = cause_broken /\ exists n, In (EBroken n) (x_log x);
  t_log : forall e, In e (x_log x) -> explained f E (x_log x) e;
  t_init : x_initial x = Some IError -> circular f (f_nodes f) = true
}.

(** Without collects, whatever can still come to the terminal comes from a message that is
    waiting. *)
Definition wholes (f : workflow) (x : xworld) : Prop :=
  collect_free f -> forall s v, In s (x_ongoing x) -> In (EStart s v) (x_log x) -> whole f (x_o x) s v.

Lemma known_start s log : known s log = true <-> exists v, In (EStart s v) log.
Proof.
  unfold known. rewrite existsb_exists. split.
  - intros [e [H1 H2]]. destruct e; try discriminate. apply Nat.eqb_eq in H2. subst. eauto.
  - intros [v H]. exists (EStart s v). split; [exact H|apply Nat.eqb_refl].
Qed.

(** A change of the world of the operations. *)
Lemma traced_set f E x o' : traced f E x ->
  (forall s w n, In (s, w) (pending (o_w o') n) ->
     In (s, w) (pending (o_w (x_o x)) n) \/ (of_session f (x_log x) s n w /\ In s (x_ongoing x))) ->
  (forall n s w, In w (progress o' n s) -> In w (progress (x_o x) n s) \/ of_session f (x_log x) s n w) ->
  (forall n s min m t, f_kind f n = Some (OCollect min (Some m) t) -> length (progress o' n s) < m) ->
  (forall c, In c (asked o') -> In c (asked (x_o x)) \/
     exists s, c_session c = Some s /\ why f E (x_log x) s (c_cause c)) ->
  traced f E (set_o x o').
Proof.
  intros T Hp Hc Hr Ha. split; cbn [set_o x_o x_ongoing x_log x_initial].
  - apply (t_once _ _ _ T).
  - intros s w n H. destruct (Hp _ _ _ H) as [H1|[H1 _]]; [exact (t_pend _ _ _ T _ _ _ H1)|exact H1].
  - intros n s w H. destruct (Hc _ _ _ H) as [H1|H1]; [exact (t_coll _ _ _ T _ _ _ H1)|exact H1].
  - exact Hr.
  - intros s w H Hs. destruct (Hp _ _ _ H) as [H1|[_ H1]]; [exact (t_late _ _ _ T _ _ H1 Hs)|contradiction].
  - intros c s H Hs. destruct (Ha _ H) as [H1|[s' [E1 H1]]]; [exact (t_asked _ _ _ T _ _ H1 Hs)|].
    rewrite Hs in E1. injection E1 as <-. exact H1.
  - intros c H Hs. destruct (Ha _ H) as [H1|[s' [E1 H1]]]; [exact (t_all _ _ _ T _ H1 Hs)|congruence].
  - apply (t_log _ _ _ T).
  - apply (t_init _ _ _ T).
Qed.

Lemma traced_broken f E x n : traced f E x -> breaks f (x_log x) n -> traced f E (broken f n x).
Proof.
  intros T Hn. unfold broken, tell. cbn [set_o x_o x_ongoing x_log x_initial].
  assert (Hg : forall e, In e (x_log x) -> In e (x_log x ++ [EBroken n])) by (intros e H; apply in_or_app; auto).
  assert (Hst : forall s v, In (EStart s v) (x_log x ++ [EBroken n]) -> In (EStart s v) (x_log x)).
  { intros s v H. apply in_app_or in H. destruct H as [H|[H|[]]]; [exact H|discriminate]. }
  split; cbn [x_o x_ongoing x_log x_initial].
  - intros s v v' H1 H2. exact (t_once _ _ _ T s v v' (Hst _ _ H1) (Hst _ _ H2)).
  - intros s w m H. apply (of_session_grow f _ _ Hg), (t_pend _ _ _ T), H.
  - intros m s w H. apply (of_session_grow f _ _ Hg), (t_coll _ _ _ T), H.
  - apply (t_room _ _ _ T).
  - intros s w H Hs. destruct (t_late _ _ _ T _ _ H Hs) as [r Hr]. eauto.
  - intros c s H Hs. cbn in H. apply in_app_or in H. destruct H as [H|[<-|[]]]; [|discriminate].
    apply (why_grow f E _ _ Hg), (t_asked _ _ _ T _ _ H Hs).
  - intros c H Hs. cbn in H. apply in_app_or in H. destruct H as [H|[<-|[]]].
    + destruct (t_all _ _ _ T _ H Hs) as [H1 [m H2]]. eauto.
    + split; [reflexivity|]. exists n. apply in_or_app. right. left. reflexivity.
  - intros e H. apply in_app_or in H. destruct H as [H|[<-|[]]].
    + apply (explained_grow f E _ _ Hg), (t_log _ _ _ T), H.
    + cbn. apply (breaks_grow f _ _ Hg), Hn.
  - apply (t_init _ _ _ T).
Qed.

Lemma wholes_broken f x n : wholes f x -> wholes f (broken f n x).
Proof.
  intros W Hc s v Hs Hv. apply (W Hc s v Hs). cbn in Hv. apply in_app_or in Hv.
  destruct Hv as [H|[H|[]]]; [exact H|discriminate].
Qed.

(** What is gathered is only ever dropped by the end of a session. *)
Lemma shrunk_refl o o' : o_coll o' = o_coll o -> shrunk o o'.
Proof. intros E n s. left. unfold progress. rewrite E. reflexivity. Qed.

Lemma shrunk_trans o1 o2 o3 : shrunk o1 o2 -> shrunk o2 o3 -> shrunk o1 o3.
Proof. intros H1 H2 n s. destruct (H2 n s) as [->|]; [apply H1|auto]. Qed.

Lemma clean_node_shrunk f s o n : shrunk o (clean_node f s o n).
Proof.
  unfold clean_node. destruct (f_kind f n) as [[]|]; try (apply shrunk_refl; reflexivity).
  intros n' s'. unfold collect_cleanup, progress. cbn -[cleanup_inputs emap_set].
  destruct (Nat.eqb_spec n' n) as [->|]; [|left; reflexivity].
  destruct (Nat.eq_dec s' s) as [->|]; [rewrite emap_set_eq; auto|rewrite emap_set_neq by assumption; auto].
Qed.

Lemma clean_all_shrunk f s : forall l o, shrunk o (fold_left (clean_node f s) l o).
Proof.
  induction l as [|n l IH]; intros o; cbn [fold_left]; [apply shrunk_refl; reflexivity|].
  apply (shrunk_trans _ _ _ (clean_node_shrunk f s o n)), IH.
Qed.

Lemma finish_shrunk f s e x : shrunk (x_o x) (x_o (finish f s e x)).
Proof.
  unfold finish. destruct (existsb (Nat.eqb s) (x_ongoing x)); [|apply shrunk_refl; reflexivity].
  intros n' s'. pose proof (clean_all_shrunk f s (f_nodes f) (x_o x) n' s') as H.
  destruct e; exact H.
Qed.

Lemma shrunk_in o o' n s w : shrunk o o' -> In w (progress o' n s) -> In w (progress o n s).
Proof. intros H. destruct (H n s) as [->| ->]; [auto|intros []]. Qed.

Lemma shrunk_length o o' n s : shrunk o o' -> length (progress o' n s) <= length (progress o n s).
Proof. intros H. destruct (H n s) as [->| ->]; cbn; lia. Qed.

Lemma traced_finish f E x s e : built f -> base f x -> traced f E x -> In s (x_ongoing x) ->
  explained f E (x_log x) e -> (forall s', ends s' e = Nat.eqb s s') -> (forall a v, e <> EStart a v) ->
  traced f E (finish f s e x).
Proof.
  intros Hb B T Hin He Hse Hns.
  destruct (finish_effect f s e x Hb (b_shaped _ _ B) Hin) as [F1 [F2 [F3 [F4 [F5 [F6 F7]]]]]].
  pose proof (finish_shrunk f s e x) as Fs. cbn zeta in *. remember (finish f s e x) as x' eqn:Ex. clear Ex.
  assert (Hp : forall s' w n, In (s', w) (pending (o_w (x_o x')) n) -> In (s', w) (pending (o_w (x_o x)) n)).
  { intros s' w n H. rewrite F2 in H. destruct (Nat.eqb n (f_terminal f) && is_out e); [exact H|].
    apply others_in in H. apply H. }
  assert (Hg : forall a, In a (x_log x) -> In a (x_log x')) by (intros a H; rewrite F7; apply in_or_app; auto).
  assert (Hst : forall s v, In (EStart s v) (x_log x') -> In (EStart s v) (x_log x)).
  { intros s' v H. rewrite F7 in H. apply in_app_or in H. destruct H as [H|[H|[]]]; [exact H|]. exfalso. eapply Hns, H. }
  split.
  - intros s' v v' H1 H2. exact (t_once _ _ _ T s' v v' (Hst _ _ H1) (Hst _ _ H2)).
  - intros s' w m H. apply (of_session_grow f _ _ Hg), (t_pend _ _ _ T), Hp, H.
  - intros m s' w H. apply (of_session_grow f _ _ Hg), (t_coll _ _ _ T), (shrunk_in _ _ _ _ _ Fs H).
  - intros n s' min m t Hk. pose proof (t_room _ _ _ T n s' min m t Hk). pose proof (shrunk_length _ _ n s' Fs). lia.
  - intros s' w H Hs. rewrite F5, filter_not_in in Hs. destruct (Nat.eq_dec s' s) as [->|Hne].
    + rewrite F2, Nat.eqb_refl in H. cbn [andb] in H. destruct e; cbn [is_out] in H; try (apply others_in in H; cbn in H; tauto).
      specialize (Hse s). cbn in Hse. rewrite Nat.eqb_refl in Hse. apply Nat.eqb_eq in Hse. subst.
      exists v. rewrite F7. apply in_or_app. right. left. reflexivity.
    + destruct (t_late _ _ _ T s' w (Hp _ _ _ H)) as [r Hr]; [tauto|]. eauto.
  - intros c s' H Hs. rewrite F4 in H. apply (why_grow f E _ _ Hg), (t_asked _ _ _ T _ _ H Hs).
  - intros c H Hs. rewrite F4 in H. destruct (t_all _ _ _ T _ H Hs) as [H1 [m H2]]. eauto.
  - intros a H. apply (explained_grow f E _ _ Hg). rewrite F7 in H. apply in_app_or in H. destruct H as [H|[<-|[]]].
    + apply (t_log _ _ _ T), H.
    + exact He.
  - rewrite F6. apply (t_init _ _ _ T).
Qed.

Lemma wholes_finish f x s e : built f -> base f x -> (forall a v, e <> EStart a v) ->
  (collect_free f -> forall s' v, In s' (x_ongoing x) -> s' <> s -> In (EStart s' v) (x_log x) -> whole f (x_o x) s' v) ->
  wholes f (finish f s e x).
Proof.
  intros Hb B Hns W Hc s' v Hs' Hv. apply ongoing_finish in Hs'. destruct Hs' as [Hs' Hne].
  destruct (in_dec Nat.eq_dec s (x_ongoing x)) as [Hin|Hin]; [|rewrite finish_other in *; auto].
  destruct (finish_effect f s e x Hb (b_shaped _ _ B) Hin) as [F1 [F2 [F3 [F4 [F5 [F6 F7]]]]]]. cbn zeta in *.
  assert (Hv' : In (EStart s' v) (x_log x)).
  { rewrite F7 in Hv. apply in_app_or in Hv. destruct Hv as [H|[H|[]]]; [exact H|]. exfalso. eapply Hns, H. }
  intros r Hr. destruct (W Hc s' v Hs' Hne Hv' r Hr) as [n [w [H1 H2]]]. exists n, w. split; [|exact H2].
  rewrite F2. destruct (Nat.eqb n (f_terminal f) && is_out e); [exact H1|]. apply others_in. auto.
Qed.

(** ** Execution of a node *)
Lemma did_pending f o o' n rest s v more ms ns cs s' w m :
  pending (o_w o) n = (s, v) :: more -> did f (popped o rest) o' n s ms ns cs ->
  In (s', w) (pending (o_w o') m) -> In (s', w) (pending (o_w o) m) \/ (s' = s /\ In (m, w) ms).
Proof.
  intros Hp D H. rewrite (di_pending _ _ _ _ _ _ _ _ D) in H. apply in_app_or in H. destruct H as [H|H].
  - left. exact (after_take_in _ _ _ _ H).
  - right. apply in_map_iff in H. destruct H as [v' [E H]]. injection E as <- <-. split; [reflexivity|].
    apply sent_in, live_in in H. apply H.
Qed.

Lemma did_keeps f o o' n rest s v more ms ns cs s' w m :
  pending (o_w o) n = (s, v) :: more -> did f (popped o rest) o' n s ms ns cs ->
  In (s', w) (pending (o_w o) m) -> In (s', w) (pending (o_w o') m) \/ (s' = s /\ m = n /\ w = v).
Proof.
  intros Hp D H. rewrite (di_pending _ _ _ _ _ _ _ _ D). unfold after_take.
  change (pending (o_w (popped o rest)) m) with (pending (o_w o) m).
  destruct (Nat.eqb_spec m n) as [->|]; [|left; apply in_or_app; auto].
  rewrite Hp in H |- *. destruct H as [H|H]; [|left; apply in_or_app; auto].
  injection H as <- <-. auto.
Qed.

Lemma whole_did f o o' n rest s v more ms ns cs s' v0 :
  pending (o_w o) n = (s, v) :: more -> did f (popped o rest) o' n s ms ns cs ->
  (s' = s -> forall r, occurs f n v (f_terminal f) r -> exists m w, In (m, w) (live f ms) /\ occurs f m w (f_terminal f) r) ->
  whole f o s' v0 -> whole f o' s' v0.
Proof.
  intros Hp D Hn W r Hr. destruct (W r Hr) as [m [w [H1 H2]]].
  destruct (did_keeps _ _ _ _ _ _ _ _ _ _ _ _ _ _ Hp D H1) as [H|[-> [-> ->]]]; [eauto|].
  destruct (Hn eq_refl r H2) as [m [w [H3 H4]]]. exists m, w. split; [|exact H4].
  rewrite (di_pending _ _ _ _ _ _ _ _ D). apply in_or_app. right. apply in_map, sent_in, H3.
Qed.

Lemma pulled_pending f o o' n rest m : pending (o_w o) n = [] -> pulled f (popped o rest) o' n ->
  pending (o_w o') m = pending (o_w o) m.
Proof.
  intros Hp P. rewrite (pu_pending _ _ _ _ P). unfold after_take.
  change (pending (o_w (popped o rest)) m) with (pending (o_w o) m).
  destruct (Nat.eqb_spec m n) as [->|]; [rewrite Hp|]; reflexivity.
Qed.

Lemma within_batch f n min max t l : built f -> f_kind f n = Some (OCollect min max t) ->
  (forall m, max = Some m -> length l <= m) ->
  (exists m, max = Some m /\ m <= length l) \/ min <= length l -> within min max l.
Proof.
  intros Hb Hk H1 H2.
  pose proof (proj2 (proj2 (proj2 (proj2 (proj2 (proj2 (proj2 Hb)))))) n min max t Hk) as Hs. unfold collect_setup_ok in Hs.
  unfold within. destruct max as [m|].
  - apply andb_prop in Hs. destruct Hs as [_ Hs]. apply Nat.leb_le in Hs. specialize (H1 m eq_refl).
    split; [|exact H1]. destruct H2 as [[m' [E H2]]|H2]; [injection E as <-; lia|exact H2].
  - split; [|exact I]. destruct H2 as [[m' [E _]]|H2]; [discriminate|exact H2].
Qed.

Lemma traced_exec f E x : built f -> base f x -> traced f E x -> wholes f x ->
  traced f E (exec f x) /\ wholes f (exec f x).
Proof.
  intros Hb B T W. destruct (queue (x_o x)) as [|n rest] eqn:Hq.
  { unfold exec. rewrite Hq. auto. }
  assert (Hstay : forall o', o_coll o' = o_coll (x_o x) ->
    (forall n s w, In w (progress o' n s) -> In w (progress (x_o x) n s) \/ of_session f (x_log x) s n w) /\
    (forall n s min m t, f_kind f n = Some (OCollect min (Some m) t) -> length (progress o' n s) < m)).
  { intros o' Eo. unfold progress. rewrite Eo. split; [auto|exact (t_room _ _ _ T)]. }
  destruct (exec_executed f x n rest Hb B Hq) as
    [o' Hp P|o' Hp Hk P|o' k s v more ms dropped ns Hk Hr Hp Hs D F Hd K|o' k s v more c Hk Hr Hp Hs D Hc K
    |o' k s v more Hk Hr Hp Hs D K|o' min max t s v more Hk Hp Hs Hcol|o' s v more Hn Hp Hs P|o' s v more Hn Hp Hs P].
  - destruct (Hstay o' (pu_coll _ _ _ _ P)) as [S1 S2]. split.
    + apply traced_set; auto.
      * intros s w m H. left. rewrite (pulled_pending _ _ _ _ _ m Hp P) in H. exact H.
      * intros c H. left. rewrite (pu_roster _ _ _ _ P) in H. exact H.
    + intros Hc s v Hs Hv r Hr. destruct (W Hc s v Hs Hv r Hr) as [m [w [H1 H2]]]. exists m, w.
      split; [|exact H2]. cbn [set_o x_o]. rewrite (pulled_pending _ _ _ _ _ m Hp P). exact H1.
  - destruct (Hstay o' (pu_coll _ _ _ _ P)) as [S1 S2]. split.
    + apply traced_broken; [|left; exact Hk]. apply traced_set; auto.
      * intros s w m H. left. rewrite (pulled_pending _ _ _ _ _ m Hp P) in H. exact H.
      * intros c H. left. rewrite (pu_roster _ _ _ _ P) in H. exact H.
    + apply wholes_broken. intros Hc s v Hs Hv r Hr. destruct (W Hc s v Hs Hv r Hr) as [m [w [H1 H2]]]. exists m, w.
      split; [|exact H2]. cbn [set_o x_o]. rewrite (pulled_pending _ _ _ _ _ m Hp P). exact H1.
  - destruct (Hstay o' K) as [S1 S2]. pose proof (sends_not_terminal f n k v ms dropped Hb Hk Hr) as Hnt.
    destruct (t_pend _ _ _ T s v n) as [v0 [Hv0 Ho]]; [rewrite Hp; left; reflexivity|]. split.
    + apply traced_set; auto.
      * intros s' w m H. destruct (did_pending _ _ _ _ _ _ _ _ _ _ _ _ _ _ Hp D H) as [H1|[-> H1]]; [auto|].
        right. split; [|exact Hs]. exists v0. split; [exact Hv0|]. exact (O_sent _ _ _ _ _ _ _ _ _ _ Ho Hk Hr H1).
      * intros c H. left. rewrite (di_asked _ _ _ _ _ _ _ _ D), app_nil_r in H. exact H.
    + intros Hc s' v' Hs' Hv'. apply (whole_did _ _ _ _ _ _ _ _ _ _ _ _ _ Hp D); [|apply (W Hc); assumption].
      intros -> r Hocc. destruct (occurs_first f n v _ r Hc Hocc) as [[H _]|[k' [ms' [d' [t [w [K' [R' [I O]]]]]]]]]; [congruence|].
      rewrite Hk in K'. injection K' as <-. rewrite Hr in R'. injection R' as <- <-. exists t, w. split; [|exact O].
      apply live_in. split; [exact I|]. apply (leads_used f t Hb). exact (occurs_leads f t w _ r Hc O (L_here f)).
  - destruct (Hstay o' K) as [S1 S2].
    destruct (t_pend _ _ _ T s v n) as [v0 [Hv0 Ho]]; [rewrite Hp; left; reflexivity|]. split.
    + apply traced_set; auto.
      * intros s' w m H. destruct (did_pending _ _ _ _ _ _ _ _ _ _ _ _ _ _ Hp D H) as [H1|[_ []]]; auto.
      * intros c' H. rewrite (di_asked _ _ _ _ _ _ _ _ D) in H. apply in_app_or in H. destruct H as [H|[<-|[]]]; [auto|].
        right. exists s. split; [reflexivity|]. cbn. apply (W_node f E _ s c v0 n Hc Hv0). exists k, v. auto.
    + intros Hcf s' v' Hs' Hv'. apply (whole_did _ _ _ _ _ _ _ _ _ _ _ _ _ Hp D); [|apply (W Hcf); assumption].
      intros -> r Hocc. exfalso.
      destruct (occurs_first f n v _ r Hcf Hocc) as [[H _]|[k' [ms' [d' [t [w [K' [R' _]]]]]]]]; [|congruence].
      subst n. rewrite (proj2 (proj1 (proj2 (proj2 (proj2 (proj2 Hb)))) _) eq_refl) in Hk. injection Hk as <-. discriminate.
  - destruct (Hstay o' K) as [S1 S2].
    destruct (t_pend _ _ _ T s v n) as [v0 [Hv0 Ho]]; [rewrite Hp; left; reflexivity|]. split.
    + apply traced_broken; [|right; left; exists s, v0; split; [exact Hv0|]; exists k, v; auto]. apply traced_set; auto.
      * intros s' w m H. destruct (did_pending _ _ _ _ _ _ _ _ _ _ _ _ _ _ Hp D H) as [H1|[_ []]]; auto.
      * intros c H. left. rewrite (di_asked _ _ _ _ _ _ _ _ D), app_nil_r in H. exact H.
    + apply wholes_broken. intros Hcf s' v' Hs' Hv'.
      apply (whole_did _ _ _ _ _ _ _ _ _ _ _ _ _ Hp D); [|apply (W Hcf); assumption].
      intros -> r Hocc. exfalso.
      destruct (occurs_first f n v _ r Hcf Hocc) as [[H _]|[k' [ms' [d' [t [w [K' [R' _]]]]]]]]; [|congruence].
      subst n. rewrite (proj2 (proj1 (proj2 (proj2 (proj2 (proj2 Hb)))) _) eq_refl) in Hk. injection Hk as <-. discriminate.
  - split.
    2:{ intros Hcf. exfalso. specialize (Hcf n). unfold is_collect in Hcf. rewrite Hk in Hcf. discriminate. }
    destruct (t_pend _ _ _ T s v n) as [v0 [Hv0 Ho]]; [rewrite Hp; left; reflexivity|].
    assert (Hl : forall w, In w (progress (popped (x_o x) rest) n s ++ [v]) -> occurs f (f_entry f) v0 n w).
    { intros w H. apply in_app_or in H. destruct H as [H|[<-|[]]]; [|exact Ho].
      destruct (t_coll _ _ _ T n s w H) as [v1 [Hv1 H1]]. rewrite (t_once _ _ _ T s v0 v1 Hv0 Hv1). exact H1. }
    pose proof (fun m => t_room _ _ _ T n s min m t) as Hroom.
    unfold collected in Hcol. cbn zeta in Hcol.
    remember (progress (popped (x_o x) rest) n s ++ [v]) as l eqn:El.
    assert (Hlen : forall m, max = Some m -> length l <= m).
    { intros m ->. specialize (Hroom m Hk). rewrite El, app_length. cbn.
      change (progress (popped (x_o x) rest) n s) with (progress (x_o x) n s). lia. }
    destruct Hcol as [[D [G Hbnd]]|[G [Hmax Hcol]]].
    + apply traced_set; auto.
      * intros s' w m H. destruct (did_pending _ _ _ _ _ _ _ _ _ _ _ _ _ _ Hp D H) as [H1|[-> [H1|[]]]]; [auto|].
        injection H1 as <- <-. right. split; [|exact Hs]. exists v0. split; [exact Hv0|].
        apply (O_batch f _ _ n min max t l Hk Hl). exact (within_batch f n min max t l Hb Hk Hlen Hbnd).
      * intros n' s' w H. rewrite G in H. destruct (Nat.eqb n' n && Nat.eqb s' s); [destruct H|auto].
      * intros n' s' min' m t' Hk'. rewrite G. destruct (Nat.eqb n' n && Nat.eqb s' s).
        -- pose proof (t_room _ _ _ T n' s' min' m t' Hk'). cbn. lia.
        -- exact (t_room _ _ _ T n' s' min' m t' Hk').
      * intros c H. left. rewrite (di_asked _ _ _ _ _ _ _ _ D), app_nil_r in H. exact H.
    + assert (Hall : exists ns, did f (popped (x_o x) rest) o' n s [] ns []) by (destruct Hcol as [D|[D _]]; eauto).
      clear Hcol. destruct Hall as [ns D]. apply traced_set; auto.
      * intros s' w m H. destruct (did_pending _ _ _ _ _ _ _ _ _ _ _ _ _ _ Hp D H) as [H1|[_ []]]; auto.
      * intros n' s' w H. rewrite G in H. destruct (Nat.eqb_spec n' n) as [En|]; [|auto].
        destruct (Nat.eqb_spec s' s) as [Es|]; [|auto]. cbn in H. subst n' s'. right. exists v0. auto.
      * intros n' s' min' m t' Hk'. rewrite G. destruct (Nat.eqb_spec n' n) as [En|]; [|exact (t_room _ _ _ T n' s' min' m t' Hk')].
        destruct (Nat.eqb_spec s' s) as [Es|]; [|exact (t_room _ _ _ T n' s' min' m t' Hk')].
        cbn. subst n' s'. rewrite Hk in Hk'. injection Hk' as <- -> <-. auto.
      * intros c H. left. rewrite (di_asked _ _ _ _ _ _ _ _ D), app_nil_r in H. exact H.
  - destruct (Hstay o' (pu_coll _ _ _ _ P)) as [S1 S2]. pose proof (pulled_did _ _ _ _ s P) as D.
    pose proof (did_base _ _ _ _ _ _ _ _ _ _ _ B Hq Hp Hs D) as B1. split.
    + apply traced_finish; auto; [| |discriminate].
      * apply traced_set; auto.
        -- intros s' w m H. destruct (did_pending _ _ _ _ _ _ _ _ _ _ _ _ _ _ Hp D H) as [H1|[_ []]]; auto.
        -- intros c H. left. rewrite (di_asked _ _ _ _ _ _ _ _ D), app_nil_r in H. exact H.
      * cbn. subst n. apply (t_pend _ _ _ T). rewrite Hp. left. reflexivity.
    + apply wholes_finish; [exact Hb|exact B1|discriminate|]. intros Hc s' v' Hs' Hne Hv'.
      apply (whole_did _ _ _ _ _ _ _ _ _ _ _ _ _ Hp D); [congruence|apply (W Hc); assumption].
  - destruct (Hstay o' (pu_coll _ _ _ _ P)) as [S1 S2]. pose proof (pulled_did _ _ _ _ s P) as D. split.
    + destruct (t_pend _ _ _ T s v n) as [v0 [Hv0 Ho]]; [rewrite Hp; left; reflexivity|].
      destruct (t_late _ _ _ T s v) as [r Hr]; [subst n; rewrite Hp; left; reflexivity|exact Hs|].
      apply traced_broken; [|right; right; split; [exact Hn|]; exists s, v0, r, v; auto].
      apply traced_set; auto.
      * intros s' w m H. destruct (did_pending _ _ _ _ _ _ _ _ _ _ _ _ _ _ Hp D H) as [H1|[_ []]]; auto.
      * intros c H. left. rewrite (di_asked _ _ _ _ _ _ _ _ D), app_nil_r in H. exact H.
    + apply wholes_broken. intros Hc s' v' Hs' Hv'. cbn [set_o x_ongoing] in Hs'.
      apply (whole_did _ _ _ _ _ _ _ _ _ _ _ _ _ Hp D); [congruence|apply (W Hc); assumption].
Qed.
