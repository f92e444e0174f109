(** A flush starts no sessions and cancels none from outside; what was started stays so. *)
From Verif Require Import Base RosterModel BufferModel InputModel InputSpec InputProofs GateModel
  OpsModel OpsSpec OpsProofs ReachModel ReachSpec ReachProofs ExecModel ExecSpec ExecProofs ExecProofs2 ExecProofs3
  ExecProofs4 ExecProofs5 ExecProps RestProofs.

Definition inner (a : xact) : Prop := match a with XExec | XDoCancel | XNotice => True | _ => False end.

Lemma garbage_inner f : forall fuel x, exists acts, Forall inner acts /\ garbage fuel f x = xrun f acts x.
Proof.
  induction fuel as [|fuel IH]; intros x; cbn [garbage]; [exists []; split; [constructor|reflexivity]|].
  destruct (asked (x_o x)); [exists []; split; [constructor|reflexivity]|].
  destruct (IH (do_cancel f x)) as [acts [F E]]. exists (XDoCancel :: acts). split; [constructor; [exact Logic.I|exact F]|exact E].
Qed.

Lemma flush_inner f : forall fuel x, exists acts, Forall inner acts /\ flush fuel f x = xrun f acts x.
Proof.
  induction fuel as [|fuel IH]; intros x; cbn [flush]; [exists []; split; [constructor|reflexivity]|].
  destruct (queue (x_o x)).
  - destruct (told (x_o x)); [apply garbage_inner|].
    destruct (garbage_inner f (length (asked (x_o (notice f x)))) (notice f x)) as [a1 [F1 E1]].
    destruct (IH (collect_garbage f (notice f x))) as [a2 [F2 E2]]. exists (XNotice :: a1 ++ a2). split.
    + constructor; [exact Logic.I|]. apply Forall_app. auto.
    + rewrite E2. unfold collect_garbage at 1. rewrite E1. cbn. rewrite <- xrun_app. reflexivity.
  - destruct (garbage_inner f (length (asked (x_o (exec f x)))) (exec f x)) as [a1 [F1 E1]].
    destruct (IH (collect_garbage f (exec f x))) as [a2 [F2 E2]]. exists (XExec :: a1 ++ a2). split.
    + constructor; [exact Logic.I|]. apply Forall_app. auto.
    + rewrite E2. unfold collect_garbage at 1. rewrite E1. cbn. rewrite <- xrun_app. reflexivity.
Qed.

Lemma inner_start acts a s v : Forall inner a -> In (XStart s v) (acts ++ a) -> In (XStart s v) acts.
Proof. intros F Hin. apply in_app_or in Hin. destruct Hin as [H|H]; [exact H|]. rewrite Forall_forall in F. destruct (F _ H). Qed.
Lemma inner_cancel acts a s : Forall inner a -> In (XCancel s) (acts ++ a) -> In (XCancel s) acts.
Proof. intros F Hin. apply in_app_or in Hin. destruct Hin as [H|H]; [exact H|]. rewrite Forall_forall in F. destruct (F _ H). Qed.

(** ** The log only grows *)
Definition grown (x x' : xworld) : Prop := exists l, x_log x' = x_log x ++ l.
Lemma grown_refl x : grown x x.
Proof. exists []. symmetry. apply app_nil_r. Qed.
Lemma grown_trans a b c : grown a b -> grown b c -> grown a c.
Proof. intros [l E] [l' E']. exists (l ++ l'). now rewrite E', E, app_assoc. Qed.
Lemma grown_finish f s e x : built f -> shaped f (x_o x) -> grown x (finish f s e x) .
Proof.
  intros Hb S. destruct (in_dec Nat.eq_dec s (x_ongoing x)) as [Hin|Hn].
  - destruct (finish_effect f s e x Hb S Hin) as (_ & _ & _ & _ & _ & _ & E). exists [e]. exact E.
  - rewrite (finish_other f s e x Hn). apply grown_refl.
Qed.
Lemma grown_in x x' e : grown x x' -> In e (x_log x) -> In e (x_log x').
Proof. intros [l ->] H. apply in_or_app. auto. Qed.

Lemma validate_grown f origin s x : built f -> collect_free f -> shaped f (x_o x) -> grown x (fst (validate f origin s x)).
Proof.
  intros Hb Hf S. unfold validate. rewrite (listeners_free f Hf).
  assert (E : set_o x (x_o x) = x) by (destruct x; reflexivity). rewrite E.
  destruct (check_reachability _ _ _); cbn [fst]; try apply grown_refl. apply grown_finish; assumption.
Qed.

Lemma step_grown f a x : built f -> collect_free f -> base f x -> grown x (xstep f x a).
Proof.
  intros Hb Hf Bs. pose proof (b_shaped _ _ Bs) as S. destruct a as [s v| | | |s]; cbn [xstep].
  - unfold start. destruct (known s (x_log x)); [apply grown_refl|].
    match goal with |- context [o_give ?o _ _ _] => set (o1 := o) end.
    assert (Hs1 : w_status (o_w o1) s = Some Active) by (cbn -[emap_set]; apply emap_set_eq).
    assert (He : f_kind f (f_entry f) <> None) by (apply (proj1 (proj2 Hb)), Hb).
    destruct (give_change f o1 (f_entry f) s v S Hs1 He) as [o2 [-> [C _]]].
    set (x1 := mk_x o2 (x_ongoing x ++ [s]) (x_initial x) (x_log x ++ [EStart s v])).
    assert (S1 : shaped f (x_o x1)) by exact (ch_shaped _ _ _ _ _ _ _ C).
    assert (G1 : grown x x1) by (exists [EStart s v]; reflexivity).
    destruct (x_initial x) as [[| |]|].
    + exact G1.
    + exact (grown_trans _ _ _ G1 (validate_grown f _ _ _ Hb Hf S1)).
    + exact (grown_trans _ _ _ G1 (grown_finish f _ _ _ Hb S1)).
    + destruct (circular f (f_nodes f)).
      * match goal with |- grown x (finish f s ?e ?y) => pose proof (grown_finish f s e y Hb S1) as G2 end.
        eapply grown_trans; [|exact G2]. exists [EStart s v]. reflexivity.
      * pose proof (validate_grown f (f_scope f) s x1 Hb Hf S1) as G2. destruct (validate f (f_scope f) s x1) as [x2 [b|]]; cbn [fst] in G2.
        -- destruct (grown_trans _ _ _ G1 G2) as [l El]. exists l. destruct b; exact El.
        -- exact (grown_trans _ _ _ G1 G2).
  - destruct (queue (x_o x)) as [|n rest] eqn:Hq; [unfold exec; rewrite Hq; apply grown_refl|].
    destruct (exec_executed f x n rest Hb Bs Hq) as
    [o' Hp P|o' Hp Hk P|o' k s v more ms dropped ns Hk Hr Hp Hs D F Hd K|o' k s v more c Hk Hr Hp Hs D Hc K
    |o' k s v more Hk Hr Hp Hs D K|o' min max t s v more Hk Hp Hs Hcol|o' s v more Hn Hp Hs P|o' s v more Hn Hp Hs P];
    try (exists []; symmetry; apply app_nil_r); try (eexists; reflexivity).
    pose proof (grown_finish f s (EOut s v) (set_o x o') Hb (pu_shaped _ _ _ _ P)) as [l El]. exists l. exact El.
  - unfold do_cancel. destruct (asked (x_o x)) as [|c rest]; [apply grown_refl|].
    match goal with |- context [set_o x ?o] => set (x0 := set_o x o) end.
    assert (S0 : shaped f (x_o x0)) by exact S. assert (G0 : grown x x0) by (exists []; symmetry; apply app_nil_r).
    destruct (Nat.eqb (c_target c) (f_scope f)); [|exact G0].
    destruct (c_session c).
    + exact (grown_trans _ _ _ G0 (grown_finish f _ _ _ Hb S0)).
    + apply (grown_trans _ _ _ G0). clear G0. clearbody x0. clear -Hb S0. unfold finish_all. generalize (x_ongoing x0) as l. intros l. revert x0 S0.
      induction l as [|s l IH]; intros x0 S0; cbn [fold_left]; [apply grown_refl|].
      eapply grown_trans; [exact (grown_finish f s (ECancelled s (c_cause c)) x0 Hb S0)|]. apply IH.
      exact (l_shaped _ _ _ (finish_less f Hb s (ECancelled s (c_cause c)) x0 S0)).
  - unfold notice. destruct (pop_last (told (x_o x))) as [r [d|]]; [|apply grown_refl].
    match goal with |- context [set_o x ?o] => set (x0 := set_o x o) end.
    assert (S0 : shaped f (x_o x0)) by exact S. assert (G0 : grown x x0) by (exists []; symmetry; apply app_nil_r).
    destruct (Nat.eqb _ _); [|exact G0]. exact (grown_trans _ _ _ G0 (validate_grown f _ _ _ Hb Hf S0)).
  - exists []. symmetry. apply app_nil_r.
Qed.

Lemma run_grown f a b : built f -> collect_free f -> grown (xrun f a (fresh f)) (xrun f (a ++ b) (fresh f)).
Proof.
  intros Hb Hf. induction b as [|x b IH] using rev_ind; [rewrite app_nil_r; apply grown_refl|].
  rewrite app_assoc, (xrun_app f (a ++ b) [x]). eapply grown_trans; [exact IH|]. apply step_grown; auto.
  exact (proj1 (run_sound f (a ++ b) Hb)).
Qed.

(** Whoever asks for a session has one. *)
Lemma start_known f s v x : built f -> collect_free f -> base f x -> exists u, started (start f s v x) s u.
Proof.
  intros Hb Hf Bs. destruct (known s (x_log x)) eqn:K.
  - unfold start. rewrite K. unfold known in K. apply existsb_exists in K. destruct K as (e & Hin & E). destruct e; try discriminate.
    apply Nat.eqb_eq in E. subst. eexists. exact Hin.
  - exists v. pose proof (b_shaped _ _ Bs) as S. unfold start. rewrite K.
    match goal with |- context [o_give ?o _ _ _] => set (o1 := o) end.
    assert (Hs1 : w_status (o_w o1) s = Some Active) by (cbn -[emap_set]; apply emap_set_eq).
    assert (He : f_kind f (f_entry f) <> None) by (apply (proj1 (proj2 Hb)), Hb).
    destruct (give_change f o1 (f_entry f) s v S Hs1 He) as [o2 [-> [C _]]].
    set (x1 := mk_x o2 (x_ongoing x ++ [s]) (x_initial x) (x_log x ++ [EStart s v])).
    assert (S1 : shaped f (x_o x1)) by exact (ch_shaped _ _ _ _ _ _ _ C).
    assert (G1 : In (EStart s v) (x_log x1)) by (apply in_or_app; right; left; reflexivity).
    unfold started. destruct (x_initial x) as [[| |]|].
    + exact G1.
    + exact (grown_in _ _ _ (validate_grown f _ _ _ Hb Hf S1) G1).
    + exact (grown_in _ _ _ (grown_finish f _ _ _ Hb S1) G1).
    + destruct (circular f (f_nodes f)).
      * match goal with |- In _ (x_log (finish f s ?e ?y)) => exact (grown_in _ _ _ (grown_finish f s e y Hb S1) G1) end.
      * pose proof (validate_grown f (f_scope f) s x1 Hb Hf S1) as G2. destruct (validate f (f_scope f) s x1) as [x2 [b|]]; cbn [fst] in G2.
        -- destruct b; exact (grown_in _ _ _ G2 G1).
        -- exact (grown_in _ _ _ G2 G1).
Qed.

Lemma run_started f acts s v : built f -> collect_free f -> In (XStart s v) acts ->
  exists u, started (xrun f acts (fresh f)) s u.
Proof.
  intros Hb Hf Hin. apply in_split in Hin. destruct Hin as (a & b & ->).
  replace (a ++ XStart s v :: b) with ((a ++ [XStart s v]) ++ b) by (rewrite <- app_assoc; reflexivity).
  destruct (start_known f s v (xrun f a (fresh f)) Hb Hf (proj1 (run_sound f a Hb))) as [u Hu].
  exists u. apply (grown_in _ _ _ (run_grown f (a ++ [XStart s v]) b Hb Hf)). rewrite xrun_app. exact Hu.
Qed.
