(** Every operation of a diagram is built once. *)
From Verif Require Import Base DiagramModel DiagramSpec DiagramSpec2.

Definition key (u : unf) : list nat * nat := (u_ns u, u_id u).
Definition bk (e : entry) : list (list nat * nat) := match e with LBuilt u _ _ _ => [key u] | _ => [] end.
Notation bkeys log := (flat_map bk log).

(** Nothing was built and nothing is new to be built. *)
Definition quiet (c c' : con) : Prop := bkeys (c_log c') = bkeys (c_log c) /\ c_gen c' = c_gen c.

Lemma quiet_refl c : quiet c c.
Proof. split; reflexivity. Qed.

Lemma quiet_trans c1 c2 c3 : quiet c1 c2 -> quiet c2 c3 -> quiet c1 c3.
Proof. intros [A B] [C D]. split; congruence. Qed.

Lemma quiet_note e c : bk e = [] -> quiet c (note e c).
Proof. intros E. split; [|reflexivity]. cbn [note set_log c_log]. rewrite flat_map_app. cbn [flat_map]. rewrite E. rewrite !app_nil_r. reflexivity. Qed.

Lemma quiet_same c c' : c_log c' = c_log c -> c_gen c' = c_gen c -> quiet c c'.
Proof. intros A B. split; congruence. Qed.

Lemma quiet_pass r o c : quiet c (pass_output r o c).
Proof. eapply quiet_trans; [|apply quiet_note; reflexivity]. apply quiet_same; reflexivity. Qed.

Lemma quiet_add ns r o c : quiet c (add_output ns r o c).
Proof. eapply quiet_trans; [|apply quiet_note; reflexivity]. apply quiet_same; reflexivity. Qed.

Lemma quiet_adds ns os : forall c, quiet c (add_outputs ns os c).
Proof. induction os as [|[t o] os IH]; intros c; cbn [add_outputs]; [apply quiet_refl|]. eapply quiet_trans; [apply quiet_add|apply IH]. Qed.

Lemma quiet_connect o s c c' : connect_to o s c = inl c' -> quiet c c'.
Proof. unfold connect_to. destruct (_ =? _); [|discriminate]. intros [= <-]. apply quiet_note. reflexivity. Qed.

Lemma quiet_set_conn r k sc c c' : set_conn r k sc c = inl c' -> quiet c c'.
Proof. unfold set_conn. destruct (look _ _); [discriminate|]. intros [= <-]. apply quiet_same; reflexivity. Qed.

Lemma quiet_set_input g ns r s sc c c' : set_input g ns r s sc c = inl c' -> quiet c c'.
Proof.
  unfold set_input. destruct (set_conn _ _ sc c) as [c1|] eqn:E; [|discriminate]. intros [= <-].
  eapply quiet_trans; [apply (quiet_set_conn _ _ _ _ _ E)|]. apply quiet_note. reflexivity.
Qed.

Lemma quiet_set_buffer g ns r s sc c c' : set_buffer g ns r s sc c = inl c' -> quiet c c'.
Proof.
  unfold set_buffer. destruct (set_input g ns r s sc c) as [c1|] eqn:E; [|discriminate]. cbn beta iota.
  destruct (look (c_bufs c1) (in_ns ns r)); [discriminate|]. intros [= <-].
  eapply quiet_trans; [apply (quiet_set_input _ _ _ _ _ _ _ E)|]. apply quiet_same; reflexivity.
Qed.

Section Connect.
Variable g : registry.
Variable imp : opref.

Lemma quiet_fallible k tin tout sc c c' x : new_fallible k tin tout sc c = (c', x) -> quiet c c'.
Proof. unfold new_fallible. cbn [spawn_slot spawn_output spawn]. intros [= <- _]. eapply quiet_trans; [|apply quiet_note; reflexivity]. apply quiet_same; reflexivity. Qed.

Lemma quiet_plain k tin tout sc c c' x : new_plain k tin tout sc c = (c', x) -> quiet c c'.
Proof. unfold new_plain. cbn [spawn_slot spawn_output spawn]. intros [= <- _]. eapply quiet_trans; [|apply quiet_note; reflexivity]. apply quiet_same; reflexivity. Qed.

Lemma quiet_ser sc s inc o c c' x : try_serialize g imp sc s inc o c = inl (c', x) -> quiet c c'.
Proof.
  unfold try_serialize. destruct (o_ty o =? TJson).
  { destruct (connect_to o s c) as [c1|] eqn:E; [|discriminate]. intros [= <- _]. eapply quiet_connect; eauto. }
  destruct (find (o_ty o) inc) as [i|].
  { destruct (connect_to o i c) as [c1|] eqn:E; [|discriminate]. intros [= <- _]. eapply quiet_connect; eauto. }
  destruct (r_ser g (o_ty o)); [|intros [= <- _]; apply quiet_refl].
  destruct (new_fallible _ _ _ _ c) as [c1 [[i ok] er]] eqn:E1. apply quiet_fallible in E1.
  destruct (connect_to ok s _) as [c2|] eqn:E2; [|discriminate]. apply quiet_connect in E2. cbn beta iota.
  destruct (connect_to o _ _) as [c4|] eqn:E4; [|discriminate]. apply quiet_connect in E4. intros [= <- _].
  eapply quiet_trans; [exact E1|]. eapply quiet_trans; [exact E2|]. eapply quiet_trans; [apply quiet_pass|exact E4].
Qed.

Lemma quiet_std sc x o c c' x' : std_connect g imp sc x o c = inl (c', x') -> quiet c c'.
Proof.
  destruct x as [s inc|s ser|s]; cbn [std_connect].
  - destruct (try_serialize g imp sc s inc o c) as [[c1 [inc'|]]|] eqn:E; cbn beta iota; try discriminate. intros [= <- <-]. eapply quiet_ser; eauto.
  - unfold deserialize. destruct (o_ty o =? s_ty s).
    { destruct (connect_to o s c) as [c1|] eqn:E; [|discriminate]. intros [= <- _]. eapply quiet_connect; eauto. }
    destruct (o_ty o =? TJson); [|discriminate]. destruct ser as [i|].
    { destruct (connect_to o i c) as [c1|] eqn:E; [|discriminate]. intros [= <- _]. eapply quiet_connect; eauto. }
    destruct (r_de g (s_ty s)); [|discriminate].
    destruct (new_fallible _ _ _ _ c) as [c1 [[i ok] er]] eqn:E1. apply quiet_fallible in E1.
    destruct (connect_to ok s _) as [c2|] eqn:E2; [|discriminate]. apply quiet_connect in E2. cbn beta iota.
    destruct (connect_to o _ _) as [c4|] eqn:E4; [|discriminate]. apply quiet_connect in E4. intros [= <- _].
    eapply quiet_trans; [exact E1|]. eapply quiet_trans; [exact E2|]. eapply quiet_trans; [apply quiet_pass|exact E4].
  - destruct (connect_to o s c) as [c1|] eqn:E; [|discriminate]. intros [= <- <-]. eapply quiet_connect; eauto.
Qed.

Lemma quiet_cancel sc q j s js ss ts o c c' k' : cancel_connect g imp sc q j s js ss ts o c = inl (c', k') -> quiet c c'.
Proof.
  unfold cancel_connect. destruct (try_string g sc s ss o c) as [[c1 x]|] eqn:E; [|discriminate]. cbn beta iota.
  destruct x as [ss'|].
  - intros [= <- _]. revert E. unfold try_string. destruct (o_ty o =? TString).
    { destruct (connect_to o s c) as [c2|] eqn:E; [|discriminate]. intros [= <- _]. eapply quiet_connect; eauto. }
    destruct (find (o_ty o) ss) as [i|].
    { destruct (connect_to o i c) as [c2|] eqn:E; [|discriminate]. intros [= <- _]. eapply quiet_connect; eauto. }
    destruct (negb (r_known g (o_ty o))); [discriminate|].
    destruct (r_string g (o_ty o)); [|discriminate]. destruct (new_plain _ _ _ _ c) as [c2 [i out]] eqn:E1. apply quiet_plain in E1.
    destruct (connect_to _ s _) as [c3|] eqn:E2; [|discriminate]. apply quiet_connect in E2.
    destruct (connect_to o _ _) as [c4|] eqn:E4; [|discriminate]. apply quiet_connect in E4. intros [= <- _].
    eapply quiet_trans; [exact E1|]. eapply quiet_trans; [exact E2|exact E4].
  - destruct (try_serialize g imp sc j js o c) as [[c2 [js'|]]|] eqn:E2; cbn beta iota; try discriminate.
    { intros [= <- <-]. eapply quiet_ser; eauto. }
    destruct (find (o_ty o) ts) as [i|].
    { destruct (connect_to o i c) as [c3|] eqn:E3; [|discriminate]. intros [= <- <-]. eapply quiet_connect; eauto. }
    destruct (r_known g (o_ty o)); [|discriminate]. destruct (new_plain _ _ _ _ c) as [c3 [i out]] eqn:E1. apply quiet_plain in E1.
    destruct (connect_to _ q _) as [c4|] eqn:E4; [|discriminate]. apply quiet_connect in E4.
    destruct (connect_to o _ _) as [c5|] eqn:E5; [|discriminate]. apply quiet_connect in E5. intros [= <- _].
    eapply quiet_trans; [exact E1|]. eapply quiet_trans; [exact E4|exact E5].
Qed.

Lemma quiet_into r sc k o c c' k' : connect_into g imp r sc k o c = inl (c', k') -> quiet c c'.
Proof.
  destruct k as [x| |q j s js ss ts|to seen|scid en start [x|]|scid term ex par nx [x|]|scid par to [x|]]; cbn [connect_into].
  - destruct (std_connect g imp sc x o c) as [[c1 x']|] eqn:E; [|discriminate]. intros [= <- <-]. eapply quiet_std; eauto.
  - intros [= <- <-]. apply quiet_refl.
  - apply quiet_cancel.
  - destruct (existsb (Nat.eqb (o_id o)) seen); [discriminate|]. intros [= <- <-]. apply quiet_pass.
  - destruct (std_connect g imp sc x o c) as [[c1 x']|] eqn:E; [|discriminate]. intros [= <- <-]. eapply quiet_std; eauto.
  - destruct (r_known g (o_ty o)); [|discriminate].
    match goal with |- context[std_connect g imp sc ?x o ?c0] => destruct (std_connect g imp sc x o c0) as [[c1 x']|] eqn:E end; [|discriminate].
    intros [= <- <-]. eapply quiet_trans; [apply quiet_pass|]. eapply quiet_trans; [|exact (quiet_std _ _ _ _ _ _ E)]. apply quiet_note. reflexivity.
  - destruct (std_connect g imp sc x o c) as [[c1 x']|] eqn:E; [|discriminate]. intros [= <- <-]. eapply quiet_std; eauto.
  - destruct (r_known g (o_ty o)); [|discriminate].
    match goal with |- context[std_connect g imp sc ?x o ?c0] => destruct (std_connect g imp sc x o c0) as [[c1 x']|] eqn:E end; [|discriminate].
    intros [= <- <-]. eapply quiet_trans; [apply quiet_pass|]. eapply quiet_trans; [|exact (quiet_std _ _ _ _ _ _ E)]. apply quiet_note. reflexivity.
  - destruct (std_connect g imp sc x o c) as [[c1 x']|] eqn:E; [|discriminate]. intros [= <- <-]. eapply quiet_std; eauto.
  - destruct (r_known g (o_ty o)); [|discriminate]. cbn [spawn_slot spawn_output spawn].
    match goal with |- context[std_connect g imp sc ?x o ?c0] => destruct (std_connect g imp sc x o c0) as [[c3 x']|] eqn:E end; [|discriminate].
    intros [= <- <-]. eapply quiet_trans; [|exact (quiet_std _ _ _ _ _ _ E)].
    eapply quiet_trans; [|apply quiet_note; reflexivity]. eapply quiet_trans; [|apply quiet_note; reflexivity].
    eapply quiet_trans; [|apply quiet_pass]. apply quiet_same; reflexivity.
Qed.

Lemma quiet_hand_all r sc os : forall k c c' k', hand_all g imp r sc k os c = inl (c', k') -> quiet c c'.
Proof.
  induction os as [|o os IHo]; intros k c c' k' E; cbn [hand_all] in E; [injection E as <- _; apply quiet_refl|].
  destruct (connect_into g imp r sc k o (note (LHand r o) c)) as [[c2 k2]|e] eqn:E2; [|discriminate].
  eapply quiet_trans; [apply (quiet_note (LHand r o)); reflexivity|]. eapply quiet_trans; [exact (quiet_into _ _ _ _ _ _ _ E2)|]. eapply IHo; exact E.
Qed.

Lemma quiet_pass_all idle drained : forall deferred prog c c' deferred' prog',
  pass g imp idle drained deferred prog c = inl (c', deferred', prog') -> quiet c c'.
Proof.
  induction drained as [|[r os] rest IH]; intros deferred prog c c' deferred' prog' H; cbn [pass] in H.
  - injection H as <- _ _. apply quiet_refl.
  - destruct (look (c_conns c) r) as [t|].
    + destruct (hand_all _ _ _ _ _ _ _) as [[c1 k1]|e] eqn:E; [|discriminate]. eapply quiet_trans; [apply (quiet_hand_all _ _ _ _ _ _ _ E)|].
      eapply quiet_trans; [|apply (IH _ _ _ _ _ _ H)]. apply quiet_same; reflexivity.
    + destruct idle; [discriminate|]. eapply IH; eauto.
Qed.

Lemma quiet_extend deferred : forall c, quiet c (extend deferred c).
Proof.
  induction deferred as [|[r os] rest IH]; intros c; cbn [extend]; [apply quiet_refl|].
  eapply quiet_trans; [|apply IH]. destruct (look (c_outs c) r) as [lost|]; [|apply quiet_same; reflexivity].
  split; [|reflexivity]. cbn [set_outs set_log c_log]. rewrite flat_map_app.
  replace (bkeys (map (LLost r) lost)) with (@nil (list nat * nat)) by (induction lost; [reflexivity|assumption]). apply app_nil_r.
Qed.

Lemma quiet_connect_loop ord idle left : forall prog c c' prog' left',
  connect_loop g imp ord idle left prog c = inl (c', prog', left') -> quiet c c'.
Proof.
  induction left as [|left IH]; intros prog c c' prog' left' H; cbn [connect_loop] in H.
  - destruct (pass _ _ _ _ _ _ _) as [[[c1 deferred] prog1]|e]; discriminate.
  - destruct (pass g imp idle (ord (S left) (c_outs c)) [] prog (set_outs [] c)) as [[[c1 deferred] prog1]|e] eqn:E; [|discriminate]. cbn beta iota in H.
    apply quiet_pass_all in E.
    assert (S : quiet c (extend deferred (set_new [] (set_outs (c_new c1) c1)))).
    { eapply quiet_trans; [|apply quiet_extend]. exact E. }
    destruct (c_new c1); [injection H as <- _ _; exact S|]. eapply quiet_trans; [exact S|]. eapply IH; eauto.
Qed.
End Connect.

(** ** Building *)
Section Build.
Variable d : diagram.
Variable g : registry.
Variable imp : opref.
Notation tm := (d_templates d).

Definition child (u : unf) (sc : nat) (p : nat * op) : unf := {| u_id := fst p; u_ns := u_ns u ++ [u_id u]; u_op := snd p; u_scope := sc |}.

(** What building [u] does: nothing, or it is built and its children follow. *)
Definition does (u : unf) (c c' : con) (fin : bool) : Prop :=
  (fin = false /\ quiet c c') \/
  (fin = true /\ bkeys (c_log c') = bkeys (c_log c) ++ [key u] /\
   exists sc l, c_gen c' = c_gen c ++ map (child u sc) l /\
     (l = [] \/ (exists t T cn, u_op u = OSection (PTemplate t) cn /\ find t tm = Some T /\ l = t_ops T) \/
      (exists start streams next, u_op u = OScope start l streams next))).

Lemma does_note u c c1 ins bufs outs : quiet c c1 -> does u c (note (LBuilt u ins bufs outs) c1) true.
Proof.
  intros [A B]. right. split; [reflexivity|]. cbn [note set_log c_log c_gen]. rewrite flat_map_app, A. split; [reflexivity|].
  exists 0, []. cbn [map]. rewrite app_nil_r. auto.
Qed.

Lemma quiet_fresh l sc : forall c c' os, fresh_outputs l sc c = (c', os) -> quiet c c'.
Proof.
  induction l as [|[t ty] l IH]; intros c c' os; cbn [fresh_outputs].
  - intros [= <- <-]. apply quiet_refl.
  - cbn [spawn_output spawn]. destruct (fresh_outputs l sc _) as [c2 r] eqn:E2. intros [= <- <-]. exact (IH _ _ _ E2).
Qed.

Lemma does_finish u inp bufs outs c c0 c' : quiet c0 c -> finish g u inp bufs outs c = inl c' -> does u c0 c' true.
Proof.
  intros Q. unfold finish. intros H. destruct inp as [ty|].
  - cbn [spawn_slot spawn] in H. destruct (set_input _ _ _ _ _ _) as [c1|] eqn:E1; [|discriminate]. apply quiet_set_input in E1.
    unfold Ok in H. destruct (fresh_outputs outs (u_scope u) c1) as [c2 os] eqn:E2; injection H as <-. apply does_note.
    eapply quiet_trans; [exact Q|]. eapply quiet_trans; [exact E1|]. eapply quiet_trans; [eapply quiet_fresh; eauto|apply quiet_adds].
  - unfold Ok in H. destruct (fresh_outputs outs (u_scope u) c) as [c2 os] eqn:E2; injection H as <-. apply does_note.
    eapply quiet_trans; [exact Q|]. eapply quiet_trans; [eapply quiet_fresh; eauto|apply quiet_adds].
Qed.

Lemma quiet_section_inputs u l : forall c c' q, section_inputs g u l c = inl (c', q) -> quiet c c'.
Proof.
  induction l as [|[x ty] l IH]; intros c c' q; cbn [section_inputs].
  - intros [= <- _]. apply quiet_refl.
  - cbn [spawn_slot spawn]. destruct (set_input _ _ _ _ _ _) as [c1|] eqn:E1; [|discriminate]. cbn beta iota. apply quiet_set_input in E1.
    destruct (section_inputs g u l c1) as [[c2 q2]|] eqn:E2; [|discriminate]. intros [= <- _]. eapply quiet_trans; [exact E1|]. eapply IH; eauto.
Qed.

Lemma quiet_section_buffers u l : forall c c' q, section_buffers g u l c = inl (c', q) -> quiet c c'.
Proof.
  induction l as [|[x ty] l IH]; intros c c' q; cbn [section_buffers].
  - intros [= <- _]. apply quiet_refl.
  - cbn [spawn_slot spawn]. destruct (set_buffer _ _ _ _ _ _) as [c1|] eqn:E1; [|discriminate]. cbn beta iota. apply quiet_set_buffer in E1.
    destruct (section_buffers g u l c1) as [[c2 q2]|] eqn:E2; [|discriminate]. intros [= <- _]. eapply quiet_trans; [exact E1|]. eapply IH; eauto.
Qed.

Lemma quiet_child_inputs u l : forall c c', child_inputs u l c = inl c' -> quiet c c'.
Proof.
  induction l as [|[x t] l IH]; intros c c'; cbn [child_inputs]; [intros [= <-]; apply quiet_refl|].
  destruct (set_conn _ _ _ c) as [c1|] eqn:E1; [|discriminate]. cbn beta iota. intros H.
  eapply quiet_trans; [apply (quiet_set_conn _ _ _ _ _ E1)|]. eapply IH; eauto.
Qed.

Lemma quiet_child_buffers u l : forall c c', child_buffers u l c = inl c' -> quiet c c'.
Proof.
  induction l as [|[x t] l IH]; intros c c'; cbn [child_buffers]; [intros [= <-]; apply quiet_refl|].
  destruct (set_conn _ _ _ c) as [c1|] eqn:E1; [|discriminate]. cbn beta iota. destruct (look (c_bufs c1) _); [discriminate|]. intros H.
  eapply quiet_trans; [apply (quiet_set_conn _ _ _ _ _ E1)|]. eapply quiet_trans; [|eapply IH; eauto]. apply quiet_same; reflexivity.
Qed.

Lemma quiet_child_outputs u cn l : forall c c', child_outputs u cn l c = inl c' -> quiet c c'.
Proof.
  induction l as [|x l IH]; intros c c'; cbn [child_outputs]; [intros [= <-]; apply quiet_refl|].
  destruct (set_conn _ _ _ c) as [c1|] eqn:E1; [|discriminate]. cbn beta iota. intros H.
  eapply quiet_trans; [apply (quiet_set_conn _ _ _ _ _ E1)|]. eapply IH; eauto.
Qed.

Lemma quiet_scope_streams u sc l : forall c c', scope_streams u sc l c = inl c' -> quiet c c'.
Proof.
  induction l as [|[x t] l IH]; intros c c'; cbn [scope_streams]; [intros [= <-]; apply quiet_refl|].
  destruct (set_conn _ _ _ c) as [c1|] eqn:E1; [|discriminate]. cbn beta iota. intros H.
  eapply quiet_trans; [apply (quiet_set_conn _ _ _ _ _ E1)|]. eapply IH; eauto.
Qed.

Lemma quiet_hints h ns ty sel c c' : set_type_hints h ns ty sel c = inl c' -> quiet c c'.
Proof.
  unfold set_type_hints. destruct (h ty (map fst sel)) as [hs|]; [|discriminate]. intros [= <-]. clear h.
  revert hs c. induction sel as [|[k t] sel IH]; intros hs c; cbn [add_hints]; [destruct hs; apply quiet_refl|].
  destruct hs as [|h hs]; [apply quiet_refl|]. eapply quiet_trans; [|apply IH]. apply quiet_same; reflexivity.
Qed.

Lemma build_op_does u c c' fin : build_op g tm imp u c = inl (c', fin) -> does u c c' fin.
Proof.
  assert (D : forall r : res con, (forall c1, r = inl c1 -> does u c c1 true) -> (let? c1 := r in Ok (c1, true)) = inl (c', fin) -> does u c c' fin).
  { intros [c1|e] X; [|discriminate]. intros [= <- <-]. auto. }
  assert (Df : forall c1, quiet c c1 -> Ok (c1, false) = inl (c', fin) -> does u c c' fin).
  { intros c1 Q [= <- <-]. left. auto. }
  unfold build_op. destruct (u_op u) as [b next streams|[b|t] cn|start ops streams next|n|nexts|nexts|ok er|keyed seq rem|next sel ser|next er|ser|next sel|next sel] eqn:Op.
  - destruct (r_node g b) as [[[q p] have]|]; [|discriminate]. destruct (named_streams have streams); [|discriminate].
    apply D. intros c1. apply does_finish. apply quiet_refl.
  - destruct (r_section g b) as [[[ins outs] bufs]|]; [|discriminate].
    destruct (section_inputs g u ins c) as [[c1 q1]|] eqn:E1; [|discriminate]. cbn beta iota.
    destruct (unknown_output cn (map fst outs)); [discriminate|]. cbn [fst].
    destruct (fresh_outputs (section_targets cn outs) (u_scope u) c1) as [c2 os] eqn:E2.
    destruct (section_buffers g u bufs (add_outputs (u_ns u) os c2)) as [[c3 q3]|] eqn:E3; [|discriminate]. cbn [fst snd].
    destruct (set_conn _ _ _ c3) as [c4|] eqn:E4; [|discriminate]. intros [= <- <-]. apply does_note.
    eapply quiet_trans; [apply (quiet_section_inputs _ _ _ _ _ E1)|]. eapply quiet_trans; [apply (quiet_fresh _ _ _ _ _ E2)|].
    eapply quiet_trans; [apply quiet_adds|]. eapply quiet_trans; [apply (quiet_section_buffers _ _ _ _ _ E3)|]. apply (quiet_set_conn _ _ _ _ _ E4).
  - destruct (find t tm) as [T|] eqn:ET; [|discriminate].
    destruct (child_inputs u (t_inputs T) (add_children u (t_ops T) (u_scope u) c)) as [c2|] eqn:E2; [|discriminate]. cbn beta iota.
    destruct (child_buffers u (t_buffers T) c2) as [c3|] eqn:E3; [|discriminate]. cbn beta iota.
    destruct (unknown_output cn (t_outputs T)); [discriminate|].
    destruct (child_outputs u cn (t_outputs T) c3) as [c4|] eqn:E4; [|discriminate]. cbn beta iota.
    destruct (set_conn _ _ _ c4) as [c5|] eqn:E5; [|discriminate]. intros [= <- <-].
    assert (Q : quiet (add_children u (t_ops T) (u_scope u) c) c5).
    { eapply quiet_trans; [apply (quiet_child_inputs _ _ _ _ E2)|]. eapply quiet_trans; [apply (quiet_child_buffers _ _ _ _ E3)|].
      eapply quiet_trans; [apply (quiet_child_outputs _ _ _ _ _ E4)|]. apply (quiet_set_conn _ _ _ _ _ E5). }
    destruct Q as [A B]. right. split; [reflexivity|]. cbn [note set_log c_log c_gen]. rewrite flat_map_app, A. split; [reflexivity|].
    exists (u_scope u), (t_ops T). split; [exact B|]. right. left. exists t, T, cn. auto.
  - cbn [spawn].
    destruct (scope_streams u _ streams _) as [c6|] eqn:E6; [|discriminate]. cbn beta iota.
    destruct (set_conn _ _ _ (add_children u ops _ c6)) as [c8|] eqn:E8; [|discriminate]. cbn beta iota.
    destruct (set_conn _ _ _ c8) as [c9|] eqn:E9; [|discriminate]. intros [= <- <-].
    assert (Q0 : quiet c c6).
    { eapply quiet_trans; [|apply (quiet_scope_streams _ _ _ _ _ E6)]. eapply quiet_trans; [|apply quiet_note; reflexivity]. apply quiet_same; reflexivity. }
    assert (Q : quiet (add_children u ops (c_next c) c6) c9).
    { eapply quiet_trans; [apply (quiet_set_conn _ _ _ _ _ E8)|]. apply (quiet_set_conn _ _ _ _ _ E9). }
    destruct Q0 as [A0 B0], Q as [A B]. right. split; [reflexivity|]. cbn [note set_log c_log c_gen]. rewrite flat_map_app, A.
    cbn [add_children set_gen c_log]. rewrite A0. split; [reflexivity|]. exists (c_next c), ops. split; [|eauto 6].
    rewrite B. cbn [add_children set_gen c_gen]. rewrite B0. reflexivity.
  - destruct (set_conn _ _ _ c) as [c1|] eqn:E1; [|discriminate]. intros [= <- <-]. apply does_note. apply (quiet_set_conn _ _ _ _ _ E1).
  - destruct (infer_first _ _ c) as [[ty|]|]; [|apply Df; apply quiet_refl|discriminate]. cbn beta iota.
    destruct (r_clone g ty); [|discriminate]. apply D. intros c1. apply does_finish. apply quiet_refl.
  - destruct (infer_into _ _ c) as [[ty|]|]; [|apply Df; apply quiet_refl|discriminate]. cbn beta iota.
    destruct (r_unzip g ty); [|discriminate]. destruct (_ =? _); [|discriminate]. apply D. intros c1. apply does_finish. apply quiet_refl.
  - destruct (infer_into _ _ c) as [[ty|]|]; [|apply Df; apply quiet_refl|discriminate]. cbn beta iota.
    destruct (r_result g ty) as [[t1 t2]|]; [|discriminate]. apply D. intros c1. apply does_finish. apply quiet_refl.
  - destruct (infer_into _ _ c) as [[ty|]|]; [|apply Df; apply quiet_refl|discriminate]. cbn beta iota.
    destruct (r_split _ _ _ _ _); [|discriminate]. apply D. intros c1. apply does_finish. apply quiet_refl.
  - destruct sel as [|kt sel]; [discriminate|]. destruct (buffer_map _ c _) as [m|]; [|apply Df; apply quiet_refl].
    destruct ser.
    + destruct (r_join _ _ _); [|discriminate]. apply D. intros c1. apply does_finish. apply quiet_refl.
    + destruct (infer_into _ _ c) as [[ty|]|]; [|apply Df; apply quiet_refl|discriminate]. cbn beta iota.
      destruct (r_join _ _ _); [|discriminate]. apply D. intros c1. apply does_finish. apply quiet_refl.
  - cbn [spawn_output spawn spawn_slot].
    destruct (set_input _ _ _ _ _ _) as [c4|] eqn:E4; [|discriminate]. cbn beta iota. apply quiet_set_input in E4. intros [= <- <-]. apply does_note.
    eapply quiet_trans; [|apply quiet_add]. refine (quiet_trans _ c4 _ _ (quiet_same _ _ eq_refl eq_refl)). eapply quiet_trans; [|exact E4].
    refine (quiet_trans _ _ _ (quiet_add (u_ns u) _ _ (set_next (S (c_next c)) c)) (quiet_same _ _ eq_refl eq_refl)).
  - match goal with |- context[match ?x with inl _ => _ | inr _ => _ end] => destruct x as [[ty|]|] end; [|apply Df; apply quiet_refl|discriminate].
    cbn beta iota. destruct (r_known g ty); [|discriminate]. cbn [spawn_slot spawn].
    destruct (set_buffer _ _ _ _ _ _) as [c2|] eqn:E2; [|discriminate]. intros [= <- <-]. apply does_note. exact (quiet_set_buffer _ _ _ _ _ _ _ E2).
  - destruct (infer_into _ _ c) as [[ty|]|]; [|apply Df; apply quiet_refl|discriminate]. cbn beta iota.
    destruct (set_type_hints _ _ ty sel c) as [c1|] eqn:E1; [|discriminate]. cbn beta iota. apply quiet_hints in E1.
    destruct (buffer_map _ c1 sel); [|apply Df; exact E1].
    destruct (r_access _ _ _); [|discriminate]. apply D. intros c2. apply does_finish. exact E1.
  - destruct (infer_into _ _ c) as [[ty|]|]; [|apply Df; apply quiet_refl|discriminate]. cbn beta iota.
    destruct (set_type_hints _ _ ty sel c) as [c1|] eqn:E1; [|discriminate]. cbn beta iota. apply quiet_hints in E1.
    destruct (buffer_map _ c1 sel); [|apply Df; exact E1].
    destruct (r_listen _ _ _); [|discriminate]. apply D. intros c2. apply does_finish. exact E1.
Qed.
End Build.
