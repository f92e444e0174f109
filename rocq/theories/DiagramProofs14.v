(** No output is connected twice: a count of where the outputs are. *)
From Verif Require Import Base DiagramModel DiagramSpec DiagramSpec2.

Definition cnt (i : nat) (l : list nat) : nat := count_occ Nat.eq_dec l i.

Definition ids (l : list output) : list nat := map o_id l.
Definition idsm (m : list (opref * list output)) : list nat := flat_map (fun p => ids (snd p)) m.

(** The outputs which a connector keeps for later *)
Definition kept (k : connector) : list nat :=
  match k with
  | KRequest _ enter _ None => [enter]
  | KResponse _ _ ex _ _ None => [ex]
  | _ => []
  end.
Definition keptm (m : list (opref * target)) : list nat := flat_map (fun p => kept (t_conn (snd p))) m.

(** The outputs which were connected, or lost *)
Definition gone (e : entry) : list nat :=
  match e with LConnect o _ => [o_id o] | LLost _ o => [o_id o] | _ => [] end.

Definition tot (c : con) (i : nat) : nat :=
  cnt i (idsm (c_outs c)) + cnt i (idsm (c_new c)) + cnt i (keptm (c_conns c)) + cnt i (flat_map gone (c_log c)).

Definition room (c : con) (i : nat) : nat := if i <? c_next c then 1 else 0.

(** From [c] to [c'] the outputs [a] came in and the outputs [b] remain. *)
Definition step (c c' : con) (a b : list nat) : Prop :=
  forall i, tot c' i + cnt i b + room c i <= tot c i + cnt i a + room c' i.

Lemma cnt_app i a b : cnt i (a ++ b) = cnt i a + cnt i b.
Proof. apply count_occ_app. Qed.

Lemma cnt_cons i x a : cnt i (x :: a) = cnt i [x] + cnt i a.
Proof. apply (cnt_app i [x] a). Qed.

Lemma cnt_nil i : cnt i [] = 0.
Proof. reflexivity. Qed.

Lemma step_refl c a : step c c a a.
Proof. intros i. lia. Qed.

Lemma step_trans c1 c2 c3 a b e : step c1 c2 a b -> step c2 c3 b e -> step c1 c3 a e.
Proof. intros H1 H2 i. specialize (H1 i). specialize (H2 i). lia. Qed.

Lemma step_frame c c' a b x : step c c' a b -> step c c' (a ++ x) (b ++ x).
Proof. intros H i. specialize (H i). rewrite !cnt_app. lia. Qed.

Lemma step_cnt c c' a b a' b' : (forall i, cnt i a + cnt i b' <= cnt i a' + cnt i b) -> step c c' a b -> step c c' a' b'.
Proof. intros E H i. specialize (H i). specialize (E i). lia. Qed.

Lemma room_next c c' : c_next c' = c_next c -> forall i, room c' i = room c i.
Proof. intros E i. unfold room. rewrite E. reflexivity. Qed.

Lemma room_spawn c c' : c_next c' = S (c_next c) -> forall i, room c' i = room c i + cnt i [c_next c].
Proof.
  intros E i. unfold room, cnt. rewrite E. cbn [count_occ]. destruct (Nat.eq_dec (c_next c) i) as [->|N].
  - rewrite Nat.ltb_irrefl. rewrite (proj2 (Nat.ltb_lt i (S i))) by lia. reflexivity.
  - destruct (Nat.ltb_spec i (c_next c)); destruct (Nat.ltb_spec i (S (c_next c))); lia.
Qed.

Lemma idsm_push m r o i : cnt i (idsm (push m r o)) = cnt i (idsm m) + cnt i [o_id o].
Proof.
  induction m as [|[r' os] m IH]; cbn [push idsm flat_map snd].
  - rewrite app_nil_r. reflexivity.
  - destruct (opref_eq_dec r r'); cbn [flat_map snd]; fold (idsm m); rewrite !cnt_app.
    + unfold ids. rewrite map_app, cnt_app. cbn [map]. lia.
    + fold (idsm (push m r o)). rewrite IH. lia.
Qed.

Lemma idsm_put m r os i :
  cnt i (idsm (put m r os)) + cnt i (match look m r with Some l => ids l | None => [] end) = cnt i (idsm m) + cnt i (ids os).
Proof.
  induction m as [|[r' os'] m IH]; cbn [put look idsm flat_map snd].
  - rewrite app_nil_r, !cnt_nil. lia.
  - destruct (opref_eq_dec r r'); cbn [flat_map snd]; rewrite !cnt_app.
    + lia.
    + fold (idsm (put m r os)). fold (idsm m). lia.
Qed.

Lemma keptm_put m r t i :
  cnt i (keptm (put m r t)) + cnt i (match look m r with Some t' => kept (t_conn t') | None => [] end) = cnt i (keptm m) + cnt i (kept (t_conn t)).
Proof.
  induction m as [|[r' t'] m IH]; cbn [put look keptm flat_map snd].
  - rewrite app_nil_r, !cnt_nil. lia.
  - destruct (opref_eq_dec r r'); cbn [flat_map snd]; rewrite !cnt_app.
    + lia.
    + fold (keptm (put m r t)). fold (keptm m). lia.
Qed.

(** A step which changes nothing of interest *)
Lemma step_note e c a : step c (note e c) (gone e ++ a) a.
Proof.
  intros i. unfold tot, note. cbn [set_log c_outs c_new c_conns c_log]. rewrite (room_next c (set_log _ c)) by reflexivity.
  rewrite flat_map_app, !cnt_app. cbn [flat_map]. rewrite app_nil_r. lia.
Qed.

Lemma step_note0 e c a : gone e = [] -> step c (note e c) a a.
Proof. intros E. pose proof (step_note e c a) as H. rewrite E in H. exact H. Qed.

Lemma step_spawn c c' x a : spawn c = (c', x) -> step c c' a (x :: a).
Proof.
  unfold spawn. intros [= <- <-] i. unfold tot. cbn [set_next c_outs c_new c_conns c_log].
  rewrite (room_spawn c (set_next (S (c_next c)) c)) by reflexivity. rewrite (cnt_cons i _ a). lia.
Qed.

Lemma step_drop c x a : step c c (x :: a) a.
Proof. intros i. rewrite (cnt_cons i x a). lia. Qed.

Lemma step_spawn_slot ty sc c c' s a : spawn_slot ty sc c = (c', s) -> step c c' a a.
Proof.
  unfold spawn_slot. destruct (spawn c) as [c1 i] eqn:E. intros [= <- <-]. eapply step_trans; [apply (step_spawn _ _ _ a E)|apply step_drop].
Qed.

Lemma step_spawn_output ty sc c c' o a : spawn_output ty sc c = (c', o) -> step c c' a (o_id o :: a).
Proof. unfold spawn_output. destruct (spawn c) as [c1 i] eqn:E. intros [= <- <-]. apply (step_spawn _ _ _ a E). Qed.

Lemma step_pass r o c a : step c (pass_output r o c) (o_id o :: a) a.
Proof.
  intros i. unfold tot, pass_output, note. cbn [set_log set_new c_outs c_new c_conns c_log].
  rewrite (room_next c (set_log _ (set_new _ c))) by reflexivity.
  rewrite idsm_push, flat_map_app, cnt_app. cbn [flat_map gone app]. rewrite (cnt_cons i _ a), cnt_nil. lia.
Qed.

Lemma step_add ns r o c a : step c (add_output ns r o c) (o_id o :: a) a.
Proof.
  intros i. unfold tot, add_output, note. cbn [set_log set_outs c_outs c_new c_conns c_log].
  rewrite (room_next c (set_log _ (set_outs _ c))) by reflexivity.
  rewrite idsm_push, flat_map_app, cnt_app. cbn [flat_map gone app]. rewrite (cnt_cons i _ a), cnt_nil. lia.
Qed.

Lemma step_connect o s c c' a : connect_to o s c = inl c' -> step c c' (o_id o :: a) a.
Proof. unfold connect_to. destruct (o_ty o =? s_ty s); [|discriminate]. intros [= <-]. apply (step_note (LConnect o s)). Qed.

Lemma step_set_conn r k sc c c' a : set_conn r k sc c = inl c' -> step c c' (kept k ++ a) a.
Proof.
  unfold set_conn. destruct (look (c_conns c) r) eqn:E; [discriminate|]. intros [= <-] i.
  pose proof (keptm_put (c_conns c) r {| t_conn := k; t_scope := sc |} i) as P. rewrite E in P. cbn [t_conn] in P. rewrite cnt_nil in P.
  unfold tot. cbn [set_conns c_outs c_new c_conns c_log]. rewrite (room_next c (set_conns _ c)) by reflexivity.
  rewrite cnt_app. lia.
Qed.

Lemma step_set_input g ns r s sc c c' a : set_input g ns r s sc c = inl c' -> step c c' a a.
Proof.
  unfold set_input. destruct (set_conn _ _ sc c) as [c1|] eqn:E; [|discriminate]. intros [= <-].
  eapply step_trans; [apply (step_set_conn _ _ _ _ _ a E)|]. apply step_note0. reflexivity.
Qed.

Lemma step_set_buffer g ns r s sc c c' a : set_buffer g ns r s sc c = inl c' -> step c c' a a.
Proof.
  unfold set_buffer. destruct (set_input g ns r s sc c) as [c1|] eqn:E; [|discriminate]. cbn.
  destruct (look (c_bufs c1) (in_ns ns r)); [discriminate|]. intros [= <-].
  eapply step_trans; [apply (step_set_input _ _ _ _ _ _ _ a E)|]. intros i. apply Nat.le_refl.
Qed.

(** ** Connecting *)
Section Connect.
Variable g : registry.
Variable imp : opref.

Lemma step_fallible k tin tout sc c c' i ok er a : new_fallible k tin tout sc c = (c', (i, ok, er)) -> step c c' a (o_id er :: o_id ok :: a).
Proof.
  unfold new_fallible. destruct (spawn_slot tin sc c) as [c1 i1] eqn:E1. destruct (spawn_output tout sc c1) as [c2 o2] eqn:E2.
  destruct (spawn_output TString sc c2) as [c3 o3] eqn:E3. intros [= <- <- <- <-].
  eapply step_trans; [apply (step_spawn_slot _ _ _ _ _ a E1)|]. eapply step_trans; [apply (step_spawn_output _ _ _ _ _ a E2)|].
  eapply step_trans; [apply (step_spawn_output _ _ _ _ _ _ E3)|]. apply step_note0. reflexivity.
Qed.

Lemma step_plain k tin tout sc c c' i out a : new_plain k tin tout sc c = (c', (i, out)) -> step c c' a (o_id out :: a).
Proof.
  unfold new_plain. destruct (spawn_slot tin sc c) as [c1 i1] eqn:E1. destruct (spawn_output tout sc c1) as [c2 o2] eqn:E2.
  intros [= <- <- <-].
  eapply step_trans; [apply (step_spawn_slot _ _ _ _ _ a E1)|]. eapply step_trans; [apply (step_spawn_output _ _ _ _ _ a E2)|].
  apply step_note0. reflexivity.
Qed.

Ltac counts := intros ?i; rewrite ?(cnt_cons _ _ (_ :: _)), ?cnt_app, ?cnt_nil; lia.

Lemma step_swap c c' x y a b : step c c' (x :: y :: a) b -> step c c' (y :: x :: a) b.
Proof. apply step_cnt. intros i. rewrite (cnt_cons i x (y :: a)), (cnt_cons i y (x :: a)), (cnt_cons i y a), (cnt_cons i x a). lia. Qed.

Lemma step_ser sc s inc o c c' inc' a : try_serialize g imp sc s inc o c = inl (c', inc') ->
  match inc' with Some _ => step c c' (o_id o :: a) a | None => c' = c end.
Proof.
  unfold try_serialize. destruct (o_ty o =? TJson).
  { destruct (connect_to o s c) as [c1|] eqn:E; [|discriminate]. intros [= <- <-]. eapply step_connect; eauto. }
  destruct (find (o_ty o) inc) as [i|].
  { destruct (connect_to o i c) as [c1|] eqn:E; [|discriminate]. intros [= <- <-]. eapply step_connect; eauto. }
  destruct (r_ser g (o_ty o)); [|intros [= <- <-]; reflexivity].
  destruct (new_fallible CSerialize (o_ty o) TJson sc c) as [c1 [[i ok] er]] eqn:E1.
  destruct (connect_to ok s c1) as [c2|] eqn:E2; [|discriminate]. cbn.
  destruct (connect_to o i (pass_output imp er c2)) as [c4|] eqn:E4; [|discriminate]. intros [= <- <-].
  eapply step_trans; [apply (step_fallible _ _ _ _ _ _ _ _ _ _ E1)|].
  apply step_swap. eapply step_trans; [apply (step_connect _ _ _ _ _ E2)|].
  eapply step_trans; [apply step_pass|]. apply (step_connect _ _ _ _ _ E4).
Qed.

Lemma step_de sc s ser o c c' ser' a : deserialize g imp sc s ser o c = inl (c', ser') -> step c c' (o_id o :: a) a.
Proof.
  unfold deserialize. destruct (o_ty o =? s_ty s).
  { destruct (connect_to o s c) as [c1|] eqn:E; [|discriminate]. intros [= <- <-]. eapply step_connect; eauto. }
  destruct (o_ty o =? TJson); [|discriminate]. destruct ser as [i|].
  { destruct (connect_to o i c) as [c1|] eqn:E; [|discriminate]. intros [= <- <-]. eapply step_connect; eauto. }
  destruct (r_de g (s_ty s)); [|discriminate].
  destruct (new_fallible CDeserialize TJson (s_ty s) sc c) as [c1 [[i ok] er]] eqn:E1.
  destruct (connect_to ok s c1) as [c2|] eqn:E2; [|discriminate]. cbn.
  destruct (connect_to o i (pass_output imp er c2)) as [c4|] eqn:E4; [|discriminate]. intros [= <- <-].
  eapply step_trans; [apply (step_fallible _ _ _ _ _ _ _ _ _ _ E1)|].
  apply step_swap. eapply step_trans; [apply (step_connect _ _ _ _ _ E2)|].
  eapply step_trans; [apply step_pass|]. apply (step_connect _ _ _ _ _ E4).
Qed.

Lemma step_std sc x o c c' x' a : std_connect g imp sc x o c = inl (c', x') -> step c c' (o_id o :: a) a.
Proof.
  destruct x as [s inc|s ser|s]; cbn [std_connect].
  - destruct (try_serialize g imp sc s inc o c) as [[c1 [inc'|]]|] eqn:E; cbn; try discriminate. intros [= <- <-].
    apply (step_ser _ _ _ _ _ _ _ a E).
  - destruct (deserialize g imp sc s ser o c) as [[c1 ser']|] eqn:E; cbn; try discriminate. intros [= <- <-].
    apply (step_de _ _ _ _ _ _ _ a E).
  - destruct (connect_to o s c) as [c1|] eqn:E; [|discriminate]. intros [= <- <-]. eapply step_connect; eauto.
Qed.

Lemma step_string sc s inc o c c' inc' a : try_string g sc s inc o c = inl (c', inc') ->
  match inc' with Some _ => step c c' (o_id o :: a) a | None => c' = c end.
Proof.
  unfold try_string. destruct (o_ty o =? TString).
  { destruct (connect_to o s c) as [c1|] eqn:E; [|discriminate]. intros [= <- <-]. eapply step_connect; eauto. }
  destruct (find (o_ty o) inc) as [i|].
  { destruct (connect_to o i c) as [c1|] eqn:E; [|discriminate]. intros [= <- <-]. eapply step_connect; eauto. }
  destruct (negb (r_known g (o_ty o))); [discriminate|].
  destruct (r_string g (o_ty o)); [|intros [= <- <-]; reflexivity].
  destruct (new_plain CString (o_ty o) TString sc c) as [c1 [i out]] eqn:E1.
  destruct (connect_to out s c1) as [c2|] eqn:E2; [|discriminate]. cbn.
  destruct (connect_to o i c2) as [c4|] eqn:E4; [|discriminate]. intros [= <- <-].
  eapply step_trans; [apply (step_plain _ _ _ _ _ _ _ _ _ E1)|].
  eapply step_trans; [apply (step_connect _ _ _ _ _ E2)|]. apply (step_connect _ _ _ _ _ E4).
Qed.

Lemma step_cancel sc q j s js ss ts o c c' k' a : cancel_connect g imp sc q j s js ss ts o c = inl (c', k') ->
  step c c' (o_id o :: a) (kept k' ++ a).
Proof.
  unfold cancel_connect. destruct (try_string g sc s ss o c) as [[c1 [ss'|]]|] eqn:E; cbn beta iota; try discriminate.
  { intros [= <- <-]. apply (step_string _ _ _ _ _ _ _ a E). }
  destruct (try_serialize g imp sc j js o c) as [[c2 [js'|]]|] eqn:E2; cbn beta iota; try discriminate.
  { intros [= <- <-]. apply (step_ser _ _ _ _ _ _ _ a E2). }
  destruct (find (o_ty o) ts) as [i|].
  { destruct (connect_to o i c) as [c3|] eqn:E3; [|discriminate]. intros [= <- <-]. eapply step_connect; eauto. }
  destruct (r_known g (o_ty o)); [|discriminate].
  destruct (new_plain CTrigger (o_ty o) TUnit sc c) as [c3 [i out]] eqn:E3.
  destruct (connect_to out q c3) as [c4|] eqn:E4; [|discriminate]. cbn beta iota.
  destruct (connect_to o i c4) as [c5|] eqn:E5; [|discriminate]. intros [= <- <-].
  eapply step_trans; [apply (step_plain _ _ _ _ _ _ _ _ _ E3)|].
  eapply step_trans; [apply (step_connect _ _ _ _ _ E4)|]. apply (step_connect _ _ _ _ _ E5).
Qed.

Lemma step_into r sc k o c c' k' a : connect_into g imp r sc k o c = inl (c', k') ->
  step c c' (o_id o :: kept k ++ a) (kept k' ++ a).
Proof.
  destruct k as [x| |q j s js ss ts|to seen|scid en start [x|]|scid term ex par nx [x|]|scid par to [x|]]; cbn [connect_into kept app].
  - destruct (std_connect g imp sc x o c) as [[c1 x']|] eqn:E; [|discriminate]. intros [= <- <-]. apply (step_std _ _ _ _ _ _ a E).
  - intros [= <- <-]. apply step_drop.
  - intros H. apply (step_cancel _ _ _ _ _ _ _ _ _ _ _ a H).
  - destruct (existsb (Nat.eqb (o_id o)) seen); [discriminate|]. intros [= <- <-]. apply step_pass.
  - destruct (std_connect g imp sc x o c) as [[c1 x']|] eqn:E; [|discriminate]. intros [= <- <-]. apply (step_std _ _ _ _ _ _ a E).
  - destruct (r_known g (o_ty o)); [|discriminate].
    match goal with |- context[std_connect g imp sc ?x o ?c0] => destruct (std_connect g imp sc x o c0) as [[c1 x']|] eqn:E end; [|discriminate].
    intros [= <- <-]. apply step_swap. eapply step_trans; [apply (step_pass start {| o_id := en; o_ty := o_ty o; o_scope := scid |})|].
    eapply step_trans; [|apply (step_std _ _ _ _ _ _ a E)]. apply step_note0. reflexivity.
  - destruct (std_connect g imp sc x o c) as [[c1 x']|] eqn:E; [|discriminate]. intros [= <- <-]. apply (step_std _ _ _ _ _ _ a E).
  - destruct (r_known g (o_ty o)); [|discriminate].
    match goal with |- context[std_connect g imp sc ?x o ?c0] => destruct (std_connect g imp sc x o c0) as [[c1 x']|] eqn:E end; [|discriminate].
    intros [= <- <-]. apply step_swap. eapply step_trans; [apply (step_pass nx {| o_id := ex; o_ty := o_ty o; o_scope := par |})|].
    eapply step_trans; [|apply (step_std _ _ _ _ _ _ a E)]. apply step_note0. reflexivity.
  - destruct (std_connect g imp sc x o c) as [[c1 x']|] eqn:E; [|discriminate]. intros [= <- <-]. apply (step_std _ _ _ _ _ _ a E).
  - destruct (r_known g (o_ty o)); [|discriminate]. destruct (spawn_slot (o_ty o) scid c) as [c1 i] eqn:E1.
    destruct (spawn_output (o_ty o) par c1) as [c2 out] eqn:E2.
    match goal with |- context[std_connect g imp sc ?x o ?c0] => destruct (std_connect g imp sc x o c0) as [[c3 x']|] eqn:E end; [|discriminate].
    intros [= <- <-]. eapply step_trans; [apply (step_spawn_slot _ _ _ _ _ _ E1)|]. eapply step_trans; [apply (step_spawn_output _ _ _ _ _ _ E2)|].
    eapply step_trans; [apply step_pass|]. eapply step_trans; [apply (step_note0 (LSlot r i)); reflexivity|]. eapply step_trans; [apply (step_note0 (LStream r i out)); reflexivity|].
    apply (step_std _ _ _ _ _ _ a E).
Qed.

Lemma step_hand_all r sc os : forall k c c' k' a, hand_all g imp r sc k os c = inl (c', k') ->
  step c c' (ids os ++ kept k ++ a) (kept k' ++ a).
Proof.
  induction os as [|o os IH]; intros k c c' k' a; cbn [hand_all].
  - intros [= <- <-]. apply step_refl.
  - destruct (connect_into g imp r sc k o (note (LHand r o) c)) as [[c1 k1]|] eqn:E; [|discriminate]. cbn. intros H.
    eapply step_trans; [apply (step_note0 (LHand r o)); reflexivity|].
    pose proof (step_into _ _ _ _ _ _ _ [] E) as S1. specialize (IH _ _ _ _ a H).
    intros i. specialize (S1 i). specialize (IH i). cbn [ids map app]. rewrite (cnt_cons i _ (map _ _ ++ _)). rewrite (cnt_cons i _ (kept k ++ [])) in S1.
    rewrite !cnt_app, ?cnt_nil in *. fold (ids os). lia.
Qed.

(** ** One pass and the connect loop *)
Definition fixed (c c' : con) : Prop := c_conns c' = c_conns c /\ c_outs c' = c_outs c.

Lemma fixed_trans c1 c2 c3 : fixed c1 c2 -> fixed c2 c3 -> fixed c1 c3.
Proof. intros [A B] [C D]. split; congruence. Qed.

Lemma fixed_connect o s c c' : connect_to o s c = inl c' -> fixed c c'.
Proof. unfold connect_to. destruct (_ =? _); [|discriminate]. intros [= <-]. split; reflexivity. Qed.

Lemma fixed_ser sc s inc o c c' x : try_serialize g imp sc s inc o c = inl (c', x) -> fixed c c'.
Proof.
  unfold try_serialize. destruct (o_ty o =? TJson).
  { destruct (connect_to o s c) as [c1|] eqn:E; [|discriminate]. intros [= <- _]. eapply fixed_connect; eauto. }
  destruct (find (o_ty o) inc) as [i|].
  { destruct (connect_to o i c) as [c1|] eqn:E; [|discriminate]. intros [= <- _]. eapply fixed_connect; eauto. }
  destruct (r_ser g (o_ty o)); [|intros [= <- _]; split; reflexivity]. cbn [new_fallible spawn_slot spawn_output spawn].
  destruct (connect_to _ s _) as [c2|] eqn:E2; [|discriminate]. apply fixed_connect in E2.
  destruct (connect_to o _ _) as [c4|] eqn:E4; [|discriminate]. apply fixed_connect in E4. intros [= <- _].
  eapply fixed_trans; [|exact E4]. destruct E2 as [A B]. split; [exact A|exact B].
Qed.

Lemma fixed_std sc x o c c' x' : std_connect g imp sc x o c = inl (c', x') -> fixed c c'.
Proof.
  destruct x as [s inc|s ser|s]; cbn [std_connect].
  - destruct (try_serialize g imp sc s inc o c) as [[c1 [inc'|]]|] eqn:E; cbn beta iota; try discriminate. intros [= <- <-]. eapply fixed_ser; eauto.
  - unfold deserialize. destruct (o_ty o =? s_ty s).
    { destruct (connect_to o s c) as [c1|] eqn:E; [|discriminate]. intros [= <- _]. eapply fixed_connect; eauto. }
    destruct (o_ty o =? TJson); [|discriminate]. destruct ser as [i|].
    { destruct (connect_to o i c) as [c1|] eqn:E; [|discriminate]. intros [= <- _]. eapply fixed_connect; eauto. }
    destruct (r_de g (s_ty s)); [|discriminate]. cbn [new_fallible spawn_slot spawn_output spawn].
    destruct (connect_to _ s _) as [c2|] eqn:E2; [|discriminate]. apply fixed_connect in E2.
    destruct (connect_to o _ _) as [c4|] eqn:E4; [|discriminate]. apply fixed_connect in E4. intros [= <- _].
    eapply fixed_trans; [|exact E4]. destruct E2 as [A B]. split; [exact A|exact B].
  - destruct (connect_to o s c) as [c1|] eqn:E; [|discriminate]. intros [= <- <-]. eapply fixed_connect; eauto.
Qed.

Lemma fixed_cancel sc q j s js ss ts o c c' k' : cancel_connect g imp sc q j s js ss ts o c = inl (c', k') -> fixed c c'.
Proof.
  unfold cancel_connect. destruct (try_string g sc s ss o c) as [[c1 x]|] eqn:E; [|discriminate]. cbn beta iota.
  destruct x as [ss'|].
  - intros [= <- _]. revert E. unfold try_string. destruct (o_ty o =? TString).
    { destruct (connect_to o s c) as [c2|] eqn:E; [|discriminate]. intros [= <- _]. eapply fixed_connect; eauto. }
    destruct (find (o_ty o) ss) as [i|].
    { destruct (connect_to o i c) as [c2|] eqn:E; [|discriminate]. intros [= <- _]. eapply fixed_connect; eauto. }
    destruct (negb (r_known g (o_ty o))); [discriminate|].
    destruct (r_string g (o_ty o)); [|discriminate]. cbn [new_plain spawn_slot spawn_output spawn].
    destruct (connect_to _ s _) as [c2|] eqn:E2; [|discriminate]. apply fixed_connect in E2.
    destruct (connect_to o _ _) as [c4|] eqn:E4; [|discriminate]. apply fixed_connect in E4. intros [= <- _].
    eapply fixed_trans; [|exact E4]. exact E2.
  - destruct (try_serialize g imp sc j js o c) as [[c2 [js'|]]|] eqn:E2; cbn beta iota; try discriminate.
    { intros [= <- <-]. eapply fixed_ser; eauto. }
    destruct (find (o_ty o) ts) as [i|].
    { destruct (connect_to o i c) as [c3|] eqn:E3; [|discriminate]. intros [= <- <-]. eapply fixed_connect; eauto. }
    destruct (r_known g (o_ty o)); [|discriminate]. cbn [new_plain spawn_slot spawn_output spawn].
    destruct (connect_to _ q _) as [c4|] eqn:E4; [|discriminate]. apply fixed_connect in E4.
    destruct (connect_to o _ _) as [c5|] eqn:E5; [|discriminate]. apply fixed_connect in E5. intros [= <- _].
    eapply fixed_trans; [|exact E5]. exact E4.
Qed.

Lemma fixed_into r sc k o c c' k' : connect_into g imp r sc k o c = inl (c', k') -> fixed c c'.
Proof.
  destruct k as [x| |q j s js ss ts|to seen|scid en start [x|]|scid term ex par nx [x|]|scid par to [x|]]; cbn [connect_into].
  - destruct (std_connect g imp sc x o c) as [[c1 x']|] eqn:E; [|discriminate]. intros [= <- <-]. eapply fixed_std; eauto.
  - intros [= <- <-]. split; reflexivity.
  - apply fixed_cancel.
  - destruct (existsb (Nat.eqb (o_id o)) seen); [discriminate|]. intros [= <- <-]. split; reflexivity.
  - destruct (std_connect g imp sc x o c) as [[c1 x']|] eqn:E; [|discriminate]. intros [= <- <-]. eapply fixed_std; eauto.
  - destruct (r_known g (o_ty o)); [|discriminate].
    match goal with |- context[std_connect g imp sc ?x o ?c0] => destruct (std_connect g imp sc x o c0) as [[c1 x']|] eqn:E end; [|discriminate].
    intros [= <- <-]. exact (fixed_std _ _ _ _ _ _ E).
  - destruct (std_connect g imp sc x o c) as [[c1 x']|] eqn:E; [|discriminate]. intros [= <- <-]. eapply fixed_std; eauto.
  - destruct (r_known g (o_ty o)); [|discriminate].
    match goal with |- context[std_connect g imp sc ?x o ?c0] => destruct (std_connect g imp sc x o c0) as [[c1 x']|] eqn:E end; [|discriminate].
    intros [= <- <-]. exact (fixed_std _ _ _ _ _ _ E).
  - destruct (std_connect g imp sc x o c) as [[c1 x']|] eqn:E; [|discriminate]. intros [= <- <-]. eapply fixed_std; eauto.
  - destruct (r_known g (o_ty o)); [|discriminate]. cbn [spawn_slot spawn_output spawn].
    match goal with |- context[std_connect g imp sc ?x o ?c0] => destruct (std_connect g imp sc x o c0) as [[c3 x']|] eqn:E end; [|discriminate].
    intros [= <- <-]. exact (fixed_std _ _ _ _ _ _ E).
Qed.

Lemma fixed_hand_all r sc os : forall k c c' k', hand_all g imp r sc k os c = inl (c', k') -> fixed c c'.
Proof.
  induction os as [|o os IHo]; intros k c c' k' E; cbn [hand_all] in E; [injection E as <- _; split; reflexivity|].
  destruct (connect_into g imp r sc k o (note (LHand r o) c)) as [[c2 k2]|e] eqn:E2; [|discriminate].
  eapply fixed_trans; [|eapply IHo; exact E]. exact (fixed_into _ _ _ _ _ _ _ E2).
Qed.

Lemma pass_outs idle drained : forall deferred prog c c' deferred' prog',
  pass g imp idle drained deferred prog c = inl (c', deferred', prog') -> c_outs c' = c_outs c.
Proof.
  induction drained as [|[r os] rest IH]; intros deferred prog c c' deferred' prog' H; cbn [pass] in H.
  - injection H as <- _ _. reflexivity.
  - destruct (look (c_conns c) r) as [t|].
    + destruct (hand_all _ _ _ _ _ _ _) as [[c1 k1]|e] eqn:E; [|discriminate]. rewrite (IH _ _ _ _ _ _ H). apply (fixed_hand_all _ _ _ _ _ _ _ E).
    + destruct idle; [discriminate|]. eapply IH; eauto.
Qed.

Lemma step_put_conn c r t k a : look (c_conns c) r = Some t ->
  step c (set_conns (put (c_conns c) r {| t_conn := k; t_scope := t_scope t |}) c) (kept k ++ a) (kept (t_conn t) ++ a).
Proof.
  intros E i. pose proof (keptm_put (c_conns c) r {| t_conn := k; t_scope := t_scope t |} i) as P. rewrite E in P. cbn [t_conn] in P.
  unfold tot. cbn [set_conns c_outs c_new c_conns c_log]. rewrite (room_next c (set_conns _ c)) by reflexivity. rewrite !cnt_app. lia.
Qed.

Lemma step_pass_all idle drained : forall deferred prog c c' deferred' prog' a,
  pass g imp idle drained deferred prog c = inl (c', deferred', prog') ->
  step c c' (idsm drained ++ idsm deferred ++ a) (idsm deferred' ++ a).
Proof.
  induction drained as [|[r os] rest IH]; intros deferred prog c c' deferred' prog' a H; cbn [pass] in H.
  - injection H as <- <- _. apply step_refl.
  - destruct (look (c_conns c) r) as [t|] eqn:El.
    + destruct (hand_all g imp r (t_scope t) (t_conn t) os c) as [[c1 k1]|e] eqn:E; [|discriminate]. cbn beta iota in H.
      pose proof (proj1 (fixed_hand_all _ _ _ _ _ _ _ E)) as C. pose proof (step_hand_all _ _ _ _ _ _ _ [] E) as S1.
      assert (S2 := step_put_conn c1 r t k1 [] (eq_trans (f_equal (fun m => look m r) C) El)).
      pose proof (step_trans _ _ _ _ _ _ S1 (S2)) as S3. specialize (IH _ _ _ _ _ _ a H).
      intros i. specialize (S3 i). specialize (IH i). rewrite !cnt_app in *. cbn [idsm flat_map snd]. rewrite cnt_app. fold (idsm rest). lia.
    + destruct idle; [discriminate|]. specialize (IH _ _ _ _ _ _ a H). eapply step_cnt; [|exact IH]. intros i.
      pose proof (idsm_put deferred r os i) as P. rewrite !cnt_app. cbn [idsm flat_map snd]. rewrite cnt_app. fold (idsm rest). fold (idsm deferred). lia.
Qed.

Lemma gone_lost r l i : cnt i (flat_map gone (map (LLost r) l)) = cnt i (ids l).
Proof. induction l as [|o l IH]; [reflexivity|]. cbn [map flat_map gone app ids]. rewrite (cnt_cons i _ (flat_map _ _)), (cnt_cons i _ (map _ _)), IH. reflexivity. Qed.

Lemma step_extend deferred : forall c a, step c (extend deferred c) (idsm deferred ++ a) a.
Proof.
  induction deferred as [|[r os] rest IH]; intros c a; cbn [extend]; [apply step_refl|].
  eapply step_trans; [|apply IH]. intros i. pose proof (idsm_put (c_outs c) r os i) as P. unfold tot.
  destruct (look (c_outs c) r) as [lost|]; cbn [set_outs set_log c_outs c_new c_conns c_log].
  - rewrite (room_next c (set_outs _ (set_log _ c))) by reflexivity. rewrite flat_map_app, cnt_app, gone_lost. cbn [idsm flat_map snd].
    rewrite !cnt_app. fold (idsm rest). lia.
  - rewrite (room_next c (set_outs _ c)) by reflexivity. cbn [idsm flat_map snd]. rewrite !cnt_app. fold (idsm rest). rewrite cnt_nil in P. lia.
Qed.

Variable ord : nat -> list (opref * list output) -> list (opref * list output).
Hypothesis Hord : forall n l, Permutation (ord n l) l.

Lemma cnt_perm i m m' : Permutation m m' -> cnt i (idsm m) = cnt i (idsm m').
Proof.
  intros P. unfold idsm. apply Permutation_flat_map with (g := fun p => ids (snd p)) in P. apply (Permutation_count_occ Nat.eq_dec). exact P.
Qed.

Lemma step_connect_loop idle left : forall prog c c' prog' left',
  connect_loop g imp ord idle left prog c = inl (c', prog', left') -> step c c' [] [].
Proof.
  induction left as [|left IH]; intros prog c c' prog' left' H; cbn [connect_loop] in H.
  - destruct (pass _ _ _ _ _ _ _) as [[[c1 deferred] prog1]|e]; discriminate.
  - destruct (pass g imp idle (ord (S left) (c_outs c)) [] prog (set_outs [] c)) as [[[c1 deferred] prog1]|e] eqn:E; [|discriminate]. cbn beta iota in H.
    pose proof (step_pass_all _ _ _ _ _ _ _ _ [] E) as S1.
    assert (S0 : step c (set_outs [] c) [] (idsm (ord (S left) (c_outs c)) ++ idsm [] ++ [])).
    { intros i. unfold tot. cbn [set_outs c_outs c_new c_conns c_log]. change (idsm []) with (@nil nat). rewrite (room_next c (set_outs _ c)) by reflexivity.
      rewrite !cnt_app, (cnt_perm i _ _ (Hord _ _)), !cnt_nil. lia. }
    assert (N : c_outs c1 = []).
    { exact (pass_outs _ _ _ _ _ _ _ _ E). }
    assert (S2 : step c1 (set_new [] (set_outs (c_new c1) c1)) (idsm deferred ++ []) (idsm deferred ++ [])).
    { intros i. unfold tot. cbn [set_new set_outs c_outs c_new c_conns c_log]. rewrite (room_next c1 (set_new _ (set_outs _ c1))) by reflexivity.
      rewrite N. change (idsm []) with (@nil nat). rewrite !cnt_nil. lia. }
    pose proof (step_extend deferred (set_new [] (set_outs (c_new c1) c1)) []) as S3.
    assert (S : step c (extend deferred (set_new [] (set_outs (c_new c1) c1))) [] []).
    { eapply step_trans; [exact S0|]. eapply step_trans; [exact S1|]. eapply step_trans; [exact S2|]. exact S3. }
    destruct (c_new c1); [injection H as <- _ _; exact S|]. eapply step_trans; [exact S|]. eapply IH; eauto.
Qed.
End Connect.

(** ** Building *)
Section Build.
Variable g : registry.
Variable tm : list (nat * template).
Variable imp : opref.

Lemma step_same c c' a : c_outs c' = c_outs c -> c_new c' = c_new c -> c_conns c' = c_conns c -> c_log c' = c_log c -> c_next c' = c_next c -> step c c' a a.
Proof. intros A B C D E i. unfold tot. rewrite A, B, C, D, (room_next c c' E). lia. Qed.

Lemma step_fresh l sc : forall c c' os a, fresh_outputs l sc c = (c', os) -> step c c' a (ids (map snd os) ++ a).
Proof.
  induction l as [|[t ty] l IH]; intros c c' os a; cbn [fresh_outputs].
  - intros [= <- <-]. apply step_refl.
  - destruct (spawn_output ty sc c) as [c1 o] eqn:E1. destruct (fresh_outputs l sc c1) as [c2 r] eqn:E2. intros [= <- <-].
    eapply step_trans; [apply (step_spawn_output _ _ _ _ _ a E1)|]. cbn [map ids snd app].
    eapply step_cnt; [|apply (IH _ _ _ (o_id o :: a) E2)]. intros i. fold (ids (map snd r)).
    rewrite (cnt_cons i _ (ids (map snd r) ++ a)), !cnt_app, (cnt_cons i _ a). lia.
Qed.

Lemma step_adds ns os : forall c a, step c (add_outputs ns os c) (ids (map snd os) ++ a) a.
Proof.
  induction os as [|[t o] os IH]; intros c a; cbn [add_outputs map ids snd app]; [apply step_refl|].
  eapply step_trans; [apply step_add|]. apply IH.
Qed.

Lemma step_finish u inp bufs outs c c' : finish g u inp bufs outs c = inl c' -> step c c' [] [].
Proof.
  unfold finish. intros H.
  assert (X : exists c1 ins, step c c1 [] [] /\
     (let '(c2, os) := fresh_outputs outs (u_scope u) c1 in note (LBuilt u ins bufs (declared os)) (add_outputs (u_ns u) os c2)) = c').
  { destruct inp as [ty|].
    - destruct (spawn_slot ty (u_scope u) c) as [c0 s] eqn:E0.
      destruct (set_input g (u_ns u) (RNamed [] None (u_id u)) s (u_scope u) c0) as [c1|] eqn:E1; [|discriminate]. cbn beta iota in H.
      exists c1, [(None, s)]. split; [eapply step_trans; [apply (step_spawn_slot _ _ _ _ _ _ E0)|apply (step_set_input _ _ _ _ _ _ _ _ E1)]|].
      unfold Ok in H. destruct (fresh_outputs outs (u_scope u) c1) as [c2 os]; injection H as <-; reflexivity.
    - unfold Ok in H. exists c, []. split; [apply step_refl|]. destruct (fresh_outputs outs (u_scope u) c) as [c2 os]; injection H as <-; reflexivity. }
  destruct X as (c1 & ins & S & E). destruct (fresh_outputs outs (u_scope u) c1) as [c2 os] eqn:F. subst c'.
  eapply step_trans; [exact S|]. eapply step_trans; [apply (step_fresh _ _ _ _ _ [] F)|]. eapply step_trans; [apply step_adds|].
  apply step_note0. reflexivity.
Qed.

Lemma step_section_inputs u l : forall c c' q a, section_inputs g u l c = inl (c', q) -> step c c' a a.
Proof.
  induction l as [|[x ty] l IH]; intros c c' q a; cbn [section_inputs].
  - intros [= <- _]. apply step_refl.
  - destruct (spawn_slot ty (u_scope u) c) as [c0 s] eqn:E0. destruct (set_input _ _ _ s _ c0) as [c1|] eqn:E1; [|discriminate]. cbn beta iota.
    destruct (section_inputs g u l c1) as [[c2 q2]|] eqn:E2; [|discriminate]. intros [= <- _].
    eapply step_trans; [apply (step_spawn_slot _ _ _ _ _ _ E0)|]. eapply step_trans; [apply (step_set_input _ _ _ _ _ _ _ _ E1)|]. eapply IH; eauto.
Qed.

Lemma step_section_buffers u l : forall c c' q a, section_buffers g u l c = inl (c', q) -> step c c' a a.
Proof.
  induction l as [|[x ty] l IH]; intros c c' q a; cbn [section_buffers].
  - intros [= <- _]. apply step_refl.
  - destruct (spawn_slot ty (u_scope u) c) as [c0 s] eqn:E0. destruct (set_buffer _ _ _ s _ c0) as [c1|] eqn:E1; [|discriminate]. cbn beta iota.
    destruct (section_buffers g u l c1) as [[c2 q2]|] eqn:E2; [|discriminate]. intros [= <- _].
    eapply step_trans; [apply (step_spawn_slot _ _ _ _ _ _ E0)|]. eapply step_trans; [apply (step_set_buffer _ _ _ _ _ _ _ _ E1)|]. eapply IH; eauto.
Qed.

Lemma step_child_inputs u l : forall c c' a, child_inputs u l c = inl c' -> step c c' a a.
Proof.
  induction l as [|[x t] l IH]; intros c c' a; cbn [child_inputs].
  - intros [= <-]. apply step_refl.
  - destruct (set_conn _ _ _ c) as [c1|] eqn:E1; [|discriminate]. cbn beta iota. intros H.
    eapply step_trans; [apply (step_set_conn _ _ _ _ _ a E1)|]. eapply IH; eauto.
Qed.

Lemma step_child_buffers u l : forall c c' a, child_buffers u l c = inl c' -> step c c' a a.
Proof.
  induction l as [|[x t] l IH]; intros c c' a; cbn [child_buffers].
  - intros [= <-]. apply step_refl.
  - destruct (set_conn _ _ _ c) as [c1|] eqn:E1; [|discriminate]. cbn beta iota. destruct (look (c_bufs c1) _); [discriminate|]. intros H.
    eapply step_trans; [apply (step_set_conn _ _ _ _ _ a E1)|]. eapply step_trans; [|eapply IH; eauto]. apply step_same; reflexivity.
Qed.

Lemma step_child_outputs u cn l : forall c c' a, child_outputs u cn l c = inl c' -> step c c' a a.
Proof.
  induction l as [|x l IH]; intros c c' a; cbn [child_outputs].
  - intros [= <-]. apply step_refl.
  - destruct (set_conn _ _ _ c) as [c1|] eqn:E1; [|discriminate]. cbn beta iota. intros H.
    eapply step_trans; [apply (step_set_conn _ _ _ _ _ a E1)|]. eapply IH; eauto.
Qed.

Lemma step_scope_streams u sc l : forall c c' a, scope_streams u sc l c = inl c' -> step c c' a a.
Proof.
  induction l as [|[x t] l IH]; intros c c' a; cbn [scope_streams].
  - intros [= <-]. apply step_refl.
  - destruct (set_conn _ _ _ c) as [c1|] eqn:E1; [|discriminate]. cbn beta iota. intros H.
    eapply step_trans; [apply (step_set_conn _ _ _ _ _ a E1)|]. eapply IH; eauto.
Qed.

Lemma step_hints h ns ty sel c c' a : set_type_hints h ns ty sel c = inl c' -> step c c' a a.
Proof.
  unfold set_type_hints. destruct (h ty (map fst sel)) as [hs|]; [|discriminate]. intros [= <-]. clear h.
  revert hs c. induction sel as [|[k t] sel IH]; intros hs c; cbn [add_hints]; [destruct hs; apply step_refl|].
  destruct hs as [|h hs]; [apply step_refl|]. eapply step_trans; [|apply IH]. apply step_same; reflexivity.
Qed.

Lemma step_build_op u c c' fin : build_op g tm imp u c = inl (c', fin) -> step c c' [] [].
Proof.
  assert (D : forall r : res con, (forall c1, r = inl c1 -> step c c1 [] []) -> (let? c1 := r in Ok (c1, true)) = inl (c', fin) -> step c c' [] []).
  { intros [c1|e] X; [|discriminate]. intros [= <- _]. auto. }
  unfold build_op. destruct (u_op u) as [b next streams|[b|t] cn|start ops streams next|n|nexts|nexts|ok er|keyed seq rem|next sel ser|next er|ser|next sel|next sel].
  - destruct (r_node g b) as [[[q p] have]|]; [|discriminate]. destruct (named_streams have streams); [|discriminate].
    apply D. intros c1. apply step_finish.
  - destruct (r_section g b) as [[[ins outs] bufs]|]; [|discriminate].
    destruct (section_inputs g u ins c) as [[c1 q1]|] eqn:E1; [|discriminate]. cbn beta iota.
    destruct (unknown_output cn (map fst outs)); [discriminate|]. cbn [fst].
    destruct (fresh_outputs (section_targets cn outs) (u_scope u) c1) as [c2 os] eqn:E2.
    destruct (section_buffers g u bufs (add_outputs (u_ns u) os c2)) as [[c3 q3]|] eqn:E3; [|discriminate]. cbn [fst snd].
    destruct (set_conn _ _ _ c3) as [c4|] eqn:E4; [|discriminate]. intros [= <- _].
    eapply step_trans; [apply (step_section_inputs _ _ _ _ _ _ E1)|]. eapply step_trans; [apply (step_fresh _ _ _ _ _ [] E2)|].
    eapply step_trans; [apply step_adds|]. eapply step_trans; [apply (step_section_buffers _ _ _ _ _ _ E3)|].
    eapply step_trans; [apply (step_set_conn _ _ _ _ _ [] E4)|]. apply step_note0. reflexivity.
  - destruct (find t tm) as [T|]; [|discriminate].
    destruct (child_inputs u (t_inputs T) (add_children u (t_ops T) (u_scope u) c)) as [c2|] eqn:E2; [|discriminate]. cbn beta iota.
    destruct (child_buffers u (t_buffers T) c2) as [c3|] eqn:E3; [|discriminate]. cbn beta iota.
    destruct (unknown_output cn (t_outputs T)); [discriminate|].
    destruct (child_outputs u cn (t_outputs T) c3) as [c4|] eqn:E4; [|discriminate]. cbn beta iota.
    destruct (set_conn _ _ _ c4) as [c5|] eqn:E5; [|discriminate]. intros [= <- _].
    eapply step_trans; [|eapply step_trans; [apply (step_child_inputs _ _ _ _ _ E2)|]]; [apply step_same; reflexivity|].
    eapply step_trans; [apply (step_child_buffers _ _ _ _ _ E3)|]. eapply step_trans; [apply (step_child_outputs _ _ _ _ _ _ E4)|].
    eapply step_trans; [apply (step_set_conn _ _ _ _ _ [] E5)|]. apply step_note0. reflexivity.
  - destruct (spawn c) as [c1 scid] eqn:E1. destruct (spawn c1) as [c2 ex] eqn:E2. destruct (spawn c2) as [c3 enter] eqn:E3. destruct (spawn c3) as [c4 term] eqn:E4.
    destruct (scope_streams u scid streams _) as [c6|] eqn:E6; [|discriminate]. cbn beta iota.
    destruct (set_conn _ _ _ (add_children u ops scid c6)) as [c8|] eqn:E8; [|discriminate]. cbn beta iota.
    destruct (set_conn _ _ _ c8) as [c9|] eqn:E9; [|discriminate]. intros [= <- _].
    eapply step_trans; [apply (step_spawn _ _ _ _ E1)|]. eapply step_trans; [apply step_drop|].
    eapply step_trans; [apply (step_spawn _ _ _ _ E2)|]. eapply step_trans; [apply (step_spawn _ _ _ _ E3)|].
    eapply step_trans; [apply (step_spawn _ _ _ _ E4)|]. eapply step_trans; [apply step_drop|].
    eapply step_trans; [apply (step_note0 (LScope u scid enter term ex)); reflexivity|].
    eapply step_trans; [apply (step_scope_streams _ _ _ _ _ _ E6)|].
    eapply step_trans; [apply (step_same c6 (add_children u ops scid c6)); reflexivity|].
    eapply step_trans; [apply (step_set_conn _ _ _ _ _ [ex] E8)|]. eapply step_trans; [apply (step_set_conn _ _ _ _ _ [] E9)|].
    apply step_note0. reflexivity.
  - destruct (set_conn _ _ _ c) as [c1|] eqn:E1; [|discriminate]. intros [= <- _].
    eapply step_trans; [apply (step_set_conn _ _ _ _ _ [] E1)|]. apply step_note0. reflexivity.
  - destruct (infer_first _ _ c) as [[ty|]|]; [|intros [= <- _]; apply step_refl|discriminate]. cbn beta iota.
    destruct (r_clone g ty); [|discriminate]. apply D. intros c1. apply step_finish.
  - destruct (infer_into _ _ c) as [[ty|]|]; [|intros [= <- _]; apply step_refl|discriminate]. cbn beta iota.
    destruct (r_unzip g ty); [|discriminate]. destruct (_ =? _); [|discriminate]. apply D. intros c1. apply step_finish.
  - destruct (infer_into _ _ c) as [[ty|]|]; [|intros [= <- _]; apply step_refl|discriminate]. cbn beta iota.
    destruct (r_result g ty) as [[t1 t2]|]; [|discriminate]. apply D. intros c1. apply step_finish.
  - destruct (infer_into _ _ c) as [[ty|]|]; [|intros [= <- _]; apply step_refl|discriminate]. cbn beta iota.
    destruct (r_split _ _ _ _ _); [|discriminate]. apply D. intros c1. apply step_finish.
  - destruct sel as [|kt sel]; [discriminate|]. destruct (buffer_map _ c _) as [m|]; [|intros [= <- _]; apply step_refl].
    destruct ser.
    + destruct (r_join _ _ _); [|discriminate]. apply D. intros c1. apply step_finish.
    + destruct (infer_into _ _ c) as [[ty|]|]; [|intros [= <- _]; apply step_refl|discriminate]. cbn beta iota.
      destruct (r_join _ _ _); [|discriminate]. apply D. intros c1. apply step_finish.
  - destruct (spawn_output TFailed (u_scope u) c) as [c1 e1] eqn:E1.
    destruct (spawn_slot TJson (u_scope u) _) as [c3 s] eqn:E3.
    destruct (set_input _ _ _ s _ c3) as [c4|] eqn:E4; [|discriminate]. cbn beta iota.
    destruct (spawn_output TJson (u_scope u) c4) as [c5 ok] eqn:E5. intros [= <- _].
    eapply step_trans; [apply (step_spawn_output _ _ _ _ _ _ E1)|]. eapply step_trans; [apply step_add|].
    eapply step_trans; [apply (step_spawn_slot _ _ _ _ _ _ E3)|]. eapply step_trans; [apply (step_set_input _ _ _ _ _ _ _ _ E4)|].
    eapply step_trans; [apply (step_spawn_output _ _ _ _ _ _ E5)|]. eapply step_trans; [apply step_add|]. apply step_note0. reflexivity.
  - match goal with |- context[match ?x with inl _ => _ | inr _ => _ end] => destruct x as [[ty|]|] end; [|intros [= <- _]; apply step_refl|discriminate].
    cbn beta iota. destruct (r_known g ty); [|discriminate]. destruct (spawn_slot ty (u_scope u) c) as [c1 s] eqn:E1.
    destruct (set_buffer _ _ _ s _ c1) as [c2|] eqn:E2; [|discriminate]. intros [= <- _].
    eapply step_trans; [apply (step_spawn_slot _ _ _ _ _ _ E1)|]. eapply step_trans; [apply (step_set_buffer _ _ _ _ _ _ _ _ E2)|]. apply step_note0. reflexivity.
  - destruct (infer_into _ _ c) as [[ty|]|]; [|intros [= <- _]; apply step_refl|discriminate]. cbn beta iota.
    destruct (set_type_hints _ _ ty sel c) as [c1|] eqn:E1; [|discriminate]. cbn beta iota.
    destruct (buffer_map _ c1 sel); [|intros [= <- _]; eapply step_hints; eauto].
    destruct (r_access _ _ _); [|discriminate]. apply D. intros c2 H. eapply step_trans; [eapply step_hints; eauto|eapply step_finish; eauto].
  - destruct (infer_into _ _ c) as [[ty|]|]; [|intros [= <- _]; apply step_refl|discriminate]. cbn beta iota.
    destruct (set_type_hints _ _ ty sel c) as [c1|] eqn:E1; [|discriminate]. cbn beta iota.
    destruct (buffer_map _ c1 sel); [|intros [= <- _]; eapply step_hints; eauto].
    destruct (r_listen _ _ _); [|discriminate]. apply D. intros c2 H. eapply step_trans; [eapply step_hints; eauto|eapply step_finish; eauto].
Qed.

Lemma step_build_all todo : forall waiting seen prog c c' w s p,
  build_all g tm imp todo waiting seen prog c = inl (c', w, s, p) -> step c c' [] [].
Proof.
  induction todo as [|u todo IH]; intros waiting seen prog c c' w s p; cbn [build_all].
  - intros [= <- _ _ _]. apply step_refl.
  - destruct (build_op g tm imp u c) as [[c1 fin]|] eqn:E; [|discriminate]. cbn beta iota. intros H.
    eapply step_trans; [apply (step_build_op _ _ _ _ E)|]. eapply step_trans; [apply (step_same c1 (set_gen [] c1)); reflexivity|].
    destruct fin; eapply IH; eauto.
Qed.

Variable ord : nat -> list (opref * list output) -> list (opref * list output).
Hypothesis Hord : forall n l, Permutation (ord n l) l.

Lemma step_build_loop fuel : forall left todo seen c c', build_loop g tm imp ord fuel left todo seen c = inl c' -> step c c' [] [].
Proof.
  induction fuel as [|fuel IH]; intros left todo seen c c'; cbn [build_loop]; (destruct (is_nil todo && negb (has_outputs (c_outs c))); [intros [= <-]; apply step_refl|]); [discriminate|].
  destruct (build_all g tm imp todo [] seen false c) as [[[[c1 todo1] seen1] prog]|] eqn:E1; [|discriminate]. cbn beta iota.
  destruct (connect_loop g imp ord (is_nil todo1) left prog c1) as [[[c2 prog1] left1]|] eqn:E2; [|discriminate]. cbn beta iota.
  destruct prog1; [|discriminate]. destruct left1 as [|left2]; [discriminate|]. intros H.
  eapply step_trans; [eapply step_build_all; eauto|]. eapply step_trans; [eapply step_connect_loop; eauto|]. eapply IH; eauto.
Qed.

Lemma step_root ss : forall c c', root_streams g ss c = inl c' -> step c c' [] [].
Proof.
  induction ss as [|[n ty] ss IH]; intros c c'; cbn [root_streams]; [intros [= <-]; apply step_refl|].
  destruct (spawn_slot ty 0 c) as [c0 s] eqn:E0. destruct (set_input _ _ _ s _ c0) as [c1|] eqn:E1; [|discriminate]. cbn beta iota. intros H.
  eapply step_trans; [apply (step_spawn_slot _ _ _ _ _ _ E0)|]. eapply step_trans; [apply (step_set_input _ _ _ _ _ _ _ _ E1)|]. eapply IH; eauto.
Qed.

Lemma step_init start q p ss c : init g start q p ss = inl c -> step empty_con c [] [].
Proof.
  unfold init. destruct (spawn_output q 0 empty_con) as [c1 o] eqn:E1. destruct (spawn_slot p 0 _) as [c3 t] eqn:E3.
  destruct (set_input _ _ _ t _ c3) as [c4|] eqn:E4; [|discriminate]. cbn beta iota.
  destruct (root_streams g ss c4) as [c5|] eqn:E5; [|discriminate]. cbn beta iota.
  destruct (set_conn RDispose _ _ c5) as [c6|] eqn:E6; [|discriminate]. cbn beta iota.
  destruct (spawn_slot TUnit 0 c6) as [c7 quiet] eqn:E7. destruct (spawn_slot TJson 0 c7) as [c8 json] eqn:E8. destruct (spawn_slot TString 0 c8) as [c9 string] eqn:E9.
  intros H.
  eapply step_trans; [apply (step_spawn_output _ _ _ _ _ _ E1)|]. eapply step_trans; [apply step_add|].
  eapply step_trans; [apply (step_spawn_slot _ _ _ _ _ _ E3)|]. eapply step_trans; [apply (step_set_input _ _ _ _ _ _ _ _ E4)|].
  eapply step_trans; [apply (step_root _ _ _ E5)|]. eapply step_trans; [apply (step_set_conn _ _ _ _ _ [] E6)|].
  eapply step_trans; [apply (step_spawn_slot _ _ _ _ _ _ E7)|]. eapply step_trans; [apply (step_spawn_slot _ _ _ _ _ _ E8)|].
  eapply step_trans; [apply (step_spawn_slot _ _ _ _ _ _ E9)|].
  eapply step_trans; [|apply (step_set_conn _ _ _ _ _ [] H)].
  eapply step_trans; [apply (step_note0 (LSlot (RCancel []) quiet)); reflexivity|].
  eapply step_trans; [apply (step_note0 (LSlot (RCancel []) json)); reflexivity|].
  apply (step_note0 (LSlot (RCancel []) string)); reflexivity.
Qed.
End Build.

(** ** The whole construction *)
Lemma builds_once g d q p ss log : builds g d q p ss log -> NoDup (flat_map gone log).
Proof.
  intros (ord & max & c & Ho & H & <-). unfold create_workflow in H. destruct (validate_names d); [discriminate|].
  destruct (validate_templates d); [|discriminate]. cbn beta iota in H.
  destruct (init g (d_start d) q p ss) as [c0|] eqn:E0; [|discriminate]. cbn beta iota in H.
  destruct (build_loop _ _ _ _ _ _ _ _ c0) as [c1|] eqn:E1; [|discriminate]. cbn beta iota in H.
  destruct (unfinished (c_conns c1)); [|discriminate]. injection H as <-.
  pose proof (step_trans _ _ _ _ _ _ (step_init _ _ _ _ _ _ E0) (step_build_loop _ _ _ _ Ho _ _ _ _ _ _ E1)) as S.
  apply (NoDup_count_occ Nat.eq_dec). intros i. specialize (S i). unfold tot in S. fold (cnt i (flat_map gone (c_log c1))).
  assert (room c1 i <= 1) by (unfold room; destruct (_ <? _); lia). cbn [empty_con c_outs c_new c_conns c_log idsm keptm flat_map] in S. rewrite cnt_nil in S. lia.
Qed.

Lemma gone_once log i j e e' x : NoDup (flat_map gone log) -> nth_error log i = Some e -> nth_error log j = Some e' ->
  In x (gone e) -> In x (gone e') -> i = j.
Proof.
  revert i j. induction log as [|a log IH]; intros i j N A B X Y; [destruct i; discriminate|]. cbn [flat_map] in N.
  assert (D : forall k e0, nth_error log k = Some e0 -> In x (gone e0) -> ~ In x (gone a)).
  { intros k e0 K Z1 Z2. apply nth_error_In in K. revert N Z2. generalize (gone a). intros l N Z2. induction l as [|y l IHl]; [destruct Z2|].
    cbn [app] in N. apply NoDup_cons_iff in N as [N1 N2]. destruct Z2 as [->|Z2]; [|auto]. apply N1. apply in_app_iff. right. apply in_flat_map. eauto. }
  destruct i as [|i], j as [|j]; cbn [nth_error] in *.
  - reflexivity.
  - injection A as ->. destruct (D _ _ B Y X).
  - injection B as ->. destruct (D _ _ A X Y).
  - f_equal. eapply IH; eauto. clear - N. induction (gone a); [exact N|]. cbn [app] in N. apply NoDup_cons_iff in N as [_ N]. auto.
Qed.
