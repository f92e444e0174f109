(** Where things begin: in a diagram of plain operations, every place that a
    message can be at is made once. *)
From Verif Require Import Base DiagramModel DiagramSpec DiagramProofs DiagramProofs3.

Definition birth (e : entry) : list nat :=
  match e with
  | LPut _ o | LPass _ o => [o_id o]
  | LConv _ i ok _ => [s_id i; o_id ok]
  | LBuilt _ ins _ _ => map (fun x => s_id (snd x)) ins
  | LSlot (RTerminate []) s | LSlot (RCancel []) s => [s_id s]
  | _ => []
  end.

Notation births c := (flat_map birth (c_log c)).

Definition plain_op (o : op) : Prop :=
  match o with
  | ONode _ _ streams => streams = []
  | OFork nexts => nexts <> []
  | OUnzip _ | OResult _ _ | OTransform _ _ => True
  | _ => False
  end.

Definition smooth (k : connector) : Prop :=
  match k with KStd _ | KDispose | KCancel _ _ _ _ _ _ => True | _ => False end.

Definition smooths (c : con) : Prop := forall r t, look (c_conns c) r = Some t -> smooth (t_conn t).

Definition fs (c c' : con) : Prop :=
  exists B, births c' = births c ++ B /\ NoDup B /\ (forall x, In x B -> c_next c <= x < c_next c') /\ c_next c <= c_next c' /\
    incl (c_log c) (c_log c').

Definition once (c : con) : Prop := NoDup (births c) /\ forall x, In x (births c) -> x < c_next c.

Lemma fs_refl c : fs c c.
Proof. exists []. rewrite app_nil_r. split; [reflexivity|]. split; [constructor|]. split; [intros x []|split; [lia|apply incl_refl]]. Qed.

Lemma nodup_join (a b : list nat) m : NoDup a -> NoDup b -> (forall x, In x a -> x < m) -> (forall x, In x b -> m <= x) -> NoDup (a ++ b).
Proof.
  induction a as [|y a IH]; intros Na Nb Ha Hb; [exact Nb|]. cbn [app]. apply NoDup_cons_iff in Na as [N1 N2]. constructor.
  - rewrite in_app_iff. intros [X|X]; [auto|]. pose proof (Ha y (or_introl eq_refl)). pose proof (Hb y X). lia.
  - apply IH; auto. intros x X. apply Ha. right. exact X.
Qed.

Lemma fs_trans a b c : fs a b -> fs b c -> fs a c.
Proof.
  intros (A & EA & NA & HA & LA & IA) (B & EB & NB & HB & LB & IB). exists (A ++ B).
  rewrite EB, EA, app_assoc. split; [reflexivity|]. split.
  - apply (nodup_join _ _ (c_next b)); auto; intros x X; [apply HA in X|apply HB in X]; lia.
  - split; [|split; [lia|eapply incl_tran; eauto]]. intros x X. apply in_app_iff in X as [X|X]; [apply HA in X|apply HB in X]; lia.
Qed.

Lemma fs_once c c' : once c -> fs c c' -> once c'.
Proof.
  intros [N H] (B & E & NB & HB & L & _). split; rewrite E.
  - apply (nodup_join _ _ (c_next c)); auto. intros x X. apply HB in X. lia.
  - intros x X. apply in_app_iff in X as [X|X]; [apply H in X|apply HB in X]; lia.
Qed.

Lemma births_note e c : births (note e c) = births c ++ birth e.
Proof. unfold note, set_log. cbn [c_log]. rewrite flat_map_app. cbn [flat_map]. rewrite app_nil_r. reflexivity. Qed.

Lemma fs_same c c' : births c' = births c -> c_next c <= c_next c' -> incl (c_log c) (c_log c') -> fs c c'.
Proof. intros E L I. exists []. rewrite app_nil_r. split; [exact E|]. split; [constructor|]. split; [intros x []|auto]. Qed.

Lemma incl_note e c : incl (c_log c) (c_log (note e c)).
Proof. apply incl_appl, incl_refl. Qed.

Ltac incl_notes := repeat (eapply incl_tran; [|apply incl_note]); apply incl_refl.

Lemma fs_note e c : birth e = [] -> fs c (note e c).
Proof. intros E. apply fs_same; [rewrite births_note, E, app_nil_r; reflexivity|reflexivity|apply incl_note]. Qed.

Lemma connect_to_eq o s c c' : connect_to o s c = inl c' -> c' = note (LConnect o s) c.
Proof. unfold connect_to. destruct (o_ty o =? s_ty s); [|discriminate]. intros [= <-]. reflexivity. Qed.

Ltac links :=
  repeat match goal with
  | H : match connect_to ?o ?s ?c with inl _ => _ | inr _ => _ end = inl _ |- _ =>
      let E := fresh "E" in destruct (connect_to o s c) eqn:E; [apply connect_to_eq in E; subst|discriminate H]
  end.
Ltac nodup_small := repeat (constructor; [cbn; intuition lia|]); try constructor.

Section Births.
Variable g : registry.
Variable imp : opref.

Lemma try_serialize_fs sc s inc o c c' x : try_serialize g imp sc s inc o c = inl (c', x) -> fs c c'.
Proof.
  intros H. unfold try_serialize in H. destruct (o_ty o =? TJson).
  - links. injection H as <- _. apply fs_note. reflexivity.
  - destruct (find (o_ty o) inc) as [i|]; [links; injection H as <- _; apply fs_note; reflexivity|].
    destruct (r_ser g (o_ty o)); [|injection H as <- _; apply fs_refl]. cbn [new_fallible spawn_slot spawn_output spawn] in H.
    links. injection H as <- _. set (n := c_next c). exists [n; S n; S (S n)]. unfold pass_output.
    rewrite !births_note. cbn [set_new c_log]. rewrite !births_note. cbn [birth s_id o_id app set_next c_log c_next note set_log set_new].
    rewrite !app_nil_r. rewrite <- !app_assoc. split; [reflexivity|]. split; [nodup_small|]. split; [|split; [subst n; lia|intros z Z; cbn; rewrite !in_app_iff; auto 8]].
    intros y Y. cbn in Y. subst n. intuition lia.
Qed.

Lemma deserialize_fs sc s ser o c c' x : deserialize g imp sc s ser o c = inl (c', x) -> fs c c'.
Proof.
  intros H. unfold deserialize in H. destruct (o_ty o =? s_ty s).
  - links. injection H as <- _. apply fs_note. reflexivity.
  - destruct (o_ty o =? TJson); [|discriminate].
    destruct ser as [i|]; [links; injection H as <- _; apply fs_note; reflexivity|].
    destruct (r_de g (s_ty s)); [|discriminate]. cbn [new_fallible spawn_slot spawn_output spawn] in H.
    links. injection H as <- _. set (n := c_next c). exists [n; S n; S (S n)]. unfold pass_output.
    rewrite !births_note. cbn [set_new c_log]. rewrite !births_note. cbn [birth s_id o_id app set_next c_log c_next note set_log set_new].
    rewrite !app_nil_r. rewrite <- !app_assoc. split; [reflexivity|]. split; [nodup_small|]. split; [|split; [subst n; lia|intros z Z; cbn; rewrite !in_app_iff; auto 8]].
    intros y Y. cbn in Y. subst n. intuition lia.
Qed.

Lemma std_connect_fs sc x o c c' x' : std_connect g imp sc x o c = inl (c', x') -> fs c c'.
Proof.
  intros H. destruct x as [s inc|s ser|s]; cbn [std_connect] in H.
  - destruct (try_serialize g imp sc s inc o c) as [[c1 [y|]]|e] eqn:E; [|discriminate|discriminate].
    injection H as <- _. eapply try_serialize_fs; eauto.
  - destruct (deserialize g imp sc s ser o c) as [[c1 y]|e] eqn:E; [|discriminate].
    injection H as <- _. eapply deserialize_fs; eauto.
  - links. injection H as <- _. apply fs_note. reflexivity.
Qed.

Lemma plain_fs k tin tout sc s o c i out c2 c3 :
  new_plain k tin tout sc c = (c2, (i, out)) -> c3 = note (LConnect o i) (note (LConnect out s) c2) -> fs c c3.
Proof.
  cbn [new_plain spawn_slot spawn_output spawn]. intros [= <- <- <-] ->.
  set (n := c_next c). exists [n; S n].
  rewrite !births_note. cbn [birth s_id o_id app set_next c_log c_next note set_log].
  rewrite !app_nil_r. split; [reflexivity|]. split; [nodup_small|]. split; [|split; [subst n; lia|intros z Z; cbn; rewrite !in_app_iff; auto 8]].
  intros y Y. cbn in Y. subst n. intuition lia.
Qed.

Lemma cancel_connect_fs sc qq j s js ss ts o c c' k' :
  cancel_connect g imp sc qq j s js ss ts o c = inl (c', k') -> fs c c' /\ smooth k'.
Proof.
  intros H. unfold cancel_connect in H.
  destruct (try_string g sc s ss o c) as [[c1 [ss'|]]|e] eqn:E; [| |discriminate].
  - injection H as <- <-. split; [|exact I]. unfold try_string in E. destruct (o_ty o =? TString).
    + links. injection E as <- _. apply fs_note. reflexivity.
    + destruct (find (o_ty o) ss) as [i|]; [links; injection E as <- _; apply fs_note; reflexivity|].
      destruct (negb (r_known g (o_ty o))); [discriminate|]. destruct (r_string g (o_ty o)); [|discriminate].
      destruct (new_plain CString (o_ty o) TString sc c) as [c2 [i out]] eqn:Ep. links. injection E as <- _.
      eapply plain_fs; [exact Ep|reflexivity].
  - destruct (try_serialize g imp sc j js o c) as [[c2 [js'|]]|e] eqn:E2; [| |discriminate].
    + injection H as <- <-. split; [|exact I]. eapply try_serialize_fs; eauto.
    + destruct (find (o_ty o) ts) as [i|]; [links; injection H as <- <-; split; [apply fs_note; reflexivity|exact I]|].
      destruct (r_known g (o_ty o)); [|discriminate].
      destruct (new_plain CTrigger (o_ty o) TUnit sc c) as [c3 [i out]] eqn:Ep. links. injection H as <- <-.
      split; [|exact I]. eapply plain_fs; [exact Ep|reflexivity].
Qed.

Lemma connect_into_fs r sc k o c c' k' : smooth k -> connect_into g imp r sc k o c = inl (c', k') -> fs c c' /\ smooth k'.
Proof.
  intros W H. destruct k as [x| |q j s js ss ts|to seen|scid en st x|scid te ex par nx x|scid par to x]; try destruct W; cbn [connect_into] in H.
  - destruct (std_connect g imp sc x o c) as [[c1 x1]|e] eqn:E; [|discriminate]. injection H as <- <-.
    split; [eapply std_connect_fs; eauto|exact I].
  - injection H as <- <-. split; [apply fs_refl|exact I].
  - eapply cancel_connect_fs; eauto.
Qed.

Definition keeps (c c' : con) : Prop := c_conns c' = c_conns c /\ c_gen c' = c_gen c.

Lemma try_serialize_keeps sc s inc o c c' x : try_serialize g imp sc s inc o c = inl (c', x) -> keeps c c'.
Proof.
  intros H. unfold try_serialize in H. destruct (o_ty o =? TJson); [links; injection H as <- _; split; reflexivity|].
  destruct (find (o_ty o) inc) as [i|]; [links; injection H as <- _; split; reflexivity|].
  destruct (r_ser g (o_ty o)); [|injection H as <- _; split; reflexivity]. cbn [new_fallible spawn_slot spawn_output spawn] in H.
  links. injection H as <- _. split; reflexivity.
Qed.

Lemma std_connect_keeps sc x o c c' x' : std_connect g imp sc x o c = inl (c', x') -> keeps c c'.
Proof.
  intros H. destruct x as [s inc|s ser|s]; cbn [std_connect] in H.
  - destruct (try_serialize g imp sc s inc o c) as [[c1 [y|]]|e] eqn:E; [|discriminate|discriminate].
    injection H as <- _. eapply try_serialize_keeps; eauto.
  - destruct (deserialize g imp sc s ser o c) as [[c1 y]|e] eqn:E; [|discriminate]. injection H as <- _.
    unfold deserialize in E. destruct (o_ty o =? s_ty s); [links; injection E as <- _; split; reflexivity|].
    destruct (o_ty o =? TJson); [|discriminate]. destruct ser as [i|]; [links; injection E as <- _; split; reflexivity|].
    destruct (r_de g (s_ty s)); [|discriminate]. cbn [new_fallible spawn_slot spawn_output spawn] in E.
    links. injection E as <- _. split; reflexivity.
  - links. injection H as <- _. split; reflexivity.
Qed.

Lemma connect_into_keeps r sc k o c c' k' : smooth k -> connect_into g imp r sc k o c = inl (c', k') -> keeps c c'.
Proof.
  intros W H. destruct k as [x| |q j s js ss ts|to seen|scid en st x|scid te ex par nx x|scid par to x]; try destruct W; cbn [connect_into] in H.
  - destruct (std_connect g imp sc x o c) as [[c1 x1]|e] eqn:E; [|discriminate]. injection H as <- _. eapply std_connect_keeps; eauto.
  - injection H as <- _. split; reflexivity.
  - unfold cancel_connect in H. destruct (try_string g sc s ss o c) as [[c1 [ss'|]]|e] eqn:E; [| |discriminate].
    + injection H as <- _. unfold try_string in E. destruct (o_ty o =? TString); [links; injection E as <- _; split; reflexivity|].
      destruct (find (o_ty o) ss) as [i|]; [links; injection E as <- _; split; reflexivity|].
      destruct (negb (r_known g (o_ty o))); [discriminate|]. destruct (r_string g (o_ty o)); [|discriminate].
      cbn [new_plain spawn_slot spawn_output spawn] in E. links. injection E as <- _. split; reflexivity.
    + destruct (try_serialize g imp sc j js o c) as [[c2 [js'|]]|e] eqn:E2; [| |discriminate].
      * injection H as <- _. eapply try_serialize_keeps; eauto.
      * destruct (find (o_ty o) ts) as [i|]; [links; injection H as <- _; split; reflexivity|].
        destruct (r_known g (o_ty o)); [|discriminate]. cbn [new_plain spawn_slot spawn_output spawn] in H.
        links. injection H as <- _. split; reflexivity.
Qed.

Lemma hand_all_fs r sc os : forall k c c' k', smooth k -> hand_all g imp r sc k os c = inl (c', k') ->
  fs c c' /\ smooth k' /\ keeps c c'.
Proof.
  induction os as [|o os IH]; intros k c c' k' W H; cbn [hand_all] in H; [injection H as <- <-; split; [apply fs_refl|split; [exact W|split; reflexivity]]|].
  destruct (connect_into g imp r sc k o (note (LHand r o) c)) as [[c1 k1]|e] eqn:E; [|discriminate].
  destruct (connect_into_fs _ _ _ _ _ _ _ W E) as [A B]. destruct (IH _ _ _ _ B H) as (C & D & F).
  split; [eapply fs_trans; [apply (fs_note (LHand r o)); reflexivity|eapply fs_trans; [exact A|exact C]]|]. split; [exact D|].
  destruct (connect_into_keeps _ _ _ _ _ _ _ W E) as [K1 K2]. destruct F as [K3 K4]. split; [rewrite K3; exact K1|rewrite K4; exact K2].
Qed.

Lemma pass_fs idle drained : forall deferred prog c c' deferred' prog', smooths c ->
  pass g imp idle drained deferred prog c = inl (c', deferred', prog') -> fs c c' /\ smooths c'.
Proof.
  induction drained as [|[r os] rest IH]; intros deferred prog c c' deferred' prog' W H; cbn [pass] in H.
  - injection H as <- _ _. split; [apply fs_refl|exact W].
  - destruct (look (c_conns c) r) as [t|] eqn:El.
    + destruct (hand_all g imp r (t_scope t) (t_conn t) os c) as [[c1 k1]|e] eqn:E; [|discriminate].
      destruct (hand_all_fs _ _ _ _ _ _ _ (W _ _ El) E) as (A & B & D & _). apply IH in H.
      * destruct H as [H1 H2]. split; [|exact H2]. eapply fs_trans; [exact A|]. exact H1.
      * intros r' t' X. cbn [set_conns c_conns] in X. rewrite look_put in X. destruct (opref_eq_dec r' r) as [->|N].
        -- injection X as <-. exact B.
        -- rewrite D in X. exact (W _ _ X).
    + destruct idle; [discriminate|]. eapply IH; eauto.
Qed.

Lemma extend_fs deferred : forall c, smooths c -> fs c (extend deferred c) /\ smooths (extend deferred c).
Proof.
  induction deferred as [|[r os] rest IH]; intros c W; cbn [extend]; [split; [apply fs_refl|exact W]|].
  destruct (look (c_outs c) r) as [lost|].
  - edestruct IH as [A B]; [|split; [|exact B]; eapply fs_trans; [|exact A]]; [exact W|]. apply fs_same; [|reflexivity|apply incl_appl, incl_refl].
    cbn [set_outs set_log c_log]. rewrite flat_map_app. replace (flat_map birth (map (LLost r) lost)) with (@nil nat); [apply app_nil_r|].
    clear. induction lost as [|x lost IHl]; [reflexivity|exact IHl].
  - edestruct IH as [A B]; [|split; [|exact B]; eapply fs_trans; [|exact A]]; [exact W|]. apply fs_same; [reflexivity|reflexivity|apply incl_refl].
Qed.

Lemma connect_loop_fs ord idle : forall left prog c c' prog' left', smooths c ->
  connect_loop g imp ord idle left prog c = inl (c', prog', left') -> fs c c' /\ smooths c'.
Proof.
  induction left as [|left IH]; intros prog c c' prog' left' W H; cbn [connect_loop] in H.
  - destruct (pass g imp idle (ord 0 (c_outs c)) [] prog (set_outs [] c)) as [[[c1 def] prog1]|e]; discriminate.
  - destruct (pass g imp idle (ord (S left) (c_outs c)) [] prog (set_outs [] c)) as [[[c1 def] prog1]|e] eqn:E; [|discriminate].
    apply pass_fs in E; [|exact W]. destruct E as [A B].
    assert (W2 : smooths (set_new [] (set_outs (c_new c1) c1))) by exact B.
    destruct (extend_fs def _ W2) as [C D]. assert (F : fs c (extend def (set_new [] (set_outs (c_new c1) c1)))).
    { eapply fs_trans; [|exact C]. exact A. }
    destruct (match c_new c1 with [] => false | _ :: _ => true end).
    + apply IH in H; [|exact D]. destruct H as [H1 H2]. split; [eapply fs_trans; [exact F|exact H1]|exact H2].
    + injection H as <- _ _. auto.
Qed.

(** Building *)
Lemma set_input_fs ns r s sc c c' : birth (LSlot (in_ns ns r) s) = [] -> set_input g ns r s sc c = inl c' ->
  births c' = births c /\ c_next c' = c_next c /\ (smooths c -> smooths c') /\ c_gen c' = c_gen c /\ incl (c_log c) (c_log c').
Proof.
  intros B H. unfold set_input, set_conn in H. destruct (look (c_conns c) (in_ns ns r)) eqn:El; [discriminate|]. cbn [Ok] in H. injection H as <-.
  rewrite births_note, B, app_nil_r. split; [reflexivity|]. split; [reflexivity|]. split; [|split; [reflexivity|apply incl_appl, incl_refl]].
  intros W r' t X. cbn [note set_log set_conns c_conns] in X. rewrite look_put in X. destruct (opref_eq_dec r' (in_ns ns r)).
  - injection X as <-. exact I.
  - exact (W _ _ X).
Qed.

Lemma fresh_ids l sc : forall c c' os, fresh_outputs l sc c = (c', os) ->
  births c' = births c /\ map (fun x => o_id (snd x)) os = seq (c_next c) (length l) /\ c_next c' = c_next c + length l /\
  c_conns c' = c_conns c /\ c_gen c' = c_gen c /\ c_log c' = c_log c.
Proof.
  induction l as [|[t ty] l IH]; intros c c' os H; cbn [fresh_outputs] in H; [injection H as <- <-; cbn; rewrite Nat.add_0_r; auto 8|].
  cbn [spawn_output spawn] in H. destruct (fresh_outputs l sc (set_next (S (c_next c)) c)) as [c2 r2] eqn:E. injection H as <- <-.
  destruct (IH _ _ _ E) as (A & B & C & D & F & L). cbn [set_next c_next] in *. split; [exact A|]. split; [cbn; rewrite B; reflexivity|].
  split; [cbn [length]; lia|]. split; [exact D|split; [exact F|exact L]].
Qed.

Lemma add_outputs_births ns l : forall c, births (add_outputs ns l c) = births c ++ map (fun x => o_id (snd x)) l /\
  c_next (add_outputs ns l c) = c_next c /\ c_conns (add_outputs ns l c) = c_conns c /\ c_gen (add_outputs ns l c) = c_gen c /\
  incl (c_log c) (c_log (add_outputs ns l c)).
Proof.
  induction l as [|[t o] l IH]; intros c; cbn [add_outputs]; [rewrite app_nil_r; auto using incl_refl|].
  destruct (IH (add_output ns (to_ref t) o c)) as (A & B & C & D & I). split; [|split; [exact B|split; [exact C|split; [exact D|]]]].
  2:{ eapply incl_tran; [|exact I]. unfold add_output. eapply incl_tran; [|apply incl_note]. apply incl_refl. }
  rewrite A. unfold add_output. rewrite births_note. cbn [set_outs c_log birth map snd]. rewrite <- app_assoc. reflexivity.
Qed.

Lemma finish_fs u ty bufs outs c c' : finish g u (Some ty) bufs outs c = inl c' ->
  fs c c' /\ (smooths c -> smooths c') /\ c_gen c' = c_gen c.
Proof.
  unfold finish. cbn [spawn_slot spawn]. destruct (set_input _ _ _ _ _ _) as [c1|e] eqn:E; [|discriminate]. unfold Ok.
  destruct (fresh_outputs outs (u_scope u) c1) as [c2 os] eqn:Ef. intros [= <-].
  apply set_input_fs in E; [|reflexivity]. destruct E as (B1 & N1 & S1 & G1 & I1). cbn [set_next c_log c_next c_conns c_gen] in *.
  destruct (fresh_ids _ _ _ _ _ Ef) as (B2 & I2 & N2 & C2 & G2 & L2).
  destruct (add_outputs_births (u_ns u) os c2) as (B3 & N3 & C3 & G3 & I3). split; [|split].
  - exists (seq (S (c_next c)) (length outs) ++ [c_next c]). rewrite births_note, B3, B2, B1, I2, N1. cbn [birth map snd s_id].
    rewrite <- app_assoc. split; [reflexivity|]. cbn [note set_log c_next]. rewrite N3, N2, N1. split; [|split].
    + rewrite <- (rev_involutive (seq _ _ ++ _)). apply NoDup_rev. rewrite rev_app_distr. cbn [rev app]. constructor.
      * rewrite <- in_rev, in_seq. lia.
      * apply NoDup_rev, seq_NoDup.
    + intros x X. apply in_app_iff in X as [X|[<-|[]]]; [apply in_seq in X; lia|lia].
    + split; [lia|]. cbn [c_log set_log]. apply incl_appl. eapply incl_tran; [|exact I3]. rewrite L2. exact I1.
  - intros W r t X. cbn [note set_log c_conns] in X. rewrite C3, C2 in X. exact (S1 W _ _ X).
  - cbn [note set_log c_gen]. rewrite G3, G2, G1. reflexivity.
Qed.

Lemma build_op_fs tm u c c' fin : plain_op (u_op u) -> smooths c -> build_op g tm imp u c = inl (c', fin) ->
  fs c c' /\ smooths c' /\ c_gen c' = c_gen c.
Proof.
  intros P W H.
  assert (Fin : forall ty bufs outs, (match finish g u (Some ty) bufs outs c with inl c1 => inl (c1, true) | inr e => inr e end) = inl (c', fin) ->
    fs c c' /\ smooths c' /\ c_gen c' = c_gen c).
  { intros ty bufs outs X. destruct (finish g u (Some ty) bufs outs c) as [c1|e] eqn:E; [|discriminate]. injection X as <- _.
    apply finish_fs in E. destruct E as (A & B & C). auto. }
  assert (Id : fs c c /\ smooths c /\ c_gen c = c_gen c) by (split; [apply fs_refl|auto]).
  unfold build_op, Ok, Err in H. destruct (u_op u) as [b next streams|[b|t] cn|start ops streams next|n|nexts|nexts|ok er|keyed seq rem|next sel ser|next er|ser|next sel|next sel]; cbn [plain_op] in P; try contradiction.
  - destruct (r_node g b) as [[[q p] have]|]; [|discriminate]. subst streams. cbn [named_streams] in H. apply Fin in H; exact H.
  - destruct (infer_first _ _ _) as [[ty|]|]; [|injection H as <- _; exact Id|discriminate].
    destruct (r_clone g ty); [|discriminate]. apply Fin in H; exact H.
  - destruct (infer_into _ _ _) as [[ty|]|]; [|injection H as <- _; exact Id|discriminate].
    destruct (r_unzip g ty); [|discriminate]. destruct (_ =? _); [|discriminate]. apply Fin in H; exact H.
  - destruct (infer_into _ _ _) as [[ty|]|]; [|injection H as <- _; exact Id|discriminate].
    destruct (r_result g ty) as [[t1 t2]|]; [|discriminate]. apply Fin in H; exact H.
  - cbn [spawn_output spawn_slot spawn] in H. destruct (set_input _ _ _ _ _ _) as [c4|e] eqn:E4; [|discriminate].
    injection H as <- _. apply set_input_fs in E4; [|reflexivity]. destruct E4 as (B & N & S1 & G1 & I1).
    cbn [set_next c_log c_next c_conns c_gen] in *. split; [|split].
    + set (n := c_next c) in *. exists [n; S (S n); S n]. rewrite births_note. unfold add_output at 1. rewrite births_note.
      cbn [set_outs set_next c_log birth map snd o_id s_id note set_log c_next add_output] in *.
      rewrite B, flat_map_app, N. cbn [flat_map birth o_id app]. rewrite <- !app_assoc. cbn [app].
      split; [reflexivity|]. split; [nodup_small|]. split; [intros x X; cbn in X; intuition lia|]. split; [lia|].
      intros z Z. cbn. rewrite ?in_app_iff. assert (Y : In z (c_log c4)); [apply I1|tauto]. apply in_app_iff. left. exact Z.
    + exact (S1 W).
    + exact G1.
Qed.

Definition plains (todo : list unf) : Prop := forall u, In u todo -> plain_op (u_op u).

Lemma build_all_fs tm : forall todo waiting seen prog c c' w s b, plains todo -> plains waiting -> smooths c -> c_gen c = [] ->
  build_all g tm imp todo waiting seen prog c = inl (c', w, s, b) -> fs c c' /\ smooths c' /\ plains w /\ c_gen c' = [].
Proof.
  induction todo as [|u todo IH]; intros waiting seen prog c c' w s b Pt Pw W G H; cbn [build_all] in H.
  - injection H as <- <- _ _. split; [apply fs_refl|auto].
  - destruct (build_op g tm imp u c) as [[c1 fin]|e] eqn:E; [|discriminate].
    apply build_op_fs in E; [|apply Pt; left; reflexivity|exact W]. destruct E as (A & B & C). rewrite G in C. rewrite C, app_nil_r in H.
    assert (Pt' : plains todo) by (intros x X; apply Pt; right; exact X).
    destruct fin.
    + apply IH in H; auto. destruct H as (H1 & H2). split; [eapply fs_trans; [exact A|exact H1]|exact H2].
    + apply IH in H; auto.
      * destruct H as (H1 & H2). split; [eapply fs_trans; [exact A|exact H1]|exact H2].
      * intros x X. apply in_app_iff in X as [X|[<-|[]]]; [auto|]. apply Pt. left. reflexivity.
Qed.

Lemma pass_gen idle drained : forall deferred prog c c' deferred' prog', smooths c ->
  pass g imp idle drained deferred prog c = inl (c', deferred', prog') -> c_gen c' = c_gen c.
Proof.
  induction drained as [|[r os] rest IH]; intros deferred prog c c' deferred' prog' W H; cbn [pass] in H.
  - injection H as <- _ _. reflexivity.
  - destruct (look (c_conns c) r) as [t|] eqn:El.
    + destruct (hand_all g imp r (t_scope t) (t_conn t) os c) as [[c1 k1]|e] eqn:E; [|discriminate].
      destruct (hand_all_fs _ _ _ _ _ _ _ (W _ _ El) E) as (A & B & D & K). apply IH in H.
      * rewrite H. exact K.
      * intros r' t' X. cbn [set_conns c_conns] in X. rewrite look_put in X. destruct (opref_eq_dec r' r) as [->|N].
        -- injection X as <-. exact B.
        -- rewrite D in X. exact (W _ _ X).
    + destruct idle; [discriminate|]. eapply IH; eauto.
Qed.

Lemma extend_gen deferred : forall c, c_gen (extend deferred c) = c_gen c.
Proof. induction deferred as [|[r os] rest IH]; intros c; cbn [extend]; [reflexivity|]. rewrite IH. destruct (look (c_outs c) r); reflexivity. Qed.

Lemma connect_loop_gen ord idle : forall left prog c c' prog' left', smooths c ->
  connect_loop g imp ord idle left prog c = inl (c', prog', left') -> c_gen c' = c_gen c.
Proof.
  induction left as [|left IH]; intros prog c c' prog' left' W H; cbn [connect_loop] in H.
  - destruct (pass g imp idle (ord 0 (c_outs c)) [] prog (set_outs [] c)) as [[[c1 def] prog1]|e]; discriminate.
  - destruct (pass g imp idle (ord (S left) (c_outs c)) [] prog (set_outs [] c)) as [[[c1 def] prog1]|e] eqn:E; [|discriminate].
    assert (W0 : smooths (set_outs [] c)) by exact W. pose proof (pass_gen _ _ _ _ _ _ _ _ W0 E) as G. apply pass_fs in E; [|exact W]. destruct E as [A B].
    assert (W2 : smooths (set_new [] (set_outs (c_new c1) c1))) by exact B.
    destruct (extend_fs def _ W2) as [C D].
    destruct (match c_new c1 with [] => false | _ :: _ => true end).
    + apply IH in H; [|exact D]. rewrite H, extend_gen. exact G.
    + injection H as <- _ _. rewrite extend_gen. exact G.
Qed.

Lemma build_loop_fs tm ord : forall fuel left todo seen c c', plains todo -> smooths c -> c_gen c = [] ->
  build_loop g tm imp ord fuel left todo seen c = inl c' -> fs c c'.
Proof.
  induction fuel as [|fuel IH]; intros left todo seen c c' P W G H; cbn [build_loop] in H.
  - destruct (is_nil todo && negb (has_outputs (c_outs c))); [|discriminate]. injection H as <-. apply fs_refl.
  - destruct (is_nil todo && negb (has_outputs (c_outs c))); [injection H as <-; apply fs_refl|].
    destruct (build_all g tm imp todo [] seen false c) as [[[[c1 todo1] seen1] prog]|e] eqn:E1; [|discriminate].
    apply build_all_fs in E1; auto; [|intros x []]. destruct E1 as (A & B & C & D).
    destruct (connect_loop g imp ord (is_nil todo1) left prog c1) as [[[c2 prog1] left1]|e] eqn:E2; [|discriminate].
    pose proof (connect_loop_gen _ _ _ _ _ _ _ _ B E2) as G2. apply connect_loop_fs in E2; [|exact B]. destruct E2 as [E F].
    destruct prog1; [|discriminate]. destruct left1 as [|left2]; [discriminate|].
    apply IH in H; auto; [|rewrite G2; exact D]. eapply fs_trans; [exact A|]. eapply fs_trans; [exact E|exact H].
Qed.

End Births.

Lemma set_conn_smooth r k sc c c' : set_conn r k sc c = inl c' -> smooth k ->
  (smooths c -> smooths c') /\ c_log c' = c_log c /\ c_next c' = c_next c /\ c_gen c' = c_gen c.
Proof.
  unfold set_conn. destruct (look (c_conns c) r); [discriminate|]. intros [= <-] S. split; [|auto].
  intros W r' t X. cbn [set_conns c_conns] in X. rewrite look_put in X. destruct (opref_eq_dec r' r); [injection X as <-; exact S|exact (W _ _ X)].
Qed.

Lemma init_once g start q p c : init g start q p [] = inl c -> once c /\ smooths c /\ c_gen c = [] /\
  exists o t s1 s2 s3, c_log c = [LPut (in_ns [] (to_ref start)) o; LSlot (RTerminate []) t; LSlot (RCancel []) s1; LSlot (RCancel []) s2; LSlot (RCancel []) s3]
   /\ o_id o = 1 /\ o_ty o = q /\ s_ty t = p /\ s_ty s1 = TUnit /\ s_ty s2 = TJson /\ s_ty s3 = TString.
Proof.
  unfold init. cbn [spawn_output spawn_slot spawn]. unfold set_input.
  destruct (set_conn _ (KStd _) _ _) as [c4|e] eqn:E4; [|discriminate]. cbn [Ok root_streams].
  destruct (set_conn RDispose _ _ _) as [c6|e] eqn:E6; [|discriminate]. intros H.
  apply set_conn_smooth in E4; [|exact I]. apply set_conn_smooth in E6; [|exact I]. apply set_conn_smooth in H; [|exact I].
  destruct E4 as (W4 & L4 & N4 & G4), E6 as (W6 & L6 & N6 & G6), H as (W & L & N & G).
  cbn [note set_log set_next c_log c_next c_gen add_output set_outs empty_con app] in *.
  rewrite N6, N4 in *. rewrite L4 in L6. rewrite L6 in L. cbn [app in_ns] in *. split; [|split; [|split]].
  - split; rewrite L; [cbn; nodup_small|]. intros x X. rewrite N. cbn in X. intuition lia.
  - apply W. assert (S6 : smooths c6); [|exact S6]. apply W6. assert (S4 : smooths c4); [|exact S4]. apply W4. intros r t X. discriminate X.
  - rewrite G, G6, G4. reflexivity.
  - rewrite L. do 5 eexists. split; [reflexivity|]. cbn. auto 10.
Qed.

Lemma builds_births g d q p log : (forall id o, In (id, o) (d_ops d) -> plain_op o) -> builds g d q p [] log ->
  NoDup (flat_map birth log) /\
  exists o t s1 s2 s3, incl [LPut (in_ns [] (to_ref (d_start d))) o; LSlot (RTerminate []) t; LSlot (RCancel []) s1; LSlot (RCancel []) s2; LSlot (RCancel []) s3] log
   /\ o_id o = 1 /\ o_ty o = q /\ s_ty t = p /\ s_ty s1 = TUnit /\ s_ty s2 = TJson /\ s_ty s3 = TString.
Proof.
  intros P (ord & max & c & Ho & H & <-). unfold create_workflow in H. destruct (validate_names d); [discriminate|].
  destruct (validate_templates d); [|discriminate]. destruct (init g (d_start d) q p []) as [c0|] eqn:E0; [|discriminate].
  destruct (build_loop _ _ _ _ _ _ _ _ _) as [c1|] eqn:E1; [|discriminate]. destruct (unfinished (c_conns c1)); [|discriminate].
  injection H as <-. destruct (init_once _ _ _ _ _ E0) as (A & B & C & o & t & s1 & s2 & s3 & L & R).
  assert (Pl : plains (map top (d_ops d))).
  { intros v U. apply in_map_iff in U as ([id x] & <- & U). exact (P _ _ U). }
  pose proof (build_loop_fs _ _ _ _ _ _ _ _ _ _ Pl B C E1) as F. split; [exact (proj1 (fs_once _ _ A F))|].
  destruct F as (_ & _ & _ & _ & _ & In0). rewrite L in In0.
  exists o, t, s1, s2, s3. split; [exact In0|exact R].
Qed.
