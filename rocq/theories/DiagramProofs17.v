(** Which conversion stands before which target. *)
From Verif Require Import Base DiagramModel DiagramSpec DiagramSpec2 DiagramProofs DiagramProofs2 DiagramProofs3 DiagramProofs4
  DiagramProofs5 DiagramProofs6 DiagramProofs7 DiagramProofs9 DiagramProofs10 DiagramProofs11 DiagramProofs12.

Definition chosen (g : registry) (r : opref) (k : conv) (ty : nat) : Prop :=
  match k with
  | CString => r = RCancel [] /\ r_string g ty = true
  | CTrigger => r = RCancel [] /\ r_string g ty = false /\ r_ser g ty = false /\ ty <> TJson /\ ty <> TString
  | CDeserialize => r <> RCancel []
  | CSerialize => ty <> TJson /\ (r = RCancel [] -> r_string g ty = false /\ ty <> TString)
  end.

Definition convs (g : registry) (log : list entry) : Prop :=
  forall k i ok er, In (LConv k i ok er) log ->
    (forall e, er = Some e -> o_ty e = TString) /\
    exists r s, In (LSlot r s) log /\ In (LConnect ok s) log /\ chosen g r k (s_ty i).

Definition noconv (l : list entry) : Prop := forall k i ok er, ~ In (LConv k i ok er) l.

Section Kinds.
Variable d : diagram.
Variable g : registry.
Notation imp := (implicit d).
Notation tm := (d_templates d).

Lemma convs_app log l : convs g log -> noconv l -> convs g (log ++ l).
Proof.
  intros H N k i ok er X. apply in_app_iff in X as [X|X]; [|destruct (N _ _ _ _ X)].
  destruct (H _ _ _ _ X) as (U & r & s & A & B & C). split; [exact U|]. exists r, s. rewrite !in_app_iff. auto.
Qed.

Lemma noconv_one e : (forall k i ok er, e <> LConv k i ok er) -> noconv [e].
Proof. intros N k i ok er [X|[]]. exact (N _ _ _ _ X). Qed.

Lemma convs_fallible log k i ok er s o2 s2 r : convs g log -> In (LSlot r s) log -> chosen g r k (s_ty i) -> o_ty er = TString ->
  convs g (((((log ++ [LConv k i ok (Some er)]) ++ [LConnect ok s]) ++ [LPass imp er])) ++ [LConnect o2 s2]).
Proof.
  intros H S C Te k' i' ok' er' X. rewrite <- !app_assoc in X. rewrite <- !app_assoc.
  apply in_app_iff in X as [X|X].
  - destruct (H _ _ _ _ X) as (U & r' & s' & A & B & D). split; [exact U|]. exists r', s'. split; [apply in_app_iff; auto|]. split; [apply in_app_iff; auto|exact D].
  - cbn in X. destruct X as [X|[X|[X|[X|[]]]]]; try discriminate. injection X as <- <- <- <-.
    split; [intros e [= <-]; exact Te|]. exists r, s. split; [apply in_app_iff; auto|]. split; [apply in_app_iff; right; cbn; auto|exact C].
Qed.

Lemma convs_plain log k i ok s o2 s2 r : convs g log -> In (LSlot r s) log -> chosen g r k (s_ty i) ->
  convs g (((log ++ [LConv k i ok None]) ++ [LConnect ok s]) ++ [LConnect o2 s2]).
Proof.
  intros H S C k' i' ok' er' X. rewrite <- !app_assoc in X. rewrite <- !app_assoc.
  apply in_app_iff in X as [X|X].
  - destruct (H _ _ _ _ X) as (U & r' & s' & A & B & D). split; [exact U|]. exists r', s'. split; [apply in_app_iff; auto|]. split; [apply in_app_iff; auto|exact D].
  - cbn in X. destruct X as [X|[X|[X|[]]]]; try discriminate. injection X as <- <- <- <-.
    split; [discriminate|]. exists r, s. split; [apply in_app_iff; auto|]. split; [apply in_app_iff; right; cbn; auto|exact C].
Qed.

Ltac to_log :=
  repeat match goal with
  | H : match connect_to ?o ?s ?c with inl _ => _ | inr _ => _ end = inl _ |- _ =>
      let E := fresh "E" in destruct (connect_to o s c) eqn:E; [apply DiagramProofs3.connect_to_log in E|discriminate H]
  end.
Ltac one := apply convs_app; [assumption|apply noconv_one; discriminate].

Lemma try_serialize_convs r sc s inc o c c' x : In (LSlot r s) (c_log c) ->
  (r = RCancel [] -> r_string g (o_ty o) = false /\ o_ty o <> TString) ->
  try_serialize g imp sc s inc o c = inl (c', x) -> convs g (c_log c) -> convs g (c_log c').
Proof.
  intros S Hr H F. unfold try_serialize in H. destruct (Nat.eqb_spec (o_ty o) TJson) as [_|Nj].
  - to_log. injection H as <- _. rewrite E. one.
  - destruct (find (o_ty o) inc) as [i|].
    + to_log. injection H as <- _. rewrite E. one.
    + destruct (r_ser g (o_ty o)); [|injection H as <- _; exact F]. cbn [new_fallible spawn_slot spawn_output spawn] in H.
      to_log. injection H as <- _. rewrite E0. cbn [pass_output note set_log c_log set_new]. rewrite E.
      eapply convs_fallible; [exact F|exact S| |reflexivity]. cbn. auto.
Qed.

Lemma deserialize_convs r sc s ser o c c' x : In (LSlot r s) (c_log c) -> r <> RCancel [] ->
  deserialize g imp sc s ser o c = inl (c', x) -> convs g (c_log c) -> convs g (c_log c').
Proof.
  intros S Hr H F. unfold deserialize in H. destruct (o_ty o =? s_ty s).
  - to_log. injection H as <- _. rewrite E. one.
  - destruct (o_ty o =? TJson); [|discriminate]. destruct ser as [i|].
    + to_log. injection H as <- _. rewrite E. one.
    + destruct (r_de g (s_ty s)); [|discriminate]. cbn [new_fallible spawn_slot spawn_output spawn] in H.
      to_log. injection H as <- _. rewrite E0. cbn [pass_output note set_log c_log set_new]. rewrite E.
      eapply convs_fallible; [exact F|exact S|exact Hr|reflexivity].
Qed.

Lemma std_connect_convs r sc x o c c' x' : In (LSlot r (std_slot x)) (c_log c) -> r <> RCancel [] ->
  std_connect g imp sc x o c = inl (c', x') -> convs g (c_log c) -> convs g (c_log c').
Proof.
  intros S Hr H F. destruct x as [s inc|s ser|s]; cbn [std_connect std_slot] in *.
  - destruct (try_serialize g imp sc s inc o c) as [[c1 [y|]]|e] eqn:E; [|discriminate|discriminate].
    injection H as <- _. eapply try_serialize_convs; [exact S| |exact E|exact F]. intros X. destruct (Hr X).
  - destruct (deserialize g imp sc s ser o c) as [[c1 y]|e] eqn:E; [|discriminate].
    injection H as <- _. eapply deserialize_convs; eauto.
  - to_log. injection H as <- _. rewrite E. one.
Qed.

Lemma cancel_connect_convs sc qq j s js ss ts o c c' k' :
  In (LSlot (RCancel []) qq) (c_log c) -> In (LSlot (RCancel []) j) (c_log c) -> In (LSlot (RCancel []) s) (c_log c) ->
  cancel_wf (c_log c) qq j s js ss ts ->
  cancel_connect g imp sc qq j s js ss ts o c = inl (c', k') -> convs g (c_log c) -> convs g (c_log c').
Proof.
  intros Sq Sj Ss (_ & _ & _ & _ & Cs & _) H F. unfold cancel_connect in H.
  destruct (try_string g sc s ss o c) as [[c1 [ss'|]]|e] eqn:E; [| |discriminate].
  - injection H as <- _. unfold try_string in E. destruct (o_ty o =? TString).
    + to_log. injection E as <- _. rewrite E0. one.
    + destruct (find (o_ty o) ss) as [i|]; [to_log; injection E as <- _; rewrite E0; one|].
      destruct (negb (r_known g (o_ty o))); [discriminate|]. destruct (r_string g (o_ty o)) eqn:Er; [|discriminate].
      cbn [new_plain spawn_slot spawn_output spawn] in E. to_log. injection E as <- _. rewrite E1, E0.
      eapply convs_plain; [exact F|exact Ss|]. cbn. auto.
  - assert (Ns : r_string g (o_ty o) = false /\ o_ty o <> TString).
    { unfold try_string in E. destruct (Nat.eqb_spec (o_ty o) TString) as [|No]; [destruct (connect_to o s c); discriminate|].
      destruct (find (o_ty o) ss) as [i|]; [destruct (connect_to o i c); discriminate|].
      destruct (negb (r_known g (o_ty o))); [discriminate|]. destruct (r_string g (o_ty o)) eqn:Er; [|auto].
      cbn [new_plain spawn_slot spawn_output spawn] in E. to_log. discriminate. }
    destruct (try_serialize g imp sc j js o c) as [[c2 [js'|]]|e] eqn:E2; [| |discriminate].
    + injection H as <- _. eapply try_serialize_convs; [exact Sj| |exact E2|exact F]. auto.
    + assert (Nj : r_ser g (o_ty o) = false /\ o_ty o <> TJson).
      { unfold try_serialize in E2. destruct (Nat.eqb_spec (o_ty o) TJson) as [|No]; [destruct (connect_to o j c); discriminate|].
        destruct (find (o_ty o) js) as [i|]; [destruct (connect_to o i c); discriminate|].
        destruct (r_ser g (o_ty o)) eqn:Er; [|auto].
        cbn [new_fallible spawn_slot spawn_output spawn] in E2. to_log. discriminate. }
      destruct (find (o_ty o) ts) as [i|]; [to_log; injection H as <- _; rewrite E0; one|].
      destruct (r_known g (o_ty o)); [|discriminate]. cbn [new_plain spawn_slot spawn_output spawn] in H.
      to_log. injection H as <- _. rewrite E1, E0. eapply convs_plain; [exact F|exact Sq|]. cbn. tauto.
Qed.

Definition is_cancel (k : connector) : Prop := match k with KCancel _ _ _ _ _ _ => True | _ => False end.

Lemma connect_into_convs r sc k o c c' k' :
  conn_wf d (c_log c) r k -> (r = RCancel [] -> is_cancel k) ->
  connect_into g imp r sc k o c = inl (c', k') -> convs g (c_log c) -> convs g (c_log c').
Proof.
  intros W Hr H F.
  assert (P : forall r o c, convs g (c_log c) -> convs g (c_log (pass_output r o c))).
  { intros. apply convs_app; [assumption|apply noconv_one; discriminate]. }
  assert (NC : ~ is_cancel k -> r <> RCancel []) by tauto.
  destruct k as [x| |q j s js ss ts|to seen|scid en st [x|]|scid te ex par nx [x|]|scid par to [x|]]; cbn [connect_into] in H; cbn [conn_wf] in W; cbn [is_cancel] in *.
  - destruct (std_connect g imp sc x o c) as [[c1 x1]|e] eqn:E; [|discriminate]. injection H as <- _.
    eapply std_connect_convs; [exact (proj1 W)|auto|exact E|exact F].
  - injection H as <- _. exact F.
  - destruct W as (-> & A & B & C & D). exact (cancel_connect_convs _ _ _ _ _ _ _ _ _ _ _ A B C D H F).
  - destruct (existsb (Nat.eqb (o_id o)) seen); [discriminate|]. injection H as <- _. auto.
  - destruct (std_connect g imp sc x o c) as [[c1 x1]|e] eqn:E; [|discriminate]. injection H as <- _.
    destruct W as (u & t1 & t2 & t3 & t4 & t5 & t6 & _ & _ & _ & _ & [W _] & _).
    eapply std_connect_convs; [exact W|auto|exact E|exact F].
  - destruct (r_known g (o_ty o)); [|discriminate].
    destruct (std_connect _ _ _ _ _ _) as [[c1 x1]|e] eqn:E; [|discriminate]. injection H as <- _.
    eapply std_connect_convs; [|auto|exact E|].
    + apply note_in. right. unfold standard. repeat match goal with |- context [if ?b then _ else _] => destruct b end; reflexivity.
    + apply convs_app; [|apply noconv_one; discriminate]. apply P. exact F.
  - destruct (std_connect g imp sc x o c) as [[c1 x1]|e] eqn:E; [|discriminate]. injection H as <- _.
    destruct W as (u & t1 & t2 & t3 & t4 & t5 & _ & _ & _ & _ & _ & [W _] & _).
    eapply std_connect_convs; [exact W|auto|exact E|exact F].
  - destruct (r_known g (o_ty o)); [|discriminate].
    destruct (std_connect _ _ _ _ _ _) as [[c1 x1]|e] eqn:E; [|discriminate]. injection H as <- _.
    eapply std_connect_convs; [|auto|exact E|].
    + apply note_in. right. unfold standard. repeat match goal with |- context [if ?b then _ else _] => destruct b end; reflexivity.
    + apply convs_app; [|apply noconv_one; discriminate]. apply P. exact F.
  - destruct (std_connect g imp sc x o c) as [[c1 x1]|e] eqn:E; [|discriminate]. injection H as <- _.
    destruct W as (u & t1 & t2 & t3 & t4 & t5 & t6 & t7 & t8 & t9 & _ & _ & _ & _ & _ & _ & [W _] & _).
    eapply std_connect_convs; [exact W|auto|exact E|exact F].
  - destruct (r_known g (o_ty o)); [|discriminate]. cbn [spawn_slot spawn_output spawn] in H.
    destruct (std_connect _ _ _ _ _ _) as [[c1 x1]|e] eqn:E; [|discriminate]. injection H as <- _.
    eapply std_connect_convs; [|auto|exact E|].
    + apply note_in. left. apply note_in. right. unfold standard. repeat match goal with |- context [if ?b then _ else _] => destruct b end; reflexivity.
    + do 2 (apply convs_app; [|apply noconv_one; discriminate]). apply P. exact F.
Qed.

(** The connectors *)
Definition cwf (c : con) : Prop :=
  forall r t, look (c_conns c) r = Some t -> conn_wf d (c_log c) r (t_conn t) /\ (r = RCancel [] -> is_cancel (t_conn t)).

Lemma evolves_cancel k k' : evolves k k' -> is_cancel k -> is_cancel k'.
Proof. destruct k, k'; cbn; tauto. Qed.

Lemma hand_all_convs r sc os : forall k c c' k',
  conn_wf d (c_log c) r k -> (r = RCancel [] -> is_cancel k) ->
  hand_all g imp r sc k os c = inl (c', k') -> convs g (c_log c) ->
  convs g (c_log c') /\ conn_wf d (c_log c') r k' /\ (r = RCancel [] -> is_cancel k') /\
  c_conns c' = c_conns c /\ (forall e, In e (c_log c) -> In e (c_log c')).
Proof.
  induction os as [|o os IH]; intros k c c' k' W Hr H F; cbn [hand_all] in H; [injection H as <- <-; auto|].
  destruct (connect_into g imp r sc k o (note (LHand r o) c)) as [[c1 k1]|e] eqn:E; [|discriminate].
  assert (W0 : conn_wf d (c_log (note (LHand r o) c)) r k).
  { eapply conn_wf_mono; [|exact W]. intros e X. apply note_in. auto. }
  destruct (connect_into_ok d g _ _ _ _ _ _ _ E W0) as (Fr & W1 & _ & Ev & _).
  assert (F1 : convs g (c_log c1)).
  { eapply connect_into_convs; [exact W0|exact Hr|exact E|]. apply convs_app; [exact F|apply noconv_one; discriminate]. }
  destruct (IH _ _ _ _ W1 (fun X => evolves_cancel _ _ Ev (Hr X)) H F1) as (A & B & C & D & M).
  split; [exact A|]. split; [exact B|]. split; [exact C|]. split.
  - rewrite D. rewrite (f_conns _ _ _ Fr). reflexivity.
  - intros e X. apply M. eapply frame_in; [exact Fr|]. apply note_in. auto.
Qed.

Lemma pass_convs idle drained : forall deferred prog c c' deferred' prog',
  cwf c -> pass g imp idle drained deferred prog c = inl (c', deferred', prog') -> convs g (c_log c) ->
  cwf c' /\ convs g (c_log c').
Proof.
  induction drained as [|[r os] rest IH]; intros deferred prog c c' deferred' prog' W H F; cbn [pass] in H.
  - injection H as <- _ _. auto.
  - destruct (look (c_conns c) r) as [t|] eqn:El.
    + destruct (hand_all g imp r (t_scope t) (t_conn t) os c) as [[c1 k1]|e] eqn:E; [|discriminate].
      destruct (W _ _ El) as [W1 W2].
      destruct (hand_all_convs _ _ _ _ _ _ _ W1 W2 E F) as (A & B & C & D & M).
      eapply IH; [|exact H|exact A]. intros r' t' X. cbn [set_conns c_conns c_log] in *. rewrite look_put in X.
      destruct (opref_eq_dec r' r) as [->|N].
      * injection X as <-. cbn. auto.
      * rewrite D in X. destruct (W _ _ X) as [Y Z]. split; [|exact Z]. eapply conn_wf_mono; [|exact Y]. exact M.
    + destruct idle; [discriminate|]. eapply IH; eauto.
Qed.

Lemma cwf_mono c c' : c_conns c' = c_conns c -> (forall e, In e (c_log c) -> In e (c_log c')) -> cwf c -> cwf c'.
Proof.
  intros E M W r t X. rewrite E in X. destruct (W _ _ X) as [Y Z]. split; [|exact Z]. eapply conn_wf_mono; [exact M|exact Y].
Qed.

Lemma extend_convs deferred : forall c, cwf c /\ convs g (c_log c) -> cwf (extend deferred c) /\ convs g (c_log (extend deferred c)).
Proof.
  induction deferred as [|[r os] rest IH]; intros c [W F]; cbn [extend]; [auto|].
  apply IH. destruct (look (c_outs c) r) as [lost|]; cbn [set_outs c_log]; [|split; [eapply cwf_mono; [| |exact W]; cbn; auto|exact F]].
  split.
  - eapply cwf_mono; [| |exact W]; cbn; [reflexivity|]. intros e X. apply in_app_iff. auto.
  - cbn. apply convs_app; [exact F|]. intros k i ok er X. apply in_map_iff in X as (o & X & _). discriminate.
Qed.

Lemma connect_loop_convs ord idle :
  forall left prog c c' prog' left',
  connect_loop g imp ord idle left prog c = inl (c', prog', left') -> cwf c /\ convs g (c_log c) -> cwf c' /\ convs g (c_log c').
Proof.
  induction left as [|left IH]; intros prog c c' prog' left' H F; cbn [connect_loop] in H.
  - destruct (pass g imp idle (ord 0 (c_outs c)) [] prog (set_outs [] c)) as [[[c1 def] prog1]|e]; discriminate.
  - destruct (pass g imp idle (ord (S left) (c_outs c)) [] prog (set_outs [] c)) as [[[c1 def] prog1]|e] eqn:E; [|discriminate].
    assert (F2 : cwf (extend def (set_new [] (set_outs (c_new c1) c1))) /\ convs g (c_log (extend def (set_new [] (set_outs (c_new c1) c1))))).
    { apply extend_convs. destruct F as [W F]. assert (W0 : cwf (set_outs [] c)) by (eapply cwf_mono; [| |exact W]; cbn; auto).
      destruct (pass_convs _ _ _ _ _ _ _ _ W0 E F) as [A B]. split; [eapply cwf_mono; [| |exact A]; cbn; auto|exact B]. }
    destruct (match c_new c1 with [] => false | _ :: _ => true end); [eapply IH; eauto|].
    injection H as <- _ _. exact F2.
Qed.

(** Building operations makes no conversions. *)
Definition nce (e : entry) : Prop := forall k i ok er, e <> LConv k i ok er.
Definition nc (c c' : con) : Prop := forall k i ok er, In (LConv k i ok er) (c_log c') -> In (LConv k i ok er) (c_log c).

Lemma nc_refl c : nc c c. Proof. intros k i ok er X. exact X. Qed.
Lemma nc_trans a b c : nc a b -> nc b c -> nc a c. Proof. intros H1 H2 k i ok er X. auto. Qed.
Lemma nc_note e c : nce e -> nc c (note e c).
Proof. intros N k i ok er X. apply note_in in X as [X|X]; [exact X|]. destruct (N _ _ _ _ (eq_sym X)). Qed.

Definition ncr (c : con) (x : res con) : Prop := forall c', x = inl c' -> nc c c'.

Lemma nc_set_conn r k sc c c' : set_conn r k sc c = inl c' -> nc c c'.
Proof. unfold set_conn. destruct (look (c_conns c) r); [discriminate|]. intros [= <-]. exact (nc_refl c). Qed.

Lemma nc_set_input ns r s sc c c' : set_input g ns r s sc c = inl c' -> nc c c'.
Proof.
  unfold set_input. destruct (set_conn _ _ _ _) as [c1|e] eqn:E; [|discriminate]. intros [= <-].
  eapply nc_trans; [eapply nc_set_conn; exact E|]. apply nc_note. discriminate.
Qed.

Lemma nc_set_buffer ns r s sc c c' : set_buffer g ns r s sc c = inl c' -> nc c c'.
Proof.
  unfold set_buffer. destruct (set_input _ _ _ _ _ _) as [c1|e] eqn:E; [|discriminate].
  destruct (look (c_bufs c1) _); [discriminate|]. intros [= <-]. exact (nc_set_input _ _ _ _ _ _ E).
Qed.

Lemma nc_add_output ns r o c : nc c (add_output ns r o c).
Proof. intros k i ok er X. unfold add_output in X. apply note_in in X as [X|X]; [exact X|discriminate]. Qed.

Lemma nc_add_outputs ns l : forall c, nc c (add_outputs ns l c).
Proof.
  induction l as [|[t o] l IH]; intros c; cbn [add_outputs]; [apply nc_refl|].
  eapply nc_trans; [apply nc_add_output|apply IH].
Qed.

Lemma nc_fresh l sc : forall c c' r, fresh_outputs l sc c = (c', r) -> nc c c'.
Proof.
  induction l as [|[t ty] l IH]; intros c c' r H; cbn [fresh_outputs] in H; [injection H as <- _; apply nc_refl|].
  cbn [spawn_output spawn] in H. destruct (fresh_outputs l sc (set_next (S (c_next c)) c)) as [c2 r2] eqn:E. injection H as <- _.
  exact (IH _ _ _ E).
Qed.

Lemma nc_finish u inp bufs outs c c' : finish g u inp bufs outs c = inl c' -> nc c c'.
Proof.
  unfold finish. destruct inp as [ty|].
  - cbn [spawn_slot spawn]. destruct (set_input _ _ _ _ _ _) as [c1|e] eqn:E; [|discriminate]. unfold Ok.
    destruct (fresh_outputs outs (u_scope u) c1) as [c2 os] eqn:Ef. intros [= <-].
    eapply nc_trans; [exact (nc_set_input _ _ _ _ _ _ E)|]. eapply nc_trans; [exact (nc_fresh _ _ _ _ _ Ef)|].
    eapply nc_trans; [apply nc_add_outputs|]. apply nc_note. discriminate.
  - unfold Ok. destruct (fresh_outputs outs (u_scope u) c) as [c2 os] eqn:Ef. intros [= <-].
    eapply nc_trans; [exact (nc_fresh _ _ _ _ _ Ef)|].
    eapply nc_trans; [apply nc_add_outputs|]. apply nc_note. discriminate.
Qed.

Lemma nc_child_inputs u l : forall c c', child_inputs u l c = inl c' -> nc c c'.
Proof.
  induction l as [|[x t] l IH]; intros c c' H; cbn [child_inputs] in H; [injection H as <-; apply nc_refl|].
  destruct (set_conn _ _ _ _) as [c1|e] eqn:E; [|discriminate]. eapply nc_trans; [eapply nc_set_conn; exact E|eauto].
Qed.

Lemma nc_child_buffers u l : forall c c', child_buffers u l c = inl c' -> nc c c'.
Proof.
  induction l as [|[x t] l IH]; intros c c' H; cbn [child_buffers] in H; [injection H as <-; apply nc_refl|].
  destruct (set_conn _ _ _ _) as [c1|e] eqn:E; [|discriminate]. destruct (look (c_bufs c1) _); [discriminate|].
  eapply nc_trans; [eapply nc_set_conn; exact E|]. exact (IH _ _ H).
Qed.

Lemma nc_child_outputs u cn l : forall c c', child_outputs u cn l c = inl c' -> nc c c'.
Proof.
  induction l as [|x l IH]; intros c c' H; cbn [child_outputs] in H; [injection H as <-; apply nc_refl|].
  destruct (set_conn _ _ _ _) as [c1|e] eqn:E; [|discriminate]. eapply nc_trans; [eapply nc_set_conn; exact E|eauto].
Qed.

Lemma nc_scope_streams u sc l : forall c c', scope_streams u sc l c = inl c' -> nc c c'.
Proof.
  induction l as [|[x t] l IH]; intros c c' H; cbn [scope_streams] in H; [injection H as <-; apply nc_refl|].
  destruct (set_conn _ _ _ _) as [c1|e] eqn:E; [|discriminate]. eapply nc_trans; [eapply nc_set_conn; exact E|eauto].
Qed.

Lemma nc_section_inputs u l : forall c p, section_inputs g u l c = inl p -> nc c (fst p).
Proof.
  induction l as [|[x t] l IH]; intros c p H; cbn [section_inputs] in H; [injection H as <-; apply nc_refl|].
  cbn [spawn_slot spawn] in H. destruct (set_input _ _ _ _ _ _) as [c1|e] eqn:E; [|discriminate].
  destruct (section_inputs g u l c1) as [q|e] eqn:E2; [|discriminate]. injection H as <-. cbn.
  eapply nc_trans; [exact (nc_set_input _ _ _ _ _ _ E)|exact (IH _ _ E2)].
Qed.

Lemma nc_section_buffers u l : forall c p, section_buffers g u l c = inl p -> nc c (fst p).
Proof.
  induction l as [|[x t] l IH]; intros c p H; cbn [section_buffers] in H; [injection H as <-; apply nc_refl|].
  cbn [spawn_slot spawn] in H. destruct (set_buffer _ _ _ _ _ _) as [c1|e] eqn:E; [|discriminate].
  destruct (section_buffers g u l c1) as [q|e] eqn:E2; [|discriminate]. injection H as <-. cbn.
  eapply nc_trans; [exact (nc_set_buffer _ _ _ _ _ _ E)|exact (IH _ _ E2)].
Qed.

Lemma add_hints_log ns sel : forall hs c, c_log (add_hints ns sel hs c) = c_log c.
Proof. induction sel as [|[k t] sel IH]; intros [|h hs] c; cbn [add_hints]; auto. rewrite IH. reflexivity. Qed.

Lemma nc_hints hints ns ty sel c c' : set_type_hints hints ns ty sel c = inl c' -> nc c c'.
Proof.
  unfold set_type_hints. destruct (hints ty (map fst sel)); [|discriminate]. intros [= <-] k i ok er X.
  rewrite add_hints_log in X. exact X.
Qed.

Lemma nc_build_op u c c' fin : build_op g tm imp u c = inl (c', fin) -> nc c c'.
Proof.
  assert (Fin : forall inp bufs outs c0, (match finish g u inp bufs outs c0 with inl c1 => inl (c1, true) | inr e => inr e end) = inl (c', fin) -> nc c0 c').
  { intros inp bufs outs c0 H. destruct (finish g u inp bufs outs c0) as [c1|e] eqn:E; [|discriminate]. injection H as <- _. eapply nc_finish; eauto. }
  unfold build_op, Ok, Err. intros H. destruct (u_op u) as [b next streams|[b|t] cn|start ops streams next|n|nexts|nexts|ok er|keyed seq rem|next sel ser|next er|ser|next sel|next sel].
  - destruct (r_node g b) as [[[q p] have]|]; [|discriminate]. destruct (named_streams have streams); [|discriminate]. apply Fin in H; exact H.
  - destruct (r_section g b) as [[[ins outs] bufs]|]; [|discriminate].
    destruct (section_inputs g u ins c) as [p1|e] eqn:E1; [|discriminate]. destruct (unknown_output _ _); [discriminate|].
    destruct (fresh_outputs _ _ _) as [c2 os] eqn:E2. destruct (section_buffers _ _ _ _) as [p3|e] eqn:E3; [|discriminate].
    destruct (set_conn _ _ _ (fst p3)) as [c4|e] eqn:E4; [|discriminate]. injection H as <- _.
    eapply nc_trans; [exact (nc_section_inputs _ _ _ _ E1)|]. eapply nc_trans; [exact (nc_fresh _ _ _ _ _ E2)|].
    eapply nc_trans; [apply nc_add_outputs|]. eapply nc_trans; [exact (nc_section_buffers _ _ _ _ E3)|].
    eapply nc_trans; [exact (nc_set_conn _ _ _ _ _ E4)|]. apply nc_note. discriminate.
  - destruct (find t tm) as [T|]; [|discriminate].
    destruct (child_inputs _ _ _) as [c2|e] eqn:E2; [|discriminate]. destruct (child_buffers _ _ _) as [c3|e] eqn:E3; [|discriminate].
    destruct (unknown_output _ _); [discriminate|]. destruct (child_outputs _ _ _ _) as [c4|e] eqn:E4; [|discriminate].
    destruct (set_conn _ _ _ c4) as [c5|e] eqn:E5; [|discriminate]. injection H as <- _.
    eapply nc_trans; [exact (nc_child_inputs _ _ _ _ E2)|]. eapply nc_trans; [exact (nc_child_buffers _ _ _ _ E3)|].
    eapply nc_trans; [exact (nc_child_outputs _ _ _ _ _ E4)|].
    eapply nc_trans; [exact (nc_set_conn _ _ _ _ _ E5)|]. apply nc_note. discriminate.
  - cbn [spawn] in H. destruct (scope_streams _ _ _ _) as [c6|e] eqn:E6; [|discriminate].
    destruct (set_conn _ (KRequest _ _ _ _) _ _) as [c8|e] eqn:E8; [|discriminate].
    destruct (set_conn _ (KResponse _ _ _ _ _ _) _ _) as [c9|e] eqn:E9; [|discriminate]. injection H as <- _.
    eapply nc_trans; [|apply nc_note; discriminate]. eapply nc_trans; [|exact (nc_set_conn _ _ _ _ _ E9)].
    eapply nc_trans; [|exact (nc_set_conn _ _ _ _ _ E8)]. eapply nc_trans; [|exact (nc_scope_streams _ _ _ _ _ E6)].
    intros k i ok er X. apply note_in in X as [X|X]; [exact X|discriminate].
  - destruct (set_conn _ _ _ _) as [c1|e] eqn:E1; [|discriminate]. injection H as <- _.
    eapply nc_trans; [exact (nc_set_conn _ _ _ _ _ E1)|]. apply nc_note. discriminate.
  - destruct (infer_first _ _ _) as [[ty|]|]; [|injection H as <- _; apply nc_refl|discriminate].
    destruct (r_clone g ty); [|discriminate]. apply Fin in H; exact H.
  - destruct (infer_into _ _ _) as [[ty|]|]; [|injection H as <- _; apply nc_refl|discriminate].
    destruct (r_unzip g ty); [|discriminate]. destruct (_ =? _); [|discriminate]. apply Fin in H; exact H.
  - destruct (infer_into _ _ _) as [[ty|]|]; [|injection H as <- _; apply nc_refl|discriminate].
    destruct (r_result g ty) as [[t1 t2]|]; [|discriminate]. apply Fin in H; exact H.
  - destruct (infer_into _ _ _) as [[ty|]|]; [|injection H as <- _; apply nc_refl|discriminate].
    destruct (r_split g ty _ _ _); [|discriminate]. apply Fin in H; exact H.
  - destruct sel; [discriminate|]. destruct (buffer_map _ _ _) as [m|]; [|injection H as <- _; apply nc_refl].
    destruct ser.
    + destruct (r_join g TJson _); [|discriminate]. apply Fin in H; exact H.
    + destruct (infer_into _ _ _) as [[ty|]|]; [|injection H as <- _; apply nc_refl|discriminate].
      destruct (r_join g ty _); [|discriminate]. apply Fin in H; exact H.
  - cbn [spawn_output spawn_slot spawn] in H. destruct (set_input _ _ _ _ _ _) as [c4|e] eqn:E4; [|discriminate].
    injection H as <- _. eapply nc_trans; [|apply nc_note; discriminate]. eapply nc_trans; [|apply nc_add_output].
    change (nc c c4). eapply nc_trans; [|exact (nc_set_input _ _ _ _ _ _ E4)].
    intros k i ok er' X. exact (nc_add_output _ _ _ (set_next (S (c_next c)) c) _ _ _ _ X).
  - match type of H with (match ?a with inl _ => _ | inr _ => _ end) = _ => destruct a as [[ty|]|] end; [|injection H as <- _; apply nc_refl|discriminate].
    destruct (r_known g ty); [|discriminate]. cbn [spawn_slot spawn] in H. destruct (set_buffer _ _ _ _ _ _) as [c2|e] eqn:E2; [|discriminate].
    injection H as <- _. eapply nc_trans; [|apply nc_note; discriminate]. exact (nc_set_buffer _ _ _ _ _ _ E2).
  - destruct (infer_into _ _ _) as [[ty|]|]; [|injection H as <- _; apply nc_refl|discriminate].
    destruct (set_type_hints _ _ _ _ _) as [c1|e] eqn:E1; [|discriminate]. pose proof (nc_hints _ _ _ _ _ _ E1) as N1.
    destruct (buffer_map _ _ _) as [m|]; [|injection H as <- _; exact N1].
    destruct (r_access g ty _); [|discriminate]. eapply nc_trans; [exact N1|apply Fin in H; exact H].
  - destruct (infer_into _ _ _) as [[ty|]|]; [|injection H as <- _; apply nc_refl|discriminate].
    destruct (set_type_hints _ _ _ _ _) as [c1|e] eqn:E1; [|discriminate]. pose proof (nc_hints _ _ _ _ _ _ E1) as N1.
    destruct (buffer_map _ _ _) as [m|]; [|injection H as <- _; exact N1].
    destruct (r_listen g ty _); [|discriminate]. eapply nc_trans; [exact N1|apply Fin in H; exact H].
Qed.

Variables q p : nat.
Variable ss : list (nat * nat).
Notation ginv := (ginv d g q p ss).

Definition cancels (c : con) : Prop :=
  forall t, look (c_conns c) (RCancel []) = Some t -> is_cancel (t_conn t).

Lemma cancels_cwf todo c : ginv todo c -> cancels c -> cwf c.
Proof.
  intros G H r t X. split; [exact (ginv_wf _ _ _ _ _ _ _ _ _ G X)|]. intros ->. exact (H _ X).
Qed.

Lemma build_op_convs u rest c c1 fin :
  ginv (u :: rest) c -> cancels c -> convs g (c_log c) -> build_op g tm imp u c = inl (c1, fin) ->
  cancels c1 /\ convs g (c_log c1).
Proof.
  intros G Hc F H.
  assert (Oc : occurs d (u_ns u) (u_id u) (u_op u)) by (apply (gi_todo _ _ _ _ _ _ _ G); left; reflexivity).
  destruct (bu_bp _ _ _ _ _ _ _ _ _ (build_op_ok d g q p ss u Oc c c1 fin (gi_bufs _ _ _ _ _ _ _ G) H)) as (_ & M & K).
  split.
  - assert (X : look (c_conns c) (RCancel []) <> None) by (apply (gi_start _ _ _ _ _ _ _ G); constructor).
    destruct (look (c_conns c) (RCancel [])) as [t|] eqn:E; [|congruence]. intros t' Y. rewrite (K _ _ E) in Y. injection Y as <-. exact (Hc _ E).
  - intros k i ok er X. apply (nc_build_op _ _ _ _ H) in X. destruct (F _ _ _ _ X) as (U & r & s & A & B & C). split; [exact U|]. exists r, s. auto.
Qed.

Lemma build_all_convs todo : forall waiting seen prog c c' waiting' seen' prog',
  ginv (todo ++ waiting) c -> cancels c -> convs g (c_log c) ->
  build_all g tm imp todo waiting seen prog c = inl (c', waiting', seen', prog') ->
  cancels c' /\ convs g (c_log c').
Proof.
  induction todo as [|u todo IH]; intros waiting seen prog c c' waiting' seen' prog' G Hc F H; cbn [build_all] in H.
  - injection H as <- <- _ _. auto.
  - destruct (build_op g tm imp u c) as [[c1 fin]|e] eqn:E; [|discriminate].
    destruct (build_op_convs _ _ _ _ _ G Hc F E) as [Hc1 F1]. destruct fin.
    + assert (T : forall v, In v (todo ++ waiting ++ c_gen c1) <-> In v (todo ++ waiting) \/ In v (c_gen c1) \/ (true = false /\ v = u)).
      { intros v. rewrite !in_app_iff. split; [tauto|intros [X|[X|[X _]]]; [tauto|tauto|discriminate]]. }
      eapply IH; [eapply build_op_ginv; [exact G|exact E|exact T]|exact Hc1|exact F1|exact H].
    + assert (T : forall v, In v (todo ++ (waiting ++ c_gen c1) ++ [u]) <-> In v (todo ++ waiting) \/ In v (c_gen c1) \/ (false = false /\ v = u)).
      { intros v. rewrite !in_app_iff. cbn. split; [intros [X|[[X|X]|[X|[]]]]; auto|intros [X|[X|[_ X]]]; auto; tauto]. }
      eapply IH; [eapply build_op_ginv; [exact G|exact E|exact T]|exact Hc1|exact F1|exact H].
Qed.

Variable ord : nat -> list (opref * list output) -> list (opref * list output).
Hypothesis Hord : forall n l, Permutation (ord n l) l.

Lemma round_convs left todo seen c c' todo' seen' prog left' :
  ginv todo c -> cancels c -> convs g (c_log c) -> round d g ord left todo seen c = inl (c', todo', seen', prog, left') ->
  cancels c' /\ convs g (c_log c').
Proof.
  unfold round. intros G Hc F H.
  destruct (build_all g tm imp todo [] seen false c) as [[[[c1 todo1] seen1] prog1]|e] eqn:E; [|discriminate].
  destruct (connect_loop g imp ord (is_nil todo1) left prog1 c1) as [[[c2 prog2] left1]|e] eqn:L; [|discriminate].
  injection H as <- <- _ _ _. rewrite <- (app_nil_r todo) in G.
  destruct (build_all_convs _ _ _ _ _ _ _ _ _ G Hc F E) as [Hc1 F1].
  pose proof (proj1 (build_all_ok d g q p ss _ _ _ _ _ _ _ _ _ G E)) as G1.
  destruct (connect_loop_convs _ _ _ _ _ _ _ _ L (conj (cancels_cwf _ _ G1 Hc1) F1)) as [W2 F2].
  split; [intros t X; exact (proj2 (W2 _ _ X) eq_refl)|exact F2].
Qed.

Lemma build_loop_convs fuel : forall left todo seen c c',
  ginv todo c -> cancels c -> convs g (c_log c) -> build_loop g tm imp ord fuel left todo seen c = inl c' -> convs g (c_log c').
Proof.
  induction fuel as [|fuel IH]; intros left todo seen c c' G Hc F H.
  - cbn [build_loop] in H. destruct (is_nil todo && negb (has_outputs (c_outs c))) eqn:E; [|discriminate].
    injection H as <-. exact F.
  - rewrite build_loop_round in H. destruct (is_nil todo && negb (has_outputs (c_outs c))) eqn:E.
    + injection H as <-. exact F.
    + destruct (round d g ord left todo seen c) as [[[[[c2 todo1] seen1] prog1] left1]|e] eqn:R; [|discriminate].
      destruct prog1; [|discriminate]. destruct left1 as [|left2]; [discriminate|].
      destruct (round_ok d g q p ss ord Hord _ _ _ _ _ _ _ _ _ G R) as (G2 & _).
      destruct (round_convs _ _ _ _ _ _ _ _ _ G Hc F R) as [Hc2 F2].
      eapply IH; [exact G2|exact Hc2|exact F2|exact H].
Qed.

Lemma nc_root_streams l : forall a b, root_streams g l a = inl b -> nc a b.
Proof.
  induction l as [|[n ty] l IH]; intros a b X; cbn [root_streams] in X; [injection X as <-; apply nc_refl|].
  cbn [spawn_slot spawn] in X. destruct (set_input _ _ _ _ _ _) as [a1|e] eqn:E; [|discriminate].
  eapply nc_trans; [exact (nc_set_input _ _ _ _ _ _ E)|exact (IH _ _ X)].
Qed.

Lemma init_convs c : init g (d_start d) q p ss = inl c -> cancels c /\ convs g (c_log c).
Proof.
  intros H. unfold init in H. cbn [spawn_output spawn_slot spawn c_next empty_con set_next] in H.
  destruct (set_input _ _ _ _ _ _) as [c4|e] eqn:S4; [|discriminate].
  destruct (root_streams g ss c4) as [c5|e] eqn:S5; [|discriminate].
  destruct (set_conn RDispose KDispose 0 c5) as [c6|e] eqn:S6; [|discriminate].
  split.
  - intros t X. apply set_conn_eq in H as [_ ->]. cbn in X. rewrite look_put in X.
    destruct (opref_eq_dec (RCancel []) (RCancel [])); [|congruence]. injection X as <-. exact I.
  - intros k i ok er X. exfalso. apply (nc_set_conn _ _ _ _ _ H) in X.
    apply note_in in X as [X|X]; [|discriminate]. apply note_in in X as [X|X]; [|discriminate]. apply note_in in X as [X|X]; [|discriminate].
    change (In (LConv k i ok er) (c_log c6)) in X. apply (nc_set_conn _ _ _ _ _ S6) in X. apply (nc_root_streams _ _ _ S5) in X.
    apply (nc_set_input _ _ _ _ _ _ S4) in X. unfold add_output in X. cbn in X. destruct X as [X|[]]; discriminate.
Qed.

Lemma create_convs max c : create_workflow g ord max d q p ss = inl c -> convs g (c_log c).
Proof.
  unfold create_workflow. intros H. destruct (validate_names d); [discriminate|].
  destruct (validate_templates d); [|discriminate].
  destruct (init g (d_start d) q p ss) as [c0|e] eqn:E0; [|discriminate].
  destruct (build_loop g tm imp ord (S max) max (map top (d_ops d)) [] c0) as [c1|e] eqn:E1; [|discriminate].
  destruct (unfinished (c_conns c1)) eqn:E2; [|discriminate]. injection H as <-.
  destruct (init_convs _ E0) as [A B].
  eapply build_loop_convs; [exact (init_ok d g q p ss _ E0)|exact A|exact B|exact E1].
Qed.

End Kinds.

Lemma builds_convs g d q p ss log : builds g d q p ss log -> convs g log.
Proof. intros (ord & max & c & Ho & H & <-). eapply create_convs; eauto. Qed.
