(** Every entity of a built diagram has one role, and is in one scope. *)
From Verif Require Import Base DiagramModel DiagramSpec DiagramSpec2 DiagramProofs DiagramProofs2 DiagramProofs3 DiagramProofs4.

Definition fresh_roles (n n' : nat) (L : list entry) : Prop :=
  (forall e i x, In e L -> In (i, x) (roles e) -> n <= i < n').

Lemma role_app log L i x : role_of (log ++ L) i x <-> role_of log i x \/ role_of L i x.
Proof.
  unfold role_of. split.
  - intros (e & A & B). apply in_app_iff in A as [A|A]; eauto.
  - intros [(e & A & B)|(e & A & B)]; exists e; (split; [apply in_app_iff; auto|exact B]).
Qed.

(** ** Connecting one output *)

(** What is written when [o] is connected to [s] by a connector in the scope [sc]
    that has the converters [cs]; [n] is the next entity. *)
Inductive links (sc : nat) (imp : opref) (s : slot) (o : output) (n : nat) (cs : list slot)
  : list entry -> nat -> list slot -> Prop :=
| links_direct cs' : (forall x, In x cs' -> In x cs) -> links sc imp s o n cs [LConnect o s] n cs'
| links_cached i cs' : In i cs -> (forall x, In x cs' -> In x cs) -> links sc imp s o n cs [LConnect o i] n cs'
| links_fallible k ti to cs' :
    let i := {| s_id := n; s_ty := ti; s_scope := sc |} in
    let ok := {| o_id := S n; o_ty := to; o_scope := sc |} in
    let er := {| o_id := S (S n); o_ty := TString; o_scope := sc |} in
    (forall x, In x cs' -> x = i \/ In x cs) ->
    links sc imp s o n cs [LConv k i ok (Some er); LConnect ok s; LPass imp er; LConnect o i] (S (S (S n))) cs'
| links_plain k ti to cs' :
    let i := {| s_id := n; s_ty := ti; s_scope := sc |} in
    let out := {| o_id := S n; o_ty := to; o_scope := sc |} in
    (forall x, In x cs' -> x = i \/ In x cs) ->
    links sc imp s o n cs [LConv k i out None; LConnect out s; LConnect o i] (S (S n)) cs'.

Definition std_cached (x : std) : list slot :=
  match x with
  | SSer _ inc => map snd inc
  | SDe _ (Some i) => [i]
  | _ => []
  end.

Section Links.
Variable g : registry.
Variable imp : opref.
Variable sc : nat.

Lemma connect_to_log o s c c' : connect_to o s c = inl c' ->
  c_log c' = c_log c ++ [LConnect o s] /\ c_next c' = c_next c /\ c_conns c' = c_conns c.
Proof. intros H. apply connect_to_ok in H as [_ ->]. auto. Qed.

Definition linkage (s : slot) (o : output) (cs : list slot) (c c' : con) (cs' : list slot) : Prop :=
  exists L, links sc imp s o (c_next c) cs L (c_next c') cs' /\ c_log c' = c_log c ++ L /\ c_conns c' = c_conns c.

Lemma linkage_direct s o cs c c' : connect_to o s c = inl c' -> linkage s o cs c c' cs.
Proof.
  intros H. apply connect_to_log in H as (A & B & C). exists [LConnect o s]. rewrite B. split; [constructor; auto|auto].
Qed.

Lemma linkage_cached s o i cs c c' : connect_to o i c = inl c' -> In i cs -> linkage s o cs c c' cs.
Proof.
  intros H X. apply connect_to_log in H as (A & B & C). exists [LConnect o i]. rewrite B. split; [constructor; auto|auto].
Qed.

Lemma linkage_weak s o cs c c' cs' css css' : linkage s o cs c c' cs' ->
  (forall x, In x cs -> In x css) -> (forall x, In x css' -> In x cs' \/ In x css) -> linkage s o css c c' css'.
Proof.
  intros (L & A & B & C) H1 H2. exists L. split; [|auto].
  clear B C. revert A. generalize (c_next c'). intros n' A.
  inversion A as [cs1 Hc E1 E2 E3|i cs1 Hi Hc E1 E2 E3|k ti to cs1 i ok er Hc E1 E2 E3|k ti to cs1 i out Hc E1 E2 E3]; subst.
  - constructor. intros x X. apply H2 in X as [X|X]; auto.
  - constructor; [auto|]. intros x X. apply H2 in X as [X|X]; auto.
  - constructor. intros x X. apply H2 in X as [X|X]; [|auto]. apply Hc in X as [X|X]; auto.
  - constructor. intros x X. apply H2 in X as [X|X]; [|auto]. apply Hc in X as [X|X]; auto.
Qed.

Lemma try_serialize_links s inc o c c' inc' :
  try_serialize g imp sc s inc o c = inl (c', Some inc') ->
  linkage s o (map snd inc) c c' (map snd inc').
Proof.
  unfold try_serialize. intros H. destruct (o_ty o =? TJson).
  - destruct (connect_to o s c) eqn:E; [|discriminate]. injection H as <- <-. apply linkage_direct. exact E.
  - destruct (find (o_ty o) inc) as [i|] eqn:F.
    + destruct (connect_to o i c) eqn:E; [|discriminate]. injection H as <- <-. eapply linkage_cached; [exact E|].
      apply find_In in F. apply in_map_iff. exists (o_ty o, i). auto.
    + destruct (r_ser g (o_ty o)); [|discriminate]. cbn in H.
      match type of H with context [connect_to ?a ?b ?x] => destruct (connect_to a b x) as [c2|e] eqn:E2; [|discriminate] end.
      match type of H with context [connect_to o ?b ?x] => destruct (connect_to o b x) as [c4|e] eqn:E4; [|discriminate] end.
      injection H as <- <-. apply connect_to_log in E2 as (A2 & B2 & C2). apply connect_to_log in E4 as (A4 & B4 & C4).
      eexists. split; [|split; [|rewrite C4; exact C2]].
      * rewrite B4. cbn. rewrite B2. cbn. apply (links_fallible sc imp s o (c_next c) (map snd inc) CSerialize (o_ty o) TJson).
        intros x [<-|X]; auto.
      * rewrite A4. cbn. rewrite A2. cbn. rewrite <- !app_assoc. reflexivity.
Qed.

Lemma try_serialize_none s inc o c c' : try_serialize g imp sc s inc o c = inl (c', None) -> c' = c.
Proof.
  unfold try_serialize. intros H. destruct (o_ty o =? TJson).
  - destruct (connect_to o s c) eqn:E; discriminate.
  - destruct (find (o_ty o) inc) as [i|] eqn:F.
    + destruct (connect_to o i c) eqn:E; discriminate.
    + destruct (r_ser g (o_ty o)); [|injection H as <-; reflexivity]. cbn in H.
      match type of H with context [connect_to ?a ?b ?x] => destruct (connect_to a b x) as [c2|e] eqn:E2; [|discriminate] end.
      match type of H with context [connect_to o ?b ?x] => destruct (connect_to o b x) as [c4|e] eqn:E4; [|discriminate] end.
      discriminate.
Qed.

Lemma deserialize_links s ser o c c' ser' :
  deserialize g imp sc s ser o c = inl (c', ser') ->
  linkage s o (std_cached (SDe s ser)) c c' (std_cached (SDe s ser')).
Proof.
  unfold deserialize. intros H. destruct (o_ty o =? s_ty s).
  - destruct (connect_to o s c) eqn:E; [|discriminate]. injection H as <- <-. apply linkage_direct. exact E.
  - destruct (o_ty o =? TJson); [|discriminate]. destruct ser as [i|].
    + destruct (connect_to o i c) eqn:E; [|discriminate]. injection H as <- <-. eapply linkage_cached; [exact E|]. left. reflexivity.
    + destruct (r_de g (s_ty s)); [|discriminate]. cbn in H.
      match type of H with context [connect_to ?a ?b ?x] => destruct (connect_to a b x) as [c2|e] eqn:E2; [|discriminate] end.
      match type of H with context [connect_to o ?b ?x] => destruct (connect_to o b x) as [c4|e] eqn:E4; [|discriminate] end.
      injection H as <- <-. apply connect_to_log in E2 as (A2 & B2 & C2). apply connect_to_log in E4 as (A4 & B4 & C4).
      eexists. split; [|split; [|rewrite C4; exact C2]].
      * rewrite B4. cbn. rewrite B2. cbn. apply (links_fallible sc imp s o (c_next c) [] CDeserialize TJson (s_ty s)).
        intros x [<-|X]; auto.
      * rewrite A4. cbn. rewrite A2. cbn. rewrite <- !app_assoc. reflexivity.
Qed.

Lemma try_string_links s inc o c c' inc' :
  try_string g sc s inc o c = inl (c', Some inc') ->
  linkage s o (map snd inc) c c' (map snd inc').
Proof.
  unfold try_string. intros H. destruct (o_ty o =? TString).
  - destruct (connect_to o s c) eqn:E; [|discriminate]. injection H as <- <-. apply linkage_direct. exact E.
  - destruct (find (o_ty o) inc) as [i|] eqn:F.
    + destruct (connect_to o i c) eqn:E; [|discriminate]. injection H as <- <-. eapply linkage_cached; [exact E|].
      apply find_In in F. apply in_map_iff. exists (o_ty o, i). auto.
    + destruct (negb (r_known g (o_ty o))); [discriminate|]. destruct (r_string g (o_ty o)); [|discriminate]. cbn in H.
      match type of H with context [connect_to ?a ?b ?x] => destruct (connect_to a b x) as [c2|e] eqn:E2; [|discriminate] end.
      match type of H with context [connect_to o ?b ?x] => destruct (connect_to o b x) as [c4|e] eqn:E4; [|discriminate] end.
      injection H as <- <-. apply connect_to_log in E2 as (A2 & B2 & C2). apply connect_to_log in E4 as (A4 & B4 & C4).
      eexists. split; [|split; [|rewrite C4; exact C2]].
      * rewrite B4. cbn. rewrite B2. cbn. apply (links_plain sc imp s o (c_next c) (map snd inc) CString (o_ty o) TString).
        intros x [<-|X]; auto.
      * rewrite A4. cbn. rewrite A2. cbn. rewrite <- !app_assoc. reflexivity.
Qed.

Lemma std_connect_links x o c c' x' :
  std_connect g imp sc x o c = inl (c', x') ->
  std_slot x' = std_slot x /\ linkage (std_slot x) o (std_cached x) c c' (std_cached x').
Proof.
  destruct x as [s inc|s ser|s]; cbn [std_connect std_slot]; intros H.
  - destruct (try_serialize g imp sc s inc o c) as [[c1 [inc'|]]|e] eqn:E; try discriminate.
    injection H as <- <-. split; [reflexivity|]. apply try_serialize_links. exact E.
  - destruct (deserialize g imp sc s ser o c) as [[c1 ser']|e] eqn:E; try discriminate.
    injection H as <- <-. split; [reflexivity|]. apply deserialize_links. exact E.
  - destruct (connect_to o s c) as [c1|e] eqn:E; [|discriminate]. injection H as <- <-.
    split; [reflexivity|]. apply linkage_direct. exact E.
Qed.

Definition cancel_cached (js ss ts : list (nat * slot)) : list slot := map snd js ++ map snd ss ++ map snd ts.

Lemma cancel_links q j s js ss ts o c c' k' :
  cancel_connect g imp sc q j s js ss ts o c = inl (c', k') ->
  exists js' ss' ts' s0, k' = KCancel q j s js' ss' ts' /\ In s0 [q; j; s] /\
    linkage s0 o (cancel_cached js ss ts) c c' (cancel_cached js' ss' ts').
Proof.
  unfold cancel_connect. intros H.
  destruct (try_string g sc s ss o c) as [[c1 [ss1|]]|e] eqn:E1; try discriminate.
  - injection H as <- <-. apply try_string_links in E1. exists js, ss1, ts, s. split; [reflexivity|]. split; [cbn; auto|].
    eapply linkage_weak; [exact E1| |]; unfold cancel_cached; intros x; rewrite !in_app_iff; tauto.
  - assert (c1 = c).
    { unfold try_string in E1. destruct (o_ty o =? TString); [destruct (connect_to o s c); discriminate|].
      destruct (find (o_ty o) ss) as [z|]; [destruct (connect_to o z c); discriminate|].
      destruct (negb (r_known g (o_ty o))); [discriminate|]. destruct (r_string g (o_ty o)); [|injection E1 as <-; reflexivity]. cbn in E1.
      match type of E1 with context [connect_to ?a ?b ?x] => destruct (connect_to a b x) as [c2|e] eqn:E2; [|discriminate] end.
      match type of E1 with context [connect_to o ?b ?x] => destruct (connect_to o b x) as [c4|e] eqn:E4; [|discriminate] end.
      discriminate. }
    subst c1. destruct (try_serialize g imp sc j js o c) as [[c2 [js1|]]|e] eqn:E2; try discriminate.
    + injection H as <- <-. apply try_serialize_links in E2. exists js1, ss, ts, j. split; [reflexivity|]. split; [cbn; auto|].
      eapply linkage_weak; [exact E2| |]; unfold cancel_cached; intros x; rewrite !in_app_iff; tauto.
    + destruct (find (o_ty o) ts) as [i|] eqn:F.
      * destruct (connect_to o i c) as [c3|e] eqn:E3; [|discriminate]. injection H as <- <-.
        exists js, ss, ts, q. split; [reflexivity|]. split; [cbn; auto|]. eapply linkage_cached; [exact E3|].
        unfold cancel_cached. rewrite !in_app_iff. right; right. apply find_In in F. apply in_map_iff. exists (o_ty o, i). auto.
      * destruct (r_known g (o_ty o)); [|discriminate]. cbn in H.
        match type of H with context [connect_to ?a ?b ?x] => destruct (connect_to a b x) as [c3|e] eqn:E3; [|discriminate] end.
        match type of H with context [connect_to o ?b ?x] => destruct (connect_to o b x) as [c4|e] eqn:E4; [|discriminate] end.
        injection H as <- <-. apply connect_to_log in E3 as (A2 & B2 & C2). apply connect_to_log in E4 as (A4 & B4 & C4).
        eexists js, ss, _, q. split; [reflexivity|]. split; [cbn; auto|].
        eexists. split; [|split; [|rewrite C4; exact C2]].
        -- rewrite B4. cbn. rewrite B2. cbn. apply (links_plain sc imp q o (c_next c) _ CTrigger (o_ty o) TUnit).
           unfold cancel_cached. intros x. rewrite !in_app_iff. cbn. intuition.
        -- rewrite A4. cbn. rewrite A2. cbn. rewrite <- !app_assoc. reflexivity.
Qed.
End Links.
