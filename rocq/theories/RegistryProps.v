(** * Claims about the registry of diagram elements *)

From Coq Require Import List Arith Bool Permutation.
From Verif Require Import RegistryModel RegistrySpec RegistryProofs RegistryProofs2 RegistryProofs3.
Import ListNotations.

(** Types for the cases: 20 is [Result<21, 22>], 23 is the tuple [(21, 24)], [Vec<t>] is [100 + t] *)
Definition rust_case : rust :=
  {| vec_of := fun t => 100 + t;
     parts_of := fun t => if Nat.eqb t 23 then [21; 24] else [];
     ok_of := fun t => if Nat.eqb t 20 then 21 else 0;
     err_of := fun t => if Nat.eqb t 20 then 22 else 0;
     item_of := fun t => if Nat.eqb t t_json then t_json else t - 100 |}.

Ltac compute_has :=
  unfold has;
  lazymatch goal with
  | |- _ <> _ => vm_compute; discriminate
  | |- ~ _ => let H := fresh in intros H; apply H; vm_compute; reflexivity
  | _ => vm_compute; reflexivity
  end.

Definition none : nat -> bool := fun _ => false.

Definition node_case : nreg :=
  {| n_request := 3; n_response := 20; n_streams := [(0, 30)]; n_config := 4; n_builder := 9 |}.

(** ** C81: abilities are the union of what was asked for *)

(** Whatever else is registered, nothing is ever lost: opting out of an operation for
    one node does not disable it for others. *)
Theorem C81_nothing_is_lost : forall R j c xs ys a t,
  has (run R (blank j c) xs) a t -> has (run R (blank j c) (xs ++ ys)) a t.
Proof.
  intros R j c xs ys a t H. unfold run. rewrite fold_left_app.
  apply (run_keeps R ys); [|exact H]. apply run_good, blank_good.
Qed.

(** Nothing is there that nobody asked for. *)
Theorem C81_nothing_unasked : forall R j c xs a t,
  has (run R (blank j c) xs) a t ->
  (a = Known /\ t = t_json) \/ exists x, In x xs /\ wants R x a t.
Proof.
  intros R j c xs a t H.
  destruct (run_sound R xs _ a t (blank_good j c) H) as [H1|H1]; [left|right; exact H1].
  apply (blank_has j c). exact H1.
Qed.

(** Everything that was asked for is there, if no type of result is asked for both with
    and without the abilities of its parts. *)
Theorem C81_union_partial : forall R j c xs a t,
  uniform_results xs ->
  (has (run R (blank j c) xs) a t <->
   (a = Known /\ t = t_json) \/ exists x, In x xs /\ wants R x a t).
Proof.
  intros R j c xs a t U. split; [apply C81_nothing_unasked|].
  intros [[-> ->]|(x & I & W)].
  - apply run_keeps; [apply blank_good|]. apply blank_has. split; reflexivity.
  - apply (run_complete R xs _ a t x); trivial; [apply blank_good|].
    intros u. apply blank_no_result.
Qed.

(** Without that condition: everything but serializing and cloning the parts of results. *)
Theorem C81_all_but_parts_of_results : forall R j c xs a t x,
  In x xs -> wants R x a t ->
  (a <> Serialize /\ a <> Clone \/
   forall b u, asks_result b u x -> t <> ok_of R u /\ t <> err_of R u) ->
  has (run R (blank j c) xs) a t.
Proof.
  intros R j c xs a t x I W P. apply (run_complete_others R xs _ a t x); trivial; [apply blank_good|].
  intros u. apply blank_no_result.
Qed.

(** The order and the number of the registrations do not matter. *)
Theorem C81_order_partial : forall R j c xs ys a t,
  uniform_results xs ->
  (forall x, In x xs <-> In x ys) ->
  (has (run R (blank j c) xs) a t <-> has (run R (blank j c) ys) a t).
Proof.
  intros R j c xs ys a t U E.
  assert (U' : uniform_results ys).
  { intros u x y X Y. apply U; apply E; assumption. }
  rewrite (C81_union_partial R j c xs a t U), (C81_union_partial R j c ys a t U').
  split; (intros [H|(x & I & W)]; [left; exact H|right; exists x; split; [apply E; exact I|exact W]]).
Qed.

(** F101: with results asked for in both ways the order decides: [with_result] after
    [with_result_minimal] does not make the parts serializable or cloneable. *)
Theorem C81_order_refuted : exists R j c xs ys,
  Permutation xs ys
  /\ has (run R (blank j c) xs) Clone 21 /\ ~ has (run R (blank j c) ys) Clone 21
  /\ has (run R (blank j c) xs) Serialize 22 /\ ~ has (run R (blank j c) ys) Serialize 22
  /\ (exists x, In x ys /\ wants R x Clone 21).
Proof.
  exists rust_case, none, none,
    [CMessage true true true 20 [WithResult true]; CMessage true true true 20 [WithResult false]],
    [CMessage true true true 20 [WithResult false]; CMessage true true true 20 [WithResult true]].
  split; [constructor|]. do 4 (split; [compute_has|]).
  exists (CMessage true true true 20 [WithResult true]). split; [right; left; reflexivity|].
  apply (w_message_op rust_case true true true 20 _ (WithResult true)); [left; reflexivity|].
  apply ow_part_clone; [reflexivity|]. exact (part_ok rust_case true 20).
Qed.

(** Errors name the type, and appear exactly when the ability was not given. *)
Theorem C81_errors : forall R j c xs t,
  let st := run R (blank j c) xs in
  (get_serialize st t = inl t \/ get_serialize st t = inr (NotSerializable t))
  /\ (get_deserialize st t = inl t \/ get_deserialize st t = inr (NotDeserializable t))
  /\ (get_fork_clone st t = inl t \/ get_fork_clone st t = inr (NotCloneable t))
  /\ (get_unzip st t = inl t \/ get_unzip st t = inr (NotUnzippable t))
  /\ (get_fork_result st t = inl t \/ get_fork_result st t = inr (CannotForkResult t))
  /\ (get_split st t = inl t \/ get_split st t = inr (NotSplittable t))
  /\ (get_join st t = inl t \/ get_join st t = inr (NotJoinable t))
  /\ (get_buffer_access st t = inl t \/ get_buffer_access st t = inr (CannotAccessBuffers t))
  /\ (get_listen st t = inl t \/ get_listen st t = inr (CannotListen t))
  /\ (get_create_buffer st t = inl t \/ get_create_buffer st t = inr (UnregisteredType t))
  /\ (get_to_string st t = inl (Some t) \/ (get_to_string st t = inl None /\ get_create_buffer st t = inl t)
      \/ (get_to_string st t = inr (UnregisteredType t) /\ get_create_buffer st t = inr (UnregisteredType t))).
Proof.
  intros R j c xs t st.
  pose proof (run_good R xs _ (blank_good j c)) as G. fold st in G.
  assert (F : forall a f e, (forall r, gives r a = f r) -> field f st t e = inl t \/ field f st t e = inr e).
  { intros a f e E. pose proof (G a t) as H. rewrite answer_eq in H. unfold field.
    destruct (messages st t) as [r|]; [|right; reflexivity]. rewrite E in H.
    destruct (f r) as [x|]; [|right; reflexivity]. left. f_equal. apply H. reflexivity. }
  repeat split.
  - apply (F Serialize). reflexivity.
  - apply (F Deserialize). reflexivity.
  - apply (F Clone). reflexivity.
  - apply (F Unzip). reflexivity.
  - apply (F ForkResult). reflexivity.
  - apply (F Split). reflexivity.
  - apply (F Join). reflexivity.
  - apply (F BufferAccess). reflexivity.
  - apply (F Listen). reflexivity.
  - pose proof (G Known t) as H. rewrite answer_eq in H. unfold get_create_buffer.
    destruct (messages st t) as [r|]; [|right; reflexivity]. left. f_equal. apply H. reflexivity.
  - pose proof (G ToString t) as H. pose proof (G Known t) as K. rewrite answer_eq in H, K. unfold get_to_string, get_create_buffer.
    destruct (messages st t) as [r|]; [|tauto]. cbn in H. destruct (m_string r) as [x|].
    + left. f_equal. f_equal. apply H. reflexivity.
    + right. left. split; [reflexivity|]. f_equal. apply K. reflexivity.
Qed.

(** Two nodes share a response; one opts out of cloning, the other does not.  The hypotheses
    of the claims above are met and both directions of the union are used. *)
Definition calls_case : list call :=
  [ CNode true true false 7 node_case [NResult true];
    CNode true true true 8 node_case [NCloneResponse];
    CMessage false true false 23 [WithUnzip true; WithToString];
    CMessage false false false 30 [] ].

Example C81_case :
  uniform_results calls_case
  /\ has (run rust_case (blank none none) calls_case) Clone 20
  /\ has (run rust_case (blank none none) calls_case) Serialize 22
  /\ has (run rust_case (blank none none) calls_case) Clone 24
  /\ has (run rust_case (blank none none) calls_case) Join 130
  /\ has (run rust_case (blank none none) calls_case) Known 30
  /\ ~ has (run rust_case (blank none none) calls_case) Deserialize 24
  /\ ~ has (run rust_case (blank none none) calls_case) Clone 23
  /\ get_fork_clone (run rust_case (blank none none) calls_case) 30 = inr (NotCloneable 30)
  /\ get_create_buffer (run rust_case (blank none none) calls_case) 31 = inr (UnregisteredType 31).
Proof.
  split.
  { intros t x y X Y A B. cbn in X, Y.
    repeat match goal with H : _ \/ _ |- _ => destruct H end; subst; try contradiction;
      inversion A; subst; inversion B; subst; cbn in *;
      repeat match goal with H : _ \/ _ |- _ => destruct H end; try discriminate; try contradiction. }
  do 8 (split; [compute_has|]). compute_has.
Qed.

Print Assumptions C81_nothing_is_lost.
Print Assumptions C81_nothing_unasked.
Print Assumptions C81_union_partial.
Print Assumptions C81_all_but_parts_of_results.
Print Assumptions C81_order_partial.
Print Assumptions C81_order_refuted.
Print Assumptions C81_errors.

(** ** C82: builders, and what can be done around them *)

(** The builder that was registered last under an id is used, together with its own
    types; an id that was never used gives an error with the id. *)
Theorem C82_last_builder : forall R j c xs id,
  get_node (run R (blank j c) xs) id =
    match last_node xs id with Some n => inl n | None => inr (BuilderNotFound id) end.
Proof.
  intros R j c xs id. unfold get_node. rewrite run_nodes. destruct (last_node xs id); reflexivity.
Qed.

Theorem C82_last_section : forall R j c xs id,
  match last_section xs id with
  | Some (config, builder) =>
      exists s, get_section (run R (blank j c) xs) id = inl s /\ s_config s = config /\ s_builder s = builder
  | None => get_section (run R (blank j c) xs) id = inr (BuilderNotFound id)
  end.
Proof.
  intros R j c xs id. unfold get_section. rewrite run_sections.
  destruct (last_section xs id) as [[cf bu]|]; [|reflexivity].
  eexists. split; [reflexivity|]. split; reflexivity.
Qed.

(** The request and the response of each builder, and the parts that its messages are divided into, can be used for
    buffers, triggers and scopes: those are made for exactly that type. *)
Theorem C82_messages_of_nodes : forall R j c xs id n,
  get_node (run R (blank j c) xs) id = inl n ->
  get_create_buffer (run R (blank j c) xs) (n_request n) = inl (n_request n)
  /\ get_create_buffer (run R (blank j c) xs) (n_response n) = inl (n_response n).
Proof.
  intros R j c xs id n H. rewrite C82_last_builder in H.
  destruct (last_node xs id) as [n'|] eqn:E; [|discriminate]. injection H as ->.
  assert (X : exists d s cl ops, In (CNode d s cl id n ops) xs).
  { revert E. induction xs as [|x xs IH]; cbn; [discriminate|].
    destruct (last_node xs id) as [m|] eqn:L.
    - intros [= ->]. destruct (IH eq_refl) as (d & s & cl & ops & I). exists d, s, cl, ops. right. exact I.
    - destruct x; try discriminate. destruct (Nat.eqb_spec id0 id) as [->|]; [|discriminate].
      intros [= ->]. do 4 eexists. left. reflexivity. }
  destruct X as (d & s & cl & ops & I).
  assert (K : forall t, wants R (CNode d s cl id n ops) Known t ->
              get_create_buffer (run R (blank j c) xs) t = inl t).
  { intros t W.
    assert (N : Known <> Serialize /\ Known <> Clone) by (split; discriminate).
    pose proof (C81_all_but_parts_of_results R j c xs Known t _ I W (or_introl N)) as A.
    destruct (C81_errors R j c xs t) as (_ & _ & _ & _ & _ & _ & _ & _ & _ & [B|B] & _); [exact B|].
    exfalso. apply A. unfold answer. rewrite B. reflexivity. }
  split; apply K; [apply w_request|apply w_response]; constructor.
Qed.

Theorem C82_parts_are_known : forall R j c xs x o t p,
  In x xs ->
  (exists d s cl ops, x = CMessage d s cl t ops /\ In o ops) \/
  (exists d s cl id n ops no, x = CNode d s cl id n ops /\ n_response n = t
                              /\ In no ops /\ as_mop no = Some o) ->
  part R o t p ->
  get_create_buffer (run R (blank j c) xs) p = inl p.
Proof.
  intros R j c xs x o t p I W P.
  assert (N : Known <> Serialize /\ Known <> Clone) by (split; discriminate).
  assert (V : wants R x Known p).
  { destruct W as [(d & s & cl & ops & -> & O)|(d & s & cl & id & n & ops & no & -> & <- & O & E)].
    - eapply w_message_op; [exact O|]. apply ow_part_known. exact P.
    - eapply w_node_op; [exact O|]. eapply nw_response; [exact E|]. apply ow_part_known. exact P. }
  pose proof (C81_all_but_parts_of_results R j c xs Known p x I V (or_introl N)) as A.
  destruct (C81_errors R j c xs p) as (_ & _ & _ & _ & _ & _ & _ & _ & _ & [B|B] & _); [exact B|].
  exfalso. apply A. unfold answer. rewrite B. reflexivity.
Qed.

(** F102: the types of the streams of a node are not registered: they cannot be buffered,
    turned into triggers or passed on by scopes. *)
Theorem C82_streams_of_nodes_refuted : exists R j c xs id n name t,
  get_node (run R (blank j c) xs) id = inl n /\ In (name, t) (n_streams n)
  /\ get_create_buffer (run R (blank j c) xs) t = inr (UnregisteredType t).
Proof.
  exists rust_case, none, none, [CNode true true true 7 node_case []], 7, node_case, 0, 30.
  split; [vm_compute; reflexivity|]. split; [left; reflexivity|vm_compute; reflexivity].
Qed.

(** F103: "any message type can be joined into a Vec" holds for messages registered by
    themselves, but not for the messages of a node. *)
Theorem C82_messages_join_into_vectors : forall R j c xs d s cl t ops,
  In (CMessage d s cl t ops) xs ->
  get_join (run R (blank j c) xs) (vec_of R t) = inl (vec_of R t).
Proof.
  intros R j c xs d s cl t ops I.
  assert (N : Join <> Serialize /\ Join <> Clone) by (split; discriminate).
  assert (V : wants R (CMessage d s cl t ops) Join (vec_of R t)) by (apply w_message_vec; constructor).
  pose proof (C81_all_but_parts_of_results R j c xs Join _ _ I V (or_introl N)) as A.
  destruct (C81_errors R j c xs (vec_of R t)) as (_ & _ & _ & _ & _ & _ & [B|B] & _); [exact B|].
  exfalso. apply A. unfold answer. rewrite B. reflexivity.
Qed.

Theorem C82_node_messages_join_into_vectors_refuted : exists R j c xs id n,
  get_node (run R (blank j c) xs) id = inl n
  /\ get_join (run R (blank j c) xs) (vec_of R (n_request n)) = inr (NotJoinable (vec_of R (n_request n)))
  /\ get_join (run R (blank j c) xs) (vec_of R (n_response n)) = inr (NotJoinable (vec_of R (n_response n))).
Proof.
  exists rust_case, none, none, [CNode true true true 7 node_case []], 7, node_case.
  repeat (split; [vm_compute; reflexivity|]). vm_compute; reflexivity.
Qed.

(** Buffers of a type can be used as JSON exactly if some registration (here or in another
    registry of the same process) had both conversions at once. *)
Theorem C82_json_buffers : forall R j c xs t,
  json (run R (blank j c) xs) t = true <->
  j t = true \/ t = t_unit \/ exists x, In x xs /\ asks_json t x.
Proof.
  intros R j c xs t. rewrite run_json. cbn. unfold upd.
  destruct (Nat.eqb_spec t t_unit) as [->|N]; [tauto|]. tauto.
Qed.

(** F104: both conversions together are not enough: enabled one by one they do not give JSON buffers. *)
Theorem C82_both_conversions_give_json_refuted : exists R j c xs t,
  get_serialize (run R (blank j c) xs) t = inl t
  /\ get_deserialize (run R (blank j c) xs) t = inl t
  /\ json (run R (blank j c) xs) t = false.
Proof.
  exists rust_case, none, none,
    [CMessage true false true 20 []; CMessage false true true 20 []], 20.
  repeat (split; [vm_compute; reflexivity|]). vm_compute; reflexivity.
Qed.

(** Buffers can be joined by cloning exactly if cloning is there, here or in another registry. *)
Theorem C82_join_by_cloning : forall R j c xs t,
  cloned (run R (blank j c) xs) t = true <->
  c t = true \/ get_fork_clone (run R (blank j c) xs) t = inl t.
Proof.
  intros R j c xs t. pose proof (run_clones R xs c _ (blank_good j c) (blank_clones j c) t) as H.
  rewrite H. clear H. destruct (C81_errors R j c xs t) as (_ & _ & B & _). cbn zeta in B.
  assert (E : has (run R (blank j c) xs) Clone t <-> get_fork_clone (run R (blank j c) xs) t = inl t).
  { unfold has, answer. destruct B as [B|B]; rewrite B; split; intros H;
      first [reflexivity|discriminate|exfalso; apply H; reflexivity]. }
  rewrite E. reflexivity.
Qed.

(** A configuration which the builder registered last under the id cannot read is an error, and so is its refusal;
    neither is a panic ... *)
Theorem C82_node_configuration : forall R j c xs reads f id d s cl n ops v,
  exists n', get_node (run R (blank j c) (xs ++ [CNode d s cl id n ops])) id = inl n'
  /\ create_node reads f id n' v <> Panics
  /\ (create_node reads f id n' v = ConfigError <-> reads (n_config n) v = false)
  /\ (forall x, create_node reads f id n' v = Made x
                <-> reads (n_config n) v = true /\ f (n_builder n) v = Some x).
Proof.
  intros R j c xs reads f id d s cl n ops v. exists n. rewrite C82_last_builder.
  assert (L : last_node (xs ++ [CNode d s cl id n ops]) id = Some n).
  { induction xs as [|x xs IH]; cbn; [rewrite Nat.eqb_refl; reflexivity|]. rewrite IH. reflexivity. }
  rewrite L. split; [reflexivity|]. unfold create_node.
  destruct (reads (n_config n) v); [destruct (f (n_builder n) v)|];
    (split; [discriminate|]; split; [split; congruence|]; intros x; split;
     [intros H; split; congruence|intros [H1 H2]; congruence]).
Qed.

(** ... but F105: for sections it is a panic, though the value fits the published schema
    (which is that of [()], whatever the section takes). *)
Theorem C82_section_configuration_refuted : exists R j c xs id s reads f v,
  get_section (run R (blank j c) xs) id = inl s
  /\ reads (s_schema s) v = true
  /\ create_section reads f s v = Panics.
Proof.
  exists rust_case, none, none, [CSection 5 4 9], 5,
    {| s_config := 4; s_schema := t_unit; s_builder := 9 |},
    (fun ty v => Nat.eqb ty v), (fun _ _ => 0), 0.
  repeat (split; [vm_compute; reflexivity|]). vm_compute; reflexivity.
Qed.

Example C82_case :
  let st := run rust_case (new_registry rust_case none none) (calls_case ++ [CSection 5 4 9]) in
  get_node st 7 = inl node_case
  /\ get_node st 9 = inr (BuilderNotFound 9)
  /\ get_create_buffer st 22 = inl 22
  /\ get_join st (vec_of rust_case 20) = inl 120
  /\ json st 3 = true /\ json st 23 = false
  /\ cloned st 20 = true /\ cloned st 23 = false
  /\ (exists s, get_section st 5 = inl s /\ create_section (fun a b => Nat.eqb a b) (fun b _ => b) s 4 = Made 9)
  /\ create_node (fun a b => Nat.eqb a b) (fun b _ => Some b) 7 node_case 4 = Made 9
  /\ create_node (fun a b => Nat.eqb a b) (fun b _ => Some b) 7 node_case 3 = ConfigError.
Proof.
  cbn zeta. repeat (split; [vm_compute; reflexivity|]).
  split; [|split; vm_compute; reflexivity].
  exists {| s_config := 4; s_schema := t_unit; s_builder := 9 |}. split; vm_compute; reflexivity.
Qed.

Print Assumptions C82_last_builder.
Print Assumptions C82_last_section.
Print Assumptions C82_messages_of_nodes.
Print Assumptions C82_parts_are_known.
Print Assumptions C82_streams_of_nodes_refuted.
Print Assumptions C82_messages_join_into_vectors.
Print Assumptions C82_node_messages_join_into_vectors_refuted.
Print Assumptions C82_json_buffers.
Print Assumptions C82_both_conversions_give_json_refuted.
Print Assumptions C82_join_by_cloning.
Print Assumptions C82_node_configuration.
Print Assumptions C82_section_configuration_refuted.

(** ** C83: the published description *)

(** The keys of an object *)
Definition keys (v : js) : list key := match v with JObject l => map fst l | _ => [] end.

Definition key_of (a : ability) : option key :=
  match a with
  | Deserialize => Some KDeserialize | Serialize => Some KSerialize | Clone => Some KForkClone
  | Unzip => Some KUnzip | ForkResult => Some KForkResult | Split => Some KSplit | Join => Some KJoin
  | _ => None
  end.

Lemma entry_if_keys f k v : map fst (entry_if f k v) = match f with Some _ => [k] | None => [] end.
Proof. destruct f; reflexivity. Qed.

(** The description lists exactly the abilities (of the seven that have a key). *)
Theorem C83_description : forall R j c xs t r a k,
  messages (run R (blank j c) xs) t = Some r ->
  key_of a = Some k ->
  (In k (keys (describe R t r)) <-> has (run R (blank j c) xs) a t).
Proof.
  intros R j c xs t r a k E A. unfold has. rewrite answer_eq, E.
  unfold describe, keys. rewrite !map_app, !entry_if_keys, !in_app_iff.
  destruct a; try discriminate; injection A as <-; cbn [gives].
  - destruct (m_de r); [split; [discriminate|left; left; reflexivity]|].
    split; [|congruence]. intros H.
    repeat match goal with H : _ \/ _ |- _ => destruct H end; exfalso;
    repeat match goal with H : In _ (match ?x with _ => _ end) |- _ => destruct x end;
    cbn in *; intuition discriminate.
  - destruct (m_ser r); [split; [discriminate|intros _; right; left; left; reflexivity]|].
    split; [|congruence]. intros H.
    repeat match goal with H : _ \/ _ |- _ => destruct H end; exfalso;
    repeat match goal with H : In _ (match ?x with _ => _ end) |- _ => destruct x end;
    cbn in *; intuition discriminate.
  - destruct (m_clone r); [split; [discriminate|intros _; do 2 right; left; left; reflexivity]|].
    split; [|congruence]. intros H.
    repeat match goal with H : _ \/ _ |- _ => destruct H end; exfalso;
    repeat match goal with H : In _ (match ?x with _ => _ end) |- _ => destruct x end;
    cbn in *; intuition discriminate.
  - destruct (m_unzip r); [split; [discriminate|intros _; do 3 right; left; left; reflexivity]|].
    split; [|congruence]. intros H.
    repeat match goal with H : _ \/ _ |- _ => destruct H end; exfalso;
    repeat match goal with H : In _ (match ?x with _ => _ end) |- _ => destruct x end;
    cbn in *; intuition discriminate.
  - destruct (m_result r); [split; [discriminate|intros _; do 4 right; left; left; reflexivity]|].
    split; [|congruence]. intros H.
    repeat match goal with H : _ \/ _ |- _ => destruct H end; exfalso;
    repeat match goal with H : In _ (match ?x with _ => _ end) |- _ => destruct x end;
    cbn in *; intuition discriminate.
  - destruct (m_split r); [split; [discriminate|intros _; do 5 right; left; left; reflexivity]|].
    split; [|congruence]. intros H.
    repeat match goal with H : _ \/ _ |- _ => destruct H end; exfalso;
    repeat match goal with H : In _ (match ?x with _ => _ end) |- _ => destruct x end;
    cbn in *; intuition discriminate.
  - destruct (m_join r); [split; [discriminate|intros _; do 6 right; left; reflexivity]|].
    split; [|congruence]. intros H.
    repeat match goal with H : _ \/ _ |- _ => destruct H end; exfalso;
    repeat match goal with H : In _ (match ?x with _ => _ end) |- _ => destruct x end;
    cbn in *; intuition discriminate.
Qed.

(** The description fits the published schema exactly for the types that cannot be unzipped ... *)
Theorem C83_schema : forall R j c xs t r,
  messages (run R (blank j c) xs) t = Some r ->
  (conforms (describe R t r) = true <-> ~ has (run R (blank j c) xs) Unzip t).
Proof.
  intros R j c xs t r E. unfold has. rewrite answer_eq, E. cbn [gives].
  unfold describe, conforms. rewrite !forallb_app.
  assert (O : forall f k, k <> KUnzip ->
     forallb (fun kv : key * js => match fst kv with
        | KUnzip => strings_or_null (snd kv) | KOutputTypes => true | _ => object_or_null (snd kv) end)
        (entry_if f k (JObject [])) = true).
  { intros f k N. destruct f; [|reflexivity]. destruct k; cbn; congruence || reflexivity. }
  rewrite !O by discriminate. cbn [andb]. rewrite andb_true_r.
  destruct (m_unzip r); cbn.
  - split; [discriminate|]. intros H. exfalso. apply H. discriminate.
  - split; [intros _ H; apply H; reflexivity|reflexivity].
Qed.

(** ... F106: the description of a message that can be unzipped breaks the schema. *)
Theorem C83_schema_refuted : exists R j c xs t r,
  messages (run R (blank j c) xs) t = Some r /\ conforms (describe R t r) = false.
Proof.
  exists rust_case, none, none, [CMessage true true true 23 [WithUnzip true]], 23,
    (entry (run rust_case (blank none none) [CMessage true true true 23 [WithUnzip true]]) 23 0).
  split; vm_compute; reflexivity.
Qed.

(** F107: two types of which only one can be listened to, accessed and turned into a
    string have the same description. *)
Theorem C83_description_is_complete_refuted : exists R j c xs t u r r',
  messages (run R (blank j c) xs) t = Some r /\ messages (run R (blank j c) xs) u = Some r'
  /\ describe R t r = describe R u r'
  /\ has (run R (blank j c) xs) Listen t /\ ~ has (run R (blank j c) xs) Listen u
  /\ has (run R (blank j c) xs) BufferAccess t /\ ~ has (run R (blank j c) xs) BufferAccess u
  /\ has (run R (blank j c) xs) ToString t /\ ~ has (run R (blank j c) xs) ToString u.
Proof.
  exists rust_case, none, none,
    [CMessage true true true 40 [WithListen; WithBufferAccess; WithToString]; CMessage true true true 41 []],
    40, 41,
    (entry (run rust_case (blank none none) [CMessage true true true 40 [WithListen; WithBufferAccess; WithToString]; CMessage true true true 41 []]) 40 0),
    (entry (run rust_case (blank none none) [CMessage true true true 40 [WithListen; WithBufferAccess; WithToString]; CMessage true true true 41 []]) 41 0).
  do 8 (split; [compute_has|]). compute_has.
Qed.

Example C83_case :
  exists r, messages (run rust_case (blank none none) calls_case) 20 = Some r
  /\ keys (describe rust_case 20 r) = [KDeserialize; KSerialize; KForkClone; KForkResult]
  /\ conforms (describe rust_case 20 r) = true.
Proof.
  exists (entry (run rust_case (blank none none) calls_case) 20 0).
  split; [vm_compute; reflexivity|]. split; vm_compute; reflexivity.
Qed.

Print Assumptions C83_description.
Print Assumptions C83_schema.
Print Assumptions C83_schema_refuted.
Print Assumptions C83_description_is_complete_refuted.
