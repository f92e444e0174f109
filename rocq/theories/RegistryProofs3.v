(** * Lemmas about the registry: builders, the static tables, the published description *)

From Coq Require Import List Arith Bool Lia.
From Verif Require Import RegistryModel RegistrySpec RegistryProofs RegistryProofs2.
Import ListNotations.

Section Rust.
Context (R : rust).
Notation runs := (fold_left (run_atom R)).

(** ** Builders *)

Lemma frame_serialize b t st : nodes (register_serialize b t st) = nodes st
  /\ sections (register_serialize b t st) = sections st /\ json (register_serialize b t st) = json st.
Proof. destruct b; cbn; tauto. Qed.
Lemma frame_clone b t st : nodes (register_clone b t st) = nodes st
  /\ sections (register_clone b t st) = sections st /\ json (register_clone b t st) = json st.
Proof.
  unfold register_clone. cbn zeta.
  destruct (negb b || _); cbn; tauto.
Qed.

Lemma frame_result b t st : nodes (register_result R b t st) = nodes st
  /\ sections (register_result R b t st) = sections st /\ json (register_result R b t st) = json st.
Proof.
  unfold register_result. cbn zeta. destruct (m_result _); [cbn; tauto|].
  set (s1 := put st t _).
  pose proof (frame_serialize b (ok_of R t) s1) as (A1 & A2 & A3).
  set (s2 := register_serialize b (ok_of R t) s1) in *.
  pose proof (frame_clone b (ok_of R t) s2) as (B1 & B2 & B3).
  set (s3 := register_clone b (ok_of R t) s2) in *.
  pose proof (frame_serialize b (err_of R t) s3) as (C1 & C2 & C3).
  set (s4 := register_serialize b (err_of R t) s3) in *.
  pose proof (frame_clone b (err_of R t) s4) as (D1 & D2 & D3).
  rewrite D1, D2, D3, C1, C2, C3, B1, B2, B3, A1, A2, A3. cbn. tauto.
Qed.

Lemma atom_nodes st x : nodes (run_atom R st x) =
  match x with ANode id n => upd (nodes st) id (Some n) | _ => nodes st end.
Proof.
  destruct x as [b t|b t|b t|s d t|t|t|t|t|t|t|b t|id n|id cf bu]; cbn [run_atom].
  - apply frame_serialize.
  - destruct b; reflexivity.
  - apply frame_clone.
  - unfold register_json. destruct (s && d); reflexivity.
  - unfold register_join. cbn zeta. destruct (m_join _); reflexivity.
  - unfold register_buffer_access. cbn zeta. destruct (m_access _); reflexivity.
  - unfold register_listen. cbn zeta. destruct (m_listen _); reflexivity.
  - reflexivity.
  - cbn zeta. destruct (m_unzip _); reflexivity.
  - reflexivity.
  - apply frame_result.
  - reflexivity.
  - reflexivity.
Qed.

Lemma atom_sections st x : sections (run_atom R st x) =
  match x with
  | ASec id cf bu => upd (sections st) id (Some {| s_config := cf; s_schema := t_unit; s_builder := bu |})
  | _ => sections st
  end.
Proof.
  destruct x as [b t|b t|b t|s d t|t|t|t|t|t|t|b t|id n|id cf bu]; cbn [run_atom].
  - apply frame_serialize.
  - destruct b; reflexivity.
  - apply frame_clone.
  - unfold register_json. destruct (s && d); reflexivity.
  - unfold register_join. cbn zeta. destruct (m_join _); reflexivity.
  - unfold register_buffer_access. cbn zeta. destruct (m_access _); reflexivity.
  - unfold register_listen. cbn zeta. destruct (m_listen _); reflexivity.
  - reflexivity.
  - cbn zeta. destruct (m_unzip _); reflexivity.
  - reflexivity.
  - apply frame_result.
  - reflexivity.
  - reflexivity.
Qed.

Lemma atom_json st x : json (run_atom R st x) =
  match x with AJson true true t => upd (json st) t true | _ => json st end.
Proof.
  destruct x as [b t|b t|b t|s d t|t|t|t|t|t|t|b t|id n|id cf bu]; cbn [run_atom].
  - apply frame_serialize.
  - destruct b; reflexivity.
  - apply frame_clone.
  - unfold register_json. destruct s, d; reflexivity.
  - unfold register_join. cbn zeta. destruct (m_join _); reflexivity.
  - unfold register_buffer_access. cbn zeta. destruct (m_access _); reflexivity.
  - unfold register_listen. cbn zeta. destruct (m_listen _); reflexivity.
  - reflexivity.
  - cbn zeta. destruct (m_unzip _); reflexivity.
  - reflexivity.
  - apply frame_result.
  - reflexivity.
  - reflexivity.
Qed.

Definition no_builder (x : atom) : Prop :=
  match x with ANode _ _ | ASec _ _ _ => False | _ => True end.

Lemma runs_no_builder l : forall st, Forall no_builder l ->
  nodes (runs l st) = nodes st /\ sections (runs l st) = sections st.
Proof.
  induction l as [|x l IH]; intros st H; [cbn; tauto|]. inversion H as [|? ? H1 H2]; subst.
  cbn [fold_left]. destruct (IH (run_atom R st x) H2) as [E1 E2].
  rewrite E1, E2, atom_nodes, atom_sections. destruct x; cbn in H1; tauto.
Qed.

Lemma impl_no_builder d s c t : Forall no_builder (impl_atoms d s c t).
Proof. repeat constructor. Qed.

Lemma mop_no_builder t o : Forall no_builder (mop_atoms R t o).
Proof.
  destruct o; cbn [mop_atoms]; try (repeat constructor; fail).
  apply Forall_app. split; [|repeat constructor].
  apply Forall_flat_map. apply Forall_forall. intros p _. repeat constructor.
Qed.

Lemma nop_no_builder q p o : Forall no_builder (nop_atoms R q p o).
Proof.
  destruct o; unfold nop_atoms; try (repeat constructor; fail);
    (constructor; [exact Logic.I|apply mop_no_builder]).
Qed.

Lemma message_no_builder d s c t ops :
  Forall no_builder (impl_atoms d s c t ++ AJoin (vec_of R t) :: flat_map (mop_atoms R t) ops).
Proof.
  apply Forall_app. split; [apply impl_no_builder|].
  constructor; [exact Logic.I|]. apply Forall_flat_map, Forall_forall. intros o _. apply mop_no_builder.
Qed.

Lemma call_nodes st x id : nodes (run_call R st x) id =
  match x with
  | CNode _ _ _ id' n _ => if Nat.eqb id' id then Some n else nodes st id
  | _ => nodes st id
  end.
Proof.
  rewrite call_runs. destruct x as [d s c t ops|d s c id' n ops|id' cf bu]; unfold atoms.
  - rewrite (proj1 (runs_no_builder _ st (message_no_builder d s c t ops))). reflexivity.
  - rewrite !fold_left_app. cbn [fold_left].
    rewrite (proj1 (runs_no_builder _ _ (proj2 (Forall_flat_map _ _ _) (proj2 (Forall_forall _ _) (fun o _ => nop_no_builder (n_request n) (n_response n) o))))).
    rewrite atom_nodes. unfold upd. rewrite (Nat.eqb_sym id id'). destruct (Nat.eqb id' id); [reflexivity|].
    rewrite (proj1 (runs_no_builder _ _ (impl_no_builder d s c _))).
    rewrite (proj1 (runs_no_builder _ _ (impl_no_builder d s c _))). reflexivity.
  - reflexivity.
Qed.

Lemma call_sections st x id : sections (run_call R st x) id =
  match x with
  | CSection id' cf bu => if Nat.eqb id' id
                          then Some {| s_config := cf; s_schema := t_unit; s_builder := bu |}
                          else sections st id
  | _ => sections st id
  end.
Proof.
  rewrite call_runs. destruct x as [d s c t ops|d s c id' n ops|id' cf bu]; unfold atoms.
  - rewrite (proj2 (runs_no_builder _ st (message_no_builder d s c t ops))). reflexivity.
  - rewrite !fold_left_app. cbn [fold_left].
    rewrite (proj2 (runs_no_builder _ _ (proj2 (Forall_flat_map _ _ _) (proj2 (Forall_forall _ _) (fun o _ => nop_no_builder (n_request n) (n_response n) o))))).
    rewrite atom_sections.
    rewrite (proj2 (runs_no_builder _ _ (impl_no_builder d s c _))).
    rewrite (proj2 (runs_no_builder _ _ (impl_no_builder d s c _))). reflexivity.
  - cbn. unfold upd. rewrite Nat.eqb_sym. reflexivity.
Qed.

Lemma run_nodes xs : forall st id, nodes (run R st xs) id =
  match last_node xs id with Some n => Some n | None => nodes st id end.
Proof.
  induction xs as [|x xs IH]; intros st id; [reflexivity|].
  cbn [run fold_left last_node]. change (fold_left (run_call R) xs) with (fun s => run R s xs). cbn beta.
  rewrite IH. destruct (last_node xs id); [reflexivity|]. rewrite call_nodes.
  destruct x; try reflexivity. destruct (Nat.eqb id0 id); reflexivity.
Qed.

Lemma run_sections xs : forall st id, sections (run R st xs) id =
  match last_section xs id with
  | Some (cf, bu) => Some {| s_config := cf; s_schema := t_unit; s_builder := bu |}
  | None => sections st id
  end.
Proof.
  induction xs as [|x xs IH]; intros st id; [reflexivity|].
  cbn [run fold_left last_section]. change (fold_left (run_call R) xs) with (fun s => run R s xs). cbn beta.
  rewrite IH. destruct (last_section xs id) as [[cf bu]|]; [reflexivity|]. rewrite call_sections.
  destruct x; try reflexivity. destruct (Nat.eqb id0 id); reflexivity.
Qed.

(** ** JSON buffers *)

Lemma runs_json l : forall st t, json (runs l st) t = true <->
  json st t = true \/ In (AJson true true t) l.
Proof.
  induction l as [|x l IH]; intros st t; [cbn; tauto|]. cbn [fold_left In]. rewrite IH, atom_json.
  destruct x as [b t0|b t0|b t0|s d t0|t0|t0|t0|t0|t0|t0|b t0|id n|id cf bu];
    try (split; [intros [H|H]; tauto|intros [H|[H|H]]; [tauto|discriminate|tauto]]).
  destruct s, d; try (split; [intros [H|H]; tauto|intros [H|[H|H]]; [tauto|discriminate|tauto]]).
  unfold upd. destruct (Nat.eqb_spec t t0) as [->|N].
  - tauto.
  - split; [tauto|]. intros [H|[H|H]]; [tauto|congruence|tauto].
Qed.

Lemma mop_json t o u : ~ In (AJson true true u) (mop_atoms R t o).
Proof.
  destruct o; cbn; try (intuition discriminate).
  rewrite in_app_iff, in_flat_map. cbn. intros [(p & _ & H)|H]; intuition discriminate.
Qed.

Lemma impl_json d s c t u : In (AJson true true u) (impl_atoms d s c t) <-> d = true /\ s = true /\ u = t.
Proof.
  cbn. split.
  - intros [H|[H|[H|[H|[]]]]]; try discriminate. injection H as -> -> ->. tauto.
  - intros (-> & -> & ->). tauto.
Qed.

Lemma nop_json q p o u : In (AJson true true u) (nop_atoms R q p o) <->
  o = NCommonRequest /\ u = q \/ o = NCommonResponse /\ u = p.
Proof.
  destruct o as [| | | | | |f|f|f| | | | |]; unfold nop_atoms.
  1, 4: rewrite in_app_iff, impl_json; cbn; split;
    [intros [(_ & _ & H)|[H|[]]]; [tauto|discriminate]|intros [[H1 H]|[H1 H]]; try discriminate; tauto].
  all: try (cbn; split; [intros H; intuition discriminate|intros [[H _]|[H _]]; discriminate]).
  all: cbn [In]; split; [intros [H|H]; [discriminate|apply mop_json in H as []]
                        |intros [[H _]|[H _]]; discriminate].
Qed.

Lemma call_json x t : In (AJson true true t) (atoms R x) <-> asks_json t x.
Proof.
  destruct x as [d s c t' ops|d s c id n ops|id cf bu]; unfold atoms.
  - rewrite in_app_iff, impl_json. cbn [In]. rewrite in_flat_map. split.
    + intros [(-> & -> & ->)|[H|(o & _ & H)]]; [constructor|discriminate|apply mop_json in H as []].
    + intros A. inversion A; subst. tauto.
  - rewrite !in_app_iff, !impl_json. cbn [In]. rewrite in_flat_map. split.
    + intros [(-> & -> & ->)|[(-> & -> & ->)|[H|(o & O & H)]]].
      * apply aj_request.
      * apply aj_response.
      * discriminate.
      * apply nop_json in H as [[-> ->]|[-> ->]]; [apply aj_common_request|apply aj_common_response]; exact O.
    + intros A. inversion A; subst; [tauto|tauto| |]; right; right; right.
      * exists NCommonRequest. rewrite nop_json. tauto.
      * exists NCommonResponse. rewrite nop_json. tauto.
  - cbn. split; [intros [H|[]]; discriminate|intros A; inversion A].
Qed.

Lemma run_json xs st t : json (run R st xs) t = true <->
  json st t = true \/ exists x, In x xs /\ asks_json t x.
Proof.
  rewrite run_runs, runs_json, in_flat_map. split; intros [H|(x & I & H)]; try tauto;
    right; exists x; (split; [exact I|]); apply call_json; exact H.
Qed.

(** ** Cloning for joins *)

Definition clones (c : nat -> bool) (st : state) : Prop :=
  forall t, cloned st t = true <-> c t = true \/ has st Clone t.

Lemma clones_same c st st' w : clones c st -> cloned st' = cloned st -> added st st' w ->
  (forall t, w Clone t = false) -> clones c st'.
Proof.
  intros C E A W t. rewrite E, (C t). unfold has. rewrite A, W. reflexivity.
Qed.

Lemma clones_clone c b t st : good st -> clones c st -> clones c (register_clone b t st).
Proof.
  intros G C u. pose proof (clone_added b t st G Clone u) as A.
  unfold has. rewrite A. unfold wor, w1. cbn [abil_eqb andb orb].
  unfold register_clone. cbn zeta. pose proof (entry_gives st t Clone G) as E. cbn [abil_eqb gives] in E.
  destruct b; cbn [negb orb].
  - rewrite E. cbn [abil_eqb andb]. destruct (answer st Clone t) as [x|] eqn:X; cbn [cloned put with_messages with_cloned].
    + rewrite (C u). unfold has. destruct (Nat.eqb_spec t u) as [->|N]; [|reflexivity].
      rewrite X. split; intros [H|H]; try tauto; right; discriminate.
    + unfold upd. rewrite (Nat.eqb_sym t u). destruct (Nat.eqb_spec u t) as [->|N].
      * split; [intros _; right; discriminate|reflexivity].
      * exact (C u).
  - unfold w0. exact (C u).
Qed.

Lemma cloned_serialize b t st : cloned (register_serialize b t st) = cloned st.
Proof. destruct b; reflexivity. Qed.

Lemma clones_serialize c b t st : good st -> clones c st -> clones c (register_serialize b t st).
Proof.
  intros G C. apply (clones_same c st _ _ C (cloned_serialize b t st) (serialize_added b t st G)).
  intros u. destruct b; reflexivity.
Qed.

Lemma clones_atom c st x : good st -> guard st x -> clones c st -> clones c (run_atom R st x).
Proof.
  intros G K C. pose proof (atom_added R st x G K) as A.
  destruct x as [b t|b t|b t|s d t|t|t|t|t|t|t|b t|id n|id cf bu]; cbn [again] in A.
  - apply clones_serialize; trivial.
  - eapply (clones_same c st); [exact C| |exact A|].
    + destruct b; reflexivity.
    + intros u. destruct b; reflexivity.
  - apply clones_clone; trivial.
  - eapply (clones_same c st); [exact C| |exact A|reflexivity].
    cbn. unfold register_json. destruct (s && d); reflexivity.
  - eapply (clones_same c st); [exact C| |exact A|reflexivity].
    cbn. unfold register_join. cbn zeta. destruct (m_join _); reflexivity.
  - eapply (clones_same c st); [exact C| |exact A|reflexivity].
    cbn. unfold register_buffer_access. cbn zeta. destruct (m_access _); reflexivity.
  - eapply (clones_same c st); [exact C| |exact A|reflexivity].
    cbn. unfold register_listen. cbn zeta. destruct (m_listen _); reflexivity.
  - eapply (clones_same c st); [exact C|reflexivity|exact A|reflexivity].
  - eapply (clones_same c st); [exact C| |exact A|reflexivity].
    cbn [run_atom]. cbn zeta. destruct (m_unzip _); reflexivity.
  - eapply (clones_same c st); [exact C|reflexivity|exact A|reflexivity].
  - cbn [run_atom guard] in *. clear A. unfold register_result. rewrite (entry_made st t _ K). cbn zeta.
    destruct (m_result (entry st t t)) eqn:E.
    + eapply (clones_same c st); [exact C|reflexivity|exact (put_entry_added st t G)|reflexivity].
    + set (s1 := put st t (set_result (entry st t t) (Some t))).
      assert (A1 : added st s1 (wor (w1 Known t) (w1 ForkResult t))).
      { apply (put_added st t (entry st t t) (fun r => set_result r (Some t))); trivial. intros []; reflexivity. }
      pose proof (added_good _ _ _ G A1) as G1.
      pose proof (serialize_added b (ok_of R t) s1 G1) as A2.
      pose proof (added_good _ _ _ G1 A2) as G2.
      pose proof (clone_added b (ok_of R t) _ G2) as A3.
      pose proof (added_good _ _ _ G2 A3) as G3.
      pose proof (serialize_added b (err_of R t) _ G3) as A4.
      pose proof (added_good _ _ _ G3 A4) as G4.
      apply clones_clone; [exact G4|]. apply clones_serialize; [exact G3|].
      apply clones_clone; [exact G2|]. apply clones_serialize; [exact G1|].
      eapply (clones_same c st); [exact C|reflexivity|exact A1|reflexivity].
  - eapply (clones_same c st); [exact C|reflexivity|exact A|reflexivity].
  - eapply (clones_same c st); [exact C|reflexivity|exact A|reflexivity].
Qed.

Lemma run_clones xs c st : good st -> clones c st -> clones c (run R st xs).
Proof.
  intros G C. rewrite run_runs. pose proof (calls_guarded R xs st G) as K.
  revert st G C K. generalize (flat_map (atoms R) xs) as l.
  induction l as [|x l IH]; intros st G C K; [exact C|]. destruct K as [K1 K2].
  cbn [fold_left]. apply IH; [exact (atom_good R st x G K1)|apply clones_atom; trivial|exact K2].
Qed.

End Rust.

Lemma blank_clones j c : clones c (blank j c).
Proof.
  intros t. rewrite blank_has. cbn. split; [tauto|]. intros [H|[H _]]; [exact H|discriminate].
Qed.
