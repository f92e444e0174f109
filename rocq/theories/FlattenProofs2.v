(** Proofs about flattened promises: the model keeps the invariant. *)
From Verif Require Import Base PromiseModel FlattenModel FlattenSpec FlattenProofs.

Section FlattenProofs2.
  Context {T : Type}.
  Notation val := (fvalue T).
  Notation res := (presult (fvalue T)).
  Implicit Types (w : fworld T) (r : res) (c : cell T).

  Lemma remove_nth_split {X} (i : nat) (l : list X) x rest :
    remove_nth i l = Some (x, rest) -> exists l1 l2, l = l1 ++ x :: l2 /\ rest = l1 ++ l2.
  Proof.
    revert i rest. induction l as [|y l IH]; intros i rest H; [destruct i; discriminate|]. destruct i as [|i]; cbn in H.
    - injection H as <- <-. exists [], l. auto.
    - destruct (remove_nth i l) as [[z q]|] eqn:E; [|discriminate]. injection H as <- <-.
      destruct (IH _ _ E) as (l1 & l2 & -> & ->). exists (y :: l1), l2. auto.
  Qed.

  (** A list of results in flight as a function. *)
  Definition flies (F : nat -> option res) (fl : list (nat * res)) : Prop :=
    NoDup (map fst fl) /\ forall k r, F k = Some r <-> In (k, r) fl.

  Lemma flies_none F fl k : flies F fl -> F k = None -> ~ In k (map fst fl).
  Proof.
    intros [_ H] E Hi. apply in_map_iff in Hi as ([k' r] & E' & Hi). cbn in E'. subst k'. apply H in Hi. congruence.
  Qed.

  Lemma flies_add F fl k r : flies F fl -> F k = None -> flies (upd F k (Some r)) (fl ++ [(k, r)]).
  Proof.
    intros H E. pose proof (flies_none _ _ _ H E) as N. destruct H as [H1 H2]. split.
    - rewrite map_app. apply NoDup_app_comm_snoc; assumption.
    - intros x q. rewrite in_app_iff. cbn. unfold upd. destruct (Nat.eqb_spec x k) as [->|NX].
      + split; [intros [= ->]; auto|]. intros [Hi|[[= ->]|[]]]; [|reflexivity]. apply H2 in Hi. congruence.
      + rewrite H2. split; [auto|]. intros [Hi|[[= -> _]|[]]]; [assumption|contradiction].
  Qed.

  Lemma flies_remove F l1 k r l2 : flies F (l1 ++ (k, r) :: l2) -> flies (upd F k None) (l1 ++ l2) /\ F k = Some r.
  Proof.
    intros [H1 H2]. rewrite map_app in H1. cbn in H1. pose proof (NoDup_remove_2 _ _ _ H1) as N.
    apply NoDup_remove_1 in H1. rewrite <- map_app in *. split; [split; [assumption|]|].
    - intros x q. unfold upd. destruct (Nat.eqb_spec x k) as [->|NX].
      + split; [discriminate|]. intros Hi. exfalso. apply N. apply in_map_iff. exists (k, q). auto.
      + rewrite H2, !in_app_iff. cbn. split; [intros [?|[[= <- _]|?]]; auto; contradiction|tauto].
    - apply H2. apply in_or_app. cbn. auto.
  Qed.

  Lemma flies_ext F F' fl : (forall x, F x = F' x) -> flies F fl -> flies F' fl.
  Proof. intros E [H1 H2]. split; [assumption|]. intros k r. rewrite <- E. apply H2. Qed.

  Definition shape w (V : nat -> pstate val) (A : nat -> option arrival) (O U : nat -> bool) (F : nat -> option res) : Prop :=
    (forall k, view (f_cell w k) = V k) /\ (forall k, c_arrival (f_cell w k) = A k) /\
    (forall k, c_open (f_cell w k) = O k) /\ (forall k, c_owned (f_cell w k) = U k) /\ flies F (f_flight w).

  Definition good w : Prop :=
    exists V A O U F G S, shape w V A O U F /\ Inv (f_next w) V A O U F (f_log w) G S.

  Lemma good_empty : good (@empty T).
  Proof.
    exists (fun _ => Pending), (fun _ => None), (fun _ => false), (fun _ => false), (fun _ => None), (fun _ => None), (fun _ => false).
    split; [|apply inv_empty]. repeat split; try reflexivity; try discriminate; [constructor|intros []].
  Qed.

  Ltac cells := unfold put, upd; repeat match goal with |- context [Nat.eqb ?a ?b] => destruct (Nat.eqb_spec a b) end; try subst.

  Lemma good_new w : good w -> good (add_cell w (new_cell true)).
  Proof.
    intros (V & A & O & U & F & G & S & (H1 & H2 & H3 & H4 & H5) & H).
    exists V, A, (upd O (f_next w) true), (upd U (f_next w) true), F, G, S.
    destruct (i_fresh _ _ _ _ _ _ _ _ _ H _ (le_n _)) as (E1 & E2 & _).
    split; [|apply inv_new, H]. split; [|split; [|split; [|split]]]; cbn; [intros k; cells; auto ..|exact H5].
  Qed.

  Lemma good_send w k r : c_open (f_cell w k) = true -> clean (f_log (fsend k r w)) -> good w -> good (fsend k r w).
  Proof.
    intros HO C (V & A & O & U & F & G & S & (H1 & H2 & H3 & H4 & H5) & H).
    assert (OK : O k = true) by (rewrite <- H3; assumption).
    assert (FK : F k = None).
    { destruct (i_open _ _ _ _ _ _ _ _ _ H k OK) as [E _]. apply (view_pending _ _ _ _ _ _ _ _ _ H k E). }
    assert (GOAL : forall w1, (forall j, r = RAvailable (Nest j) -> U j = true /\ V j <> Taken) ->
       (forall x, view (f_cell w1 x) = V x) -> (forall x, c_arrival (f_cell w1 x) = A x) ->
       (forall x, c_open (f_cell w1 x) = O x) -> (forall x, c_owned (f_cell w1 x) = give r U x) ->
       f_next w1 = f_next w -> f_flight w1 = f_flight w -> f_log w1 = f_log w ->
       good (set_flight (fsay (set_cell w1 k (with_open (f_cell w1 k) false)) (FSent k r)) (f_flight w1 ++ [(k, r)]))).
    { intros w1 HJ V1 A1 O1 U1 N1 F1 L1.
      exists V, A, (upd O k false), (give r U), (upd F k (Some r)), (upd G k (Some r)), S. split.
      - split; [|split; [|split; [|split]]]; cbn.
        + intros x. cells; [rewrite view_open|]; auto.
        + intros x. cells; cbn; auto.
        + intros x. cells; cbn; auto.
        + intros x. unfold put. destruct (Nat.eqb_spec x k); [subst; cbn|]; auto.
        + rewrite F1. apply flies_add; assumption.
      - cbn. rewrite N1, L1. apply inv_send; assumption. }
    unfold fsend in *. destruct r as [[v|j]|c|].
    - apply (GOAL w); auto; discriminate.
    - destruct (c_owned (f_cell w j)) eqn:EO; [|exists V, A, O, U, F, G, S; split; [exact (conj H1 (conj H2 (conj H3 (conj H4 H5))))|exact H]].
      assert (UJ : U j = true) by (rewrite <- H4; assumption).
      apply (GOAL (set_cell w j (with_owned (f_cell w j) false))); cbn; auto.
      + intros j' [= <-]. split; [assumption|]. intros E. pose proof (i_taken _ _ _ _ _ _ _ _ _ H j UJ E) as W.
        cbn in C. apply (clean_last _ _ j) in C; [exact (C W)|reflexivity].
      + intros x. cells; [rewrite view_owned|]; auto.
      + intros x. cells; cbn; auto.
      + intros x. cells; cbn; auto.
      + intros x. cells; cbn; auto.
    - apply (GOAL w); auto; discriminate.
    - apply (GOAL w); auto; discriminate.
  Qed.

  Lemma good_log w e : (forall k r, e <> FSent k r) -> (forall k f, e <> FFlattened k f) -> good w -> good (fsay w e).
  Proof.
    intros N1 N2 (V & A & O & U & F & G & S & (H1 & H2 & H3 & H4 & H5) & H).
    exists V, A, O, U, F, G, S. split; [exact (conj H1 (conj H2 (conj H3 (conj H4 H5))))|]. cbn. apply inv_log; auto.
  Qed.

  Lemma good_peek w k : good w -> good (fpeek k w).
  Proof.
    intros H. unfold fpeek. apply good_log; [discriminate|discriminate|].
    destruct H as (V & A & O & U & F & G & S & (H1 & H2 & H3 & H4 & H5) & H).
    exists V, A, O, U, F, G, S. split; [|exact H]. destruct (update_rest (f_cell w k)) as (E1 & E2 & E3).
    split; [|split; [|split; [|split]]]; cbn; [intros x; cells; rewrite ?view_update, ?E1, ?E2, ?E3; auto ..|exact H5].
  Qed.

  Lemma good_take w k : c_owned (f_cell w k) = true -> good w -> good (ftake k w).
  Proof.
    intros HU (V & A & O & U & F & G & S & (H1 & H2 & H3 & H4 & H5) & H). unfold ftake.
    pose proof (take_fst (f_cell w k)) as E0. pose proof (view_take (f_cell w k)) as E1.
    pose proof (take_rest (f_cell w k)) as (E2 & E3 & E4). destruct (cell_take (f_cell w k)) as [s c]. cbn [fst snd] in *.
    rewrite H1 in *. subst s.
    exists (upd V k (taken (V k))), A, O, (get (V k) U), F, G, S.
    assert (UK : U k = true) by (rewrite <- H4; exact HU).
    split.
    - set (w1 := fsay (set_cell w k c) (FTook k (V k))).
      assert (S1 : shape w1 (upd V k (taken (V k))) A O U F).
      { split; [|split; [|split; [|split]]]; cbn; [intros x; cells; auto; congruence ..|exact H5]. }
      clearbody w1. destruct S1 as (S1 & S2 & S3 & S4 & S5). unfold receive, get.
      destruct (V k) as [[v|j]| | | |]; try exact (conj S1 (conj S2 (conj S3 (conj S4 S5)))).
      split; [|split; [|split; [|split]]]; cbn; try exact S5.
      + intros x. unfold put. destruct (Nat.eqb_spec x j) as [->|]; [rewrite view_owned|]; apply S1.
      + intros x. unfold put. destruct (Nat.eqb_spec x j) as [->|]; apply S2.
      + intros x. unfold put. destruct (Nat.eqb_spec x j) as [->|]; apply S3.
      + intros x. unfold put, upd. destruct (Nat.eqb_spec x j) as [->|]; [reflexivity|apply S4].
    - apply (inv_take _ _ _ _ _ _ _ _ _ k UK) in H. unfold receive. destruct (V k) as [[v|j]| | | |]; exact H.
  Qed.

  (** One call of [set]. *)
  Lemma good_deliver w k r rest l1 l2 :
    f_flight w = l1 ++ (k, r) :: l2 -> rest = l1 ++ l2 -> good w -> good (deliver k r (set_flight w rest)).
  Proof.
    intros EF ER (V & A & O & U & F & G & S & (H1 & H2 & H3 & H4 & H5) & H). rewrite EF in H5.
    apply flies_remove in H5 as [H5 FK]. rewrite <- ER in H5. clear EF ER l1 l2.
    destruct (i_flight _ _ _ _ _ _ _ _ _ H k r FK) as (GK & VK & SK).
    unfold deliver. cbn [f_cell set_flight]. rewrite H2. destruct (A k) as [a|] eqn:AK.
    2:{ exists (upd V k (shown r)), A, O, U, (upd F k None), G, S. split; [|apply inv_store; assumption].
        split; [|split; [|split; [|split]]]; cbn; try exact H5;
          intros x; unfold put, upd; destruct (Nat.eqb_spec x k) as [->|NX]; cbn; auto.
        apply view_store. rewrite H1. exact VK. }
    destruct (i_arr _ _ _ _ _ _ _ _ _ H k a AK) as (_ & _ & HA).
    (* the common part of all the cases which pass a result on *)
    assert (PASS : forall f q w1 V', leads (A k) f -> G f = None -> yields (f_log w) f q ->
      (exists k0 r0, In (FFlattened k0 f) (f_log w) /\ G k0 = Some r0 /\
         match r0 with
         | RAvailable (Nest j) => G j = Some q
         | RAvailable (Leaf _) => False
         | RCancelled c => q = RCancelled c
         | RDisposed => q = RDisposed end) ->
      ((V' = V /\ forall x, q = RAvailable (Nest x) -> r = q) \/
       (exists j, r = RAvailable (Nest j) /\ V j = shown q /\ V' = upd V j (taken (V j)))) ->
      (forall x, view (f_cell w1 x) = V' x) -> (forall x, c_arrival (f_cell w1 x) = upd A k None x) ->
      (forall x, c_open (f_cell w1 x) = O x) -> (forall x, c_owned (f_cell w1 x) = U x) ->
      f_next w1 = f_next w -> f_log w1 = f_log w ->
      good (set_flight w1 (rest ++ [(f, q)]))).
    { intros f q w1 V' P1 P2 P3 P4 P5 Q1 Q2 Q3 Q4 Q5 Q6.
      exists V', (upd A k None), O, U, (upd (upd F k None) f (Some q)), (upd G f (Some q)), (upd S k true). split.
      - split; [exact Q1|]. split; [exact Q2|]. split; [exact Q3|]. split; [exact Q4|]. cbn. apply flies_add; [exact H5|].
        unfold upd. destruct (Nat.eqb_spec f k); [reflexivity|]. apply (view_pending _ _ _ _ _ _ _ _ _ H f P2).
      - cbn. rewrite Q5, Q6. eapply inv_fire; eassumption. }
    assert (BASE : forall x, view (put (f_cell w) k (with_arrival (f_cell w k) None) x) = V x /\
              c_arrival (put (f_cell w) k (with_arrival (f_cell w k) None) x) = upd A k None x /\
              c_open (put (f_cell w) k (with_arrival (f_cell w k) None) x) = O x /\
              c_owned (put (f_cell w) k (with_arrival (f_cell w k) None) x) = U x).
    { intros x. unfold put, upd. destruct (Nat.eqb_spec x k) as [->|NX]; cbn; rewrite ?view_arrival; auto. }
    destruct a as [f|f].
    - destruct HA as (k0 & B1 & B2 & B3 & B4).
      apply (PASS f r (set_cell (set_flight w rest) k (with_arrival (f_cell w k) None)) V); cbn; try (intros x; apply BASE); auto.
      + left. exact AK.
      + eapply yields_inner; [exact B1|apply (i_sound _ _ _ _ _ _ _ _ _ H), B2|apply (i_sound _ _ _ _ _ _ _ _ _ H), GK].
      + exists k0, (RAvailable (Nest k)). auto.
    - destruct HA as (B1 & B2). assert (LD : leads (A k) f) by (right; exact AK).
      destruct r as [[v|j]|c|].
      + exists V, (upd A k None), O, U, (upd F k None), G, (upd S k true).
        split; [|eapply inv_unwrap_leaf; eassumption].
        split; [intros x; apply BASE|]. split; [intros x; apply BASE|]. split; [intros x; apply BASE|].
        split; [intros x; apply BASE|exact H5].
      + destruct (i_held _ _ _ _ _ _ _ _ _ H k j (or_intror FK)) as (AJ & SJ & NT).
        assert (JK : j <> k) by congruence.
        cbn [f_cell set_cell set_flight f_flight].
        replace (put (f_cell w) k (with_arrival (f_cell w k) None) j) with (f_cell w j)
          by (unfold put; destruct (Nat.eqb_spec j k); [contradiction|reflexivity]).
        pose proof (take_fst (f_cell w j)) as E0. pose proof (view_take (f_cell w j)) as E1.
        pose proof (take_rest (f_cell w j)) as (E2 & E3 & E4). destruct (cell_take (f_cell w j)) as [s c]. cbn [fst snd] in *.
        rewrite H1 in *. subst s.
        assert (PASSJ : forall q, V j = shown q ->
          good (set_flight (set_cell (set_cell (set_flight w rest) k (with_arrival (f_cell w k) None)) j c) (rest ++ [(f, q)]))).
        { intros q EQ.
          assert (GJ : G j = Some q).
          { pose proof (i_view _ _ _ _ _ _ _ _ _ H j) as W. rewrite EQ in W. destruct q; exact W. }
          apply (PASS f q _ (upd V j (taken (V j)))); auto.
          - eapply yields_inner; [exact B1|apply (i_sound _ _ _ _ _ _ _ _ _ H), GK|apply (i_sound _ _ _ _ _ _ _ _ _ H), GJ].
          - exists k, (RAvailable (Nest j)). auto.
          - right. exists j. auto.
          - intros x. cbn. unfold put at 1, upd. destruct (Nat.eqb_spec x j) as [->|NX]; [exact E1|apply BASE].
          - intros x. cbn. unfold put at 1. destruct (Nat.eqb_spec x j) as [->|NX]; [|apply BASE].
            rewrite E2, H2. unfold upd. destruct (Nat.eqb_spec j k); [contradiction|reflexivity].
          - intros x. cbn. unfold put at 1. destruct (Nat.eqb_spec x j) as [->|NX]; [|apply BASE]. rewrite E3. apply H3.
          - intros x. cbn. unfold put at 1. destruct (Nat.eqb_spec x j) as [->|NX]; [|apply BASE]. rewrite E4. apply H4. }
        destruct (V j) as [v| |e| |] eqn:VJ.
        all: first [ apply (PASSJ (RAvailable v)); reflexivity | apply (PASSJ (RCancelled e)); reflexivity
                   | apply (PASSJ RDisposed); reflexivity | congruence | idtac ].
        exists V, (upd (upd A k None) j (Some (Forward f))), O, U, (upd F k None), G, (upd S k true).
        split; [|eapply inv_unwrap; eassumption].
        split; [|split; [|split; [|split; [|exact H5]]]]; intros x; cbn; unfold put at 1; destruct (Nat.eqb_spec x j) as [->|NX].
        * rewrite view_arrival, E1, VJ. reflexivity.
        * apply BASE.
        * unfold upd at 1. rewrite Nat.eqb_refl. reflexivity.
        * unfold upd at 1. destruct (Nat.eqb_spec x j); [contradiction|apply BASE].
        * cbn. rewrite E3. apply H3.
        * apply BASE.
        * cbn. rewrite E4. apply H4.
        * apply BASE.
      + apply (PASS f (RCancelled c) (set_cell (set_flight w rest) k (with_arrival (f_cell w k) None)) V); cbn; try (intros x; apply BASE); auto.
        * eapply yields_cancelled; [exact B1|apply (i_sound _ _ _ _ _ _ _ _ _ H), GK].
        * exists k, (RCancelled c). auto.
      + apply (PASS f RDisposed (set_cell (set_flight w rest) k (with_arrival (f_cell w k) None)) V); cbn; try (intros x; apply BASE); auto.
        * eapply yields_disposed; [exact B1|apply (i_sound _ _ _ _ _ _ _ _ _ H), GK].
        * exists k, RDisposed. auto.
  Qed.

  (** The user flattens a promise. *)
  Lemma good_flatten w k : c_owned (f_cell w k) = true -> clean (f_log (flatten k w)) -> good w -> good (flatten k w).
  Proof.
    intros HU C (V & A & O & U & F & G & S & (H1 & H2 & H3 & H4 & H5) & H).
    assert (UK : U k = true) by (rewrite <- H4; exact HU).
    assert (LOG : f_log (flatten k w) = f_log w ++ [FFlattened k (f_next w)]).
    { unfold flatten. destruct (cell_take (f_cell (fsay w (FFlattened k (f_next w))) k)) as [s c].
      destruct s as [[v|j]| | | |]; try reflexivity.
      match goal with |- context [cell_take ?x] => destruct (cell_take x) as [s' c'] end. destruct s'; reflexivity. }
    rewrite LOG in C.
    assert (NT : V k <> Taken).
    { intros E. pose proof (i_taken _ _ _ _ _ _ _ _ _ H k UK E) as W. apply (clean_last _ _ k) in C; [exact (C W)|reflexivity]. }
    destruct (i_owned _ _ _ _ _ _ _ _ _ H k UK) as (AK & SK & NH).
    set (N := f_next w) in *.
    assert (KN : k < N).
    { destruct (Nat.lt_ge_cases k N) as [|GE]; [assumption|]. destruct (i_fresh _ _ _ _ _ _ _ _ _ H k GE) as (_ & _ & _ & E & _). congruence. }
    (* the end of every case *)
    assert (FIN : forall w1 cN V1 A1 oq,
      ((V k = Pending /\ V1 = V /\ A1 = upd A k (Some (Unwrap N)) /\ oq = None) \/
       (exists q, V k = shown q /\ (forall v, q <> RAvailable v) /\ V1 = V /\ A1 = A /\ oq = Some q) \/
       (exists j, V k = Available (Nest j) /\ V j = Pending /\ V1 = upd V k Taken /\ A1 = upd A j (Some (Forward N)) /\ oq = None) \/
       (exists j q, V k = Available (Nest j) /\ V j = shown q /\ V1 = upd (upd V k Taken) j (taken (V j)) /\ A1 = A /\ oq = Some q) \/
       (exists v, V k = Available (Leaf v) /\ V1 = upd V k Taken /\ A1 = A /\ oq = None)) ->
      (forall x, x <> N -> view (f_cell w1 x) = V1 x) -> (forall x, x <> N -> c_arrival (f_cell w1 x) = A1 x) ->
      (forall x, x <> N -> c_open (f_cell w1 x) = O x) -> (forall x, x <> N -> c_owned (f_cell w1 x) = upd U k false x) ->
      view cN = shown_opt oq -> c_arrival cN = None -> c_open cN = false -> c_owned cN = true -> A1 N = None ->
      f_next w1 = N -> f_flight w1 = f_flight w -> f_log w1 = f_log w ++ [FFlattened k N] -> good (add_cell w1 cN)).
    { intros w1 cN V1 A1 oq D Q1 Q2 Q3 Q4 P1 P2 P3 P4 AN Q5 Q6 Q7.
      exists (upd V1 N (shown_opt oq)), A1, O, (upd (upd U k false) N true), F, (upd G N oq), S. split.
      - destruct (i_fresh _ _ _ _ _ _ _ _ _ H N (le_n N)) as (_ & _ & ON & _).
        split; [|split; [|split; [|split]]]; cbn; rewrite ?Q5; try (rewrite Q6; exact H5);
          intros x; unfold put; try unfold upd at 1; destruct (Nat.eqb_spec x N) as [->|NX]; auto; try congruence.
      - cbn. rewrite Q5, Q7. apply inv_flatten with (V := V) (A := A); assumption. }
    destruct (i_fresh _ _ _ _ _ _ _ _ _ H N (le_n N)) as (VN & AN & _).
    unfold flatten. fold N. cbn [f_cell fsay].
    pose proof (take_fst (f_cell w k)) as E0. pose proof (view_take (f_cell w k)) as E1.
    pose proof (take_rest (f_cell w k)) as (E2 & E3 & E4). destruct (cell_take (f_cell w k)) as [s c]. cbn [fst snd] in *.
    rewrite H1 in *. subst s.
    assert (BASE : forall x, view (put (f_cell w) k (with_owned c false) x) = upd V k (taken (V k)) x /\
              c_arrival (put (f_cell w) k (with_owned c false) x) = A x /\
              c_open (put (f_cell w) k (with_owned c false) x) = O x /\
              c_owned (put (f_cell w) k (with_owned c false) x) = upd U k false x).
    { intros x. unfold put, upd. destruct (Nat.eqb_spec x k) as [->|NX]; cbn; rewrite ?view_owned; repeat split; auto; congruence. }
    assert (SAME : taken (V k) = V k -> forall x, upd V k (taken (V k)) x = V x).
    { intros E x. unfold upd. destruct (Nat.eqb_spec x k) as [->|]; auto. }
    destruct (V k) as [[v|j]| |e| |] eqn:VK; try congruence.
    - apply (FIN _ _ (upd V k Taken) A None); cbn; try reflexivity; try (intros x _; apply BASE); [|exact AN].
      do 4 right. exists v. auto.
    - assert (JK : j <> k) by (intros ->; apply (NH k); auto).
      assert (JN : j < N) by (apply (i_held_lt _ _ _ _ _ _ _ _ _ H k); auto).
      destruct (i_held _ _ _ _ _ _ _ _ _ H k j (or_introl VK)) as (AJ & SJ & NTJ).
      cbn [f_cell set_cell fsay].
      replace (put (f_cell w) k (with_owned c false) j) with (f_cell w j)
        by (unfold put; destruct (Nat.eqb_spec j k); [contradiction|reflexivity]).
      pose proof (take_fst (f_cell w j)) as D0. pose proof (view_take (f_cell w j)) as D1.
      pose proof (take_rest (f_cell w j)) as (D2 & D3 & D4). destruct (cell_take (f_cell w j)) as [s' c']. cbn [fst snd] in *.
      rewrite H1 in *. subst s'.
      assert (RES : forall q, V j = shown q ->
        good (add_cell (set_cell (set_cell (fsay w (FFlattened k N)) k (with_owned c false)) j c') (resolved_cell (shown q)))).
      { intros q EQ. apply (FIN _ _ (upd (upd V k Taken) j (taken (V j))) A (Some q)); cbn; try reflexivity.
        - do 3 right. left. exists j, q. auto.
        - intros x _. unfold put at 1. unfold upd at 1. destruct (Nat.eqb_spec x j) as [->|]; [exact D1|apply BASE].
        - intros x _. unfold put at 1. destruct (Nat.eqb_spec x j) as [->|]; [rewrite D2; apply H2|apply BASE].
        - intros x _. unfold put at 1. destruct (Nat.eqb_spec x j) as [->|]; [rewrite D3; apply H3|apply BASE].
        - intros x _. unfold put at 1. destruct (Nat.eqb_spec x j) as [->|]; [|apply BASE]. rewrite D4, H4.
          unfold upd. destruct (Nat.eqb_spec j k); [contradiction|reflexivity].
        - destruct q; reflexivity.
        - exact AN. }
      destruct (V j) as [v| |e| |] eqn:VJ.
      + apply (RES (RAvailable v)). reflexivity.
      + apply (FIN _ _ (upd V k Taken) (upd A j (Some (Forward N))) None); cbn; try reflexivity.
        * do 2 right. left. exists j. auto.
        * intros x _. unfold put at 1. destruct (Nat.eqb_spec x j) as [->|]; [|apply BASE]. rewrite view_arrival, D1.
          unfold upd. destruct (Nat.eqb_spec j k); [contradiction|]. rewrite VJ. reflexivity.
        * intros x _. unfold put at 1. unfold upd at 1. destruct (Nat.eqb_spec x j) as [->|]; [reflexivity|apply BASE].
        * intros x _. unfold put at 1. destruct (Nat.eqb_spec x j) as [->|]; [cbn; rewrite D3; apply H3|apply BASE].
        * intros x _. unfold put at 1. destruct (Nat.eqb_spec x j) as [->|]; [|apply BASE]. cbn. rewrite D4, H4.
          unfold upd. destruct (Nat.eqb_spec j k); [contradiction|reflexivity].
        * unfold upd. destruct (Nat.eqb_spec N j); [lia|exact AN].
      + apply (RES (RCancelled e)). reflexivity.
      + apply (RES RDisposed). reflexivity.
      + congruence.
    - apply (FIN _ _ V (upd A k (Some (Unwrap N))) None); cbn; try reflexivity.
      + left. auto.
      + intros x _. unfold put at 1. destruct (Nat.eqb_spec x k) as [->|].
        * rewrite view_arrival. destruct (BASE k) as (-> & _). apply SAME. reflexivity.
        * destruct (BASE x) as (-> & _). apply SAME. reflexivity.
      + intros x _. unfold put at 1. unfold upd at 1. destruct (Nat.eqb_spec x k) as [->|]; [reflexivity|apply BASE].
      + intros x _. unfold put at 1. destruct (Nat.eqb_spec x k) as [->|]; apply BASE.
      + intros x _. unfold put at 1. destruct (Nat.eqb_spec x k) as [->|]; apply BASE.
      + unfold upd. destruct (Nat.eqb_spec N k); [lia|exact AN].
    - apply (FIN _ _ V A (Some (RCancelled e))); cbn; try reflexivity; try (intros x _; apply BASE); [| |exact AN].
      + right. left. exists (RCancelled e). split; [auto|]. split; [discriminate|auto].
      + intros x _. destruct (BASE x) as (-> & _). apply SAME. reflexivity.
    - apply (FIN _ _ V A (Some RDisposed)); cbn; try reflexivity; try (intros x _; apply BASE); [| |exact AN].
      + right. left. exists RDisposed. split; [auto|]. split; [discriminate|auto].
      + intros x _. destruct (BASE x) as (-> & _). apply SAME. reflexivity.
  Qed.

  Lemma good_step w a : clean (f_log (fstep w a)) -> good w -> good (fstep w a).
  Proof.
    intros C H. destruct a as [|k r|k|k|k|i]; cbn in *.
    - apply good_new, H.
    - destruct (c_open (f_cell w k)) eqn:E; [apply good_send|]; assumption.
    - destruct (c_owned (f_cell w k)) eqn:E; [apply good_flatten|]; assumption.
    - destruct (c_owned (f_cell w k)) eqn:E; [apply good_peek|]; assumption.
    - destruct (c_owned (f_cell w k)) eqn:E; [apply good_take|]; assumption.
    - destruct (remove_nth i (f_flight w)) as [[[k r] rest]|] eqn:E; [|assumption].
      apply remove_nth_split in E as (l1 & l2 & E1 & E2). eapply good_deliver; eassumption.
  Qed.

  (** ** Runs *)
  Lemma deliver_log k r w : f_log (deliver k r w) = f_log w /\ f_next (deliver k r w) = f_next w.
  Proof.
    unfold deliver. destruct (c_arrival (f_cell w k)) as [[f|f]|]; try (split; reflexivity).
    destruct r as [[v|j]|c|]; try (split; reflexivity).
    match goal with |- context [cell_take ?x] => destruct (cell_take x) as [s' c'] end. destruct s'; split; reflexivity.
  Qed.

  (** What one step adds to the log. *)
  Lemma step_log w a : f_log (fstep w a) = f_log w \/
    exists e, f_log (fstep w a) = f_log w ++ [e] /\
      match e with
      | FSaw k s | FTook k s => c_owned (f_cell w k) = true /\ s = view (f_cell w k)
      | _ => True end.
  Proof.
    destruct a as [|k r|k|k|k|i]; cbn [fstep]; auto.
    - destruct (c_open (f_cell w k)); [|auto]. unfold fsend. destruct r as [[v|j]|c|]; try (right; eexists; split; [reflexivity|exact I]).
      destruct (c_owned (f_cell w j)); [right; eexists; split; [reflexivity|exact I]|auto].
    - destruct (c_owned (f_cell w k)); [|auto]. right. exists (FFlattened k (f_next w)). split; [|exact I].
      unfold flatten. destruct (cell_take (f_cell (fsay w (FFlattened k (f_next w))) k)) as [s c].
      destruct s as [[v|j]| | | |]; try reflexivity.
      match goal with |- context [cell_take ?x] => destruct (cell_take x) as [s' c'] end. destruct s'; reflexivity.
    - destruct (c_owned (f_cell w k)) eqn:E; [|auto]. right. eexists. split; [reflexivity|]. cbn. auto.
    - destruct (c_owned (f_cell w k)) eqn:E; [|auto]. right. exists (FTook k (view (f_cell w k))). split; [|auto].
      unfold ftake. rewrite <- (take_fst (f_cell w k)). destruct (cell_take (f_cell w k)) as [s c]. cbn.
      destruct s as [[v|j]| | | |]; reflexivity.
    - destruct (remove_nth i (f_flight w)) as [[[k r] rest]|]; [|auto]. left. apply (deliver_log k r (set_flight w rest)).
  Qed.

  Lemma run_snoc (acts : list (faction T)) a : frun (acts ++ [a]) = fstep (frun acts) a.
  Proof. unfold frun. rewrite fold_left_app. reflexivity. Qed.

  Lemma clean_step w a : clean (f_log (fstep w a)) -> clean (f_log w).
  Proof. destruct (step_log w a) as [->|(e & -> & _)]; [auto|apply clean_prefix]. Qed.

  Lemma good_run (acts : list (faction T)) : clean (f_log (frun acts)) -> good (frun acts).
  Proof.
    induction acts as [|a acts IH] using rev_ind; intros C; [apply good_empty|]. rewrite run_snoc in *.
    apply good_step; [assumption|]. apply IH. eapply clean_step, C.
  Qed.

  (** What the user holds shows nothing but the outcome of the specification. *)
  Lemma good_sound w k : good w -> view (f_cell w k) <> Pending -> view (f_cell w k) <> Taken ->
    exists r, yields (f_log w) k r /\ view (f_cell w k) = shown r.
  Proof.
    intros (V & A & O & U & F & G & S & (H1 & _) & H) N1 N2. rewrite H1 in *.
    pose proof (i_view _ _ _ _ _ _ _ _ _ H k) as W. destruct (V k) as [v| |e| |]; try congruence.
    - exists (RAvailable v). split; [apply (i_sound _ _ _ _ _ _ _ _ _ H), W|reflexivity].
    - exists (RCancelled e). split; [apply (i_sound _ _ _ _ _ _ _ _ _ H), W|reflexivity].
    - exists RDisposed. split; [apply (i_sound _ _ _ _ _ _ _ _ _ H), W|reflexivity].
  Qed.

  Lemma run_sound (acts : list (faction T)) k s : clean (f_log (frun acts)) ->
    In (FSaw k s) (f_log (frun acts)) \/ In (FTook k s) (f_log (frun acts)) -> s <> Pending -> s <> Taken ->
    exists r, yields (f_log (frun acts)) k r /\ s = shown r.
  Proof.
    induction acts as [|a acts IH] using rev_ind; intros C Hi N1 N2; [cbn in Hi; tauto|]. rewrite run_snoc in *.
    pose proof (clean_step _ _ C) as C0. pose proof (good_run _ C0) as Gd.
    assert (MONO : (exists r, yields (f_log (frun acts)) k r /\ s = shown r) -> exists r, yields (f_log (fstep (frun acts) a)) k r /\ s = shown r).
    { intros (r & Y & E). exists r. split; [|exact E]. revert Y. apply yields_mono.
      destruct (step_log (frun acts) a) as [->|(e & -> & _)]; intros x Hx; [exact Hx|apply in_or_app; auto]. }
    destruct (step_log (frun acts) a) as [E|(e & E & P)]; rewrite E in Hi; [apply MONO; auto|].
    rewrite !in_app_iff in Hi. cbn in Hi. apply MONO.
    assert (D : (In (FSaw k s) (f_log (frun acts)) \/ In (FTook k s) (f_log (frun acts))) \/ e = FSaw k s \/ e = FTook k s) by tauto.
    destruct D as [D|D]; [apply IH; assumption|]. apply (good_sound _ k) in Gd.
    - destruct Gd as (r & Y & EV). exists r. split; [exact Y|]. destruct D as [-> | ->]; destruct P as [_ ->]; exact EV.
    - destruct D as [-> | ->]; destruct P as [_ <-]; exact N1.
    - destruct D as [-> | ->]; destruct P as [_ <-]; exact N2.
  Qed.

  (** With no call of [set] under way everything the specification says has arrived. *)
  Lemma good_complete w k : good w -> f_flight w = [] -> c_owned (f_cell w k) = true ->
    (forall r, yields (f_log w) k r -> view (f_cell w k) = shown r \/ was_taken (f_log w) k) /\
    (view (f_cell w k) = Pending -> forall r, ~ yields (f_log w) k r).
  Proof.
    intros (V & A & O & U & F & G & S & (H1 & _ & _ & H4 & H5) & H) EF EO.
    assert (FN : forall x, F x = None).
    { intros x. destruct (F x) as [r|] eqn:E; [|reflexivity]. apply H5 in E. rewrite EF in E. destruct E. }
    rewrite H1. assert (UK : U k = true) by (rewrite <- H4; exact EO).
    destruct (i_owned _ _ _ _ _ _ _ _ _ H k UK) as (_ & SK & _).
    assert (P : forall r, yields (f_log w) k r -> V k <> Pending /\ G k = Some r).
    { intros r Y. pose proof (inv_yields _ _ _ _ _ _ _ _ _ H k r Y FN) as GK. split; [|exact GK].
      destruct (i_done _ _ _ _ _ _ _ _ _ H k r GK) as [D|[D|D]]; [rewrite FN in D; discriminate|exact D|congruence]. }
    split.
    - intros r Y. destruct (P r Y) as [NP GK]. pose proof (i_view _ _ _ _ _ _ _ _ _ H k) as W.
      destruct (V k) as [v| |e| |] eqn:VK; try congruence; [left; rewrite GK in W; injection W as ->; reflexivity ..|].
      right. apply (i_taken _ _ _ _ _ _ _ _ _ H k UK VK).
    - intros E r Y. destruct (P r Y) as [NP _]. congruence.
  Qed.

  Lemma good_functional w k r r' : good w -> f_flight w = [] -> yields (f_log w) k r -> yields (f_log w) k r' -> r = r'.
  Proof.
    intros (V & A & O & U & F & G & S & (_ & _ & _ & _ & H5) & H) EF Y Y'.
    assert (FN : forall x, F x = None).
    { intros x. destruct (F x) as [q|] eqn:E; [|reflexivity]. apply H5 in E. rewrite EF in E. destruct E. }
    apply (inv_yields _ _ _ _ _ _ _ _ _ H) in Y; [|exact FN]. apply (inv_yields _ _ _ _ _ _ _ _ _ H) in Y'; [|exact FN]. congruence.
  Qed.

  (** ** Calls of [set] come to an end *)
  Fixpoint arrivals (m : nat -> cell T) (n : nat) : nat :=
    match n with
    | 0 => 0
    | S n => (match c_arrival (m n) with Some _ => 1 | None => 0 end) + arrivals m n
    end.

  Lemma arrivals_ext m m' n : (forall x, x < n -> c_arrival (m x) = c_arrival (m' x)) -> arrivals m n = arrivals m' n.
  Proof. induction n as [|n IH]; intros E; cbn; [reflexivity|]. rewrite E by lia. rewrite IH by (intros x Hx; apply E; lia). reflexivity. Qed.

  Lemma arrivals_clear m k c n : k < n -> c_arrival (m k) <> None -> c_arrival c = None -> S (arrivals (put m k c) n) = arrivals m n.
  Proof.
    induction n as [|n IH]; intros L E1 E2; [lia|]. cbn. unfold put at 1. destruct (Nat.eqb_spec n k) as [->|NX].
    - rewrite E2. rewrite (arrivals_ext (put m k c) m k); [destruct (c_arrival (m k)); [reflexivity|congruence]|].
      intros x Hx. unfold put. destruct (Nat.eqb_spec x k); [lia|reflexivity].
    - rewrite <- IH by (assumption || lia). lia.
  Qed.

  Lemma arrivals_put m k c n : arrivals (put m k c) n <= S (arrivals m n).
  Proof.
    induction n as [|n IH]; [cbn; lia|]. cbn. unfold put at 1. destruct (Nat.eqb_spec n k) as [->|NX].
    - rewrite (arrivals_ext (put m k c) m k); [destruct (c_arrival c), (c_arrival (m k)); lia|].
      intros x Hx. unfold put. destruct (Nat.eqb_spec x k); [lia|reflexivity].
    - destruct (c_arrival (m n)); lia.
  Qed.

  Lemma arrivals_same m k c n : c_arrival c = c_arrival (m k) -> arrivals (put m k c) n = arrivals m n.
  Proof. intros E. apply arrivals_ext. intros x _. unfold put. destruct (Nat.eqb_spec x k) as [->|]; auto. Qed.

  Definition burden w : nat := 2 * length (f_flight w) + arrivals (f_cell w) (f_next w).

  Lemma deliver_burden w k r : k < f_next w -> burden (deliver k r w) < 2 + burden w.
  Proof.
    intros L. unfold deliver, burden. destruct (c_arrival (f_cell w k)) as [a|] eqn:AK.
    2:{ cbn. rewrite arrivals_same by reflexivity. lia. }
    assert (C : S (arrivals (put (f_cell w) k (with_arrival (f_cell w k) None)) (f_next w)) = arrivals (f_cell w) (f_next w)).
    { apply arrivals_clear; [exact L|congruence|reflexivity]. }
    destruct a as [f|f].
    - cbn. rewrite app_length. cbn. lia.
    - destruct r as [[v|j]|c|]; cbn [f_flight set_flight set_cell f_cell f_next]; rewrite ?app_length; cbn [length]; [lia| |lia|lia].
      pose proof (take_rest (put (f_cell w) k (with_arrival (f_cell w k) None) j)) as (E2 & _).
      destruct (cell_take (put (f_cell w) k (with_arrival (f_cell w k) None) j)) as [s c]. cbn [snd] in E2.
      destruct s; cbn [f_flight set_flight set_cell f_cell f_next]; rewrite ?app_length; cbn [length].
      2:{ pose proof (arrivals_put (put (f_cell w) k (with_arrival (f_cell w k) None)) j (with_arrival c (Some (Forward f))) (f_next w)). lia. }
      all: rewrite arrivals_same by exact E2; lia.
  Qed.

  Lemma progress_idle (schedule : list nat) w : f_flight w = [] -> progress w schedule = w.
  Proof.
    intros E. unfold progress. induction schedule as [|i is IH]; [reflexivity|]. cbn [fold_left fstep]. rewrite E.
    destruct (i mod length (@nil (nat * res))); exact IH.
  Qed.

  Lemma good_progress (schedule : list nat) w : good w ->
    good (progress w schedule) /\ f_log (progress w schedule) = f_log w /\
    (burden w <= length schedule -> f_flight (progress w schedule) = []).
  Proof.
    revert w. induction schedule as [|i is IH]; intros w H; unfold progress; cbn [fold_left].
    - split; [exact H|]. split; [reflexivity|]. unfold burden. cbn. intros B. destruct (f_flight w); [reflexivity|cbn in B; lia].
    - fold (progress (fstep w (DoDeliver (i mod length (f_flight w)))) is). cbn [fstep].
      destruct (remove_nth (i mod length (f_flight w)) (f_flight w)) as [[[k r] rest]|] eqn:E.
      + apply remove_nth_split in E as (l1 & l2 & E1 & E2).
        pose proof (good_deliver w k r rest l1 l2 E1 E2 H) as H'.
        destruct (deliver_log k r (set_flight w rest)) as [L1 L2]. cbn in L1, L2.
        destruct (IH _ H') as (I1 & I2 & I3). split; [exact I1|]. split; [congruence|].
        intros B. apply I3. cbn in B.
        assert (KN : k < f_next (set_flight w rest)).
        { cbn. destruct H as (V & A & O & U & F & G & S & (_ & _ & _ & _ & H5) & H).
          destruct (Nat.lt_ge_cases k (f_next w)) as [|GE]; [assumption|].
          destruct (i_fresh _ _ _ _ _ _ _ _ _ H k GE) as (_ & _ & _ & _ & FK & _).
          assert (X : F k = Some r) by (apply H5; rewrite E1; apply in_or_app; cbn; auto). congruence. }
        pose proof (deliver_burden _ k r KN) as D. unfold burden in *. cbn [f_flight f_cell f_next set_flight] in *.
        rewrite E1, E2 in *. rewrite !app_length in *. cbn [length] in *. lia.
      + destruct (IH _ H) as (I1 & I2 & I3). split; [exact I1|]. split; [exact I2|]. intros _.
        assert (EF : f_flight w = []).
        { destruct (f_flight w) as [|x q] eqn:EQ; [reflexivity|]. exfalso.
          assert (LT : i mod length (x :: q) < length (x :: q)) by (apply Nat.mod_upper_bound; cbn; lia).
          revert E LT. generalize (i mod length (x :: q)) as n. generalize (x :: q) as l. clear.
          induction l as [|y l IH]; intros n E LT; [cbn in LT; lia|]. destruct n as [|n]; [discriminate|]. cbn in *.
          destruct (remove_nth n l) as [[a b]|] eqn:R; [discriminate|]. apply (IH n R). lia. }
        rewrite progress_idle; assumption.
  Qed.
End FlattenProofs2.
