(** Proofs about flattened promises. *)
From Verif Require Import Base PromiseModel FlattenModel FlattenSpec.

Section FlattenProofs.
  Context {T : Type}.
  Notation val := (fvalue T).
  Notation res := (presult (fvalue T)).
  Implicit Types (l : list (fevent T)) (w : fworld T) (r : res) (c : cell T).

  Lemma yields_mono l l' k r : incl l l' -> yields l k r -> yields l' k r.
  Proof.
    intros I H. induction H.
    - apply yields_sent, I, H.
    - eapply yields_inner; eauto.
    - eapply yields_cancelled; eauto.
    - eapply yields_disposed; eauto.
  Qed.

  Lemma clean_prefix l e : clean (l ++ [e]) -> clean l.
  Proof. intros H l1 k v l2 -> x Hx. apply (H l1 k v (l2 ++ [e])); [rewrite <- app_assoc; reflexivity|apply in_or_app; auto]. Qed.

  Lemma clean_last l e k : clean (l ++ [e]) -> gives e k -> ~ was_taken l k.
  Proof.
    intros H G (v & Hi). apply in_split in Hi as (l1 & l2 & ->).
    apply (H l1 k v (l2 ++ [e])) in G; [exact G|rewrite <- app_assoc; reflexivity|apply in_or_app; cbn; auto].
  Qed.

  (** ** What a look at a cell would show *)
  Definition view (c : cell T) : pstate val := c_state (cell_update c).

  Lemma view_update c : view (cell_update c) = view c.
  Proof.
    unfold view, cell_update. destruct (is_pending (c_state c)) eqn:P; cbn; [|rewrite P; reflexivity].
    destruct (c_state c); try discriminate. destruct (c_result c) as [[]|]; reflexivity.
  Qed.

  Definition taken (s : pstate val) : pstate val := match s with Available _ => Taken | _ => s end.

  Lemma take_fst c : fst (cell_take c) = view c.
  Proof. reflexivity. Qed.

  Lemma view_take c : view (snd (cell_take c)) = taken (view c).
  Proof.
    unfold view, cell_take, cell_update. destruct (c_state c) eqn:E; cbn; rewrite ?E; cbn; try reflexivity.
    destruct (c_result c) as [[]|]; reflexivity.
  Qed.

  Lemma view_arrival c a : view (with_arrival c a) = view c.
  Proof. unfold view, cell_update, with_arrival. cbn. destruct (is_pending (c_state c)); reflexivity. Qed.
  Lemma view_open c a : view (with_open c a) = view c.
  Proof. unfold view, cell_update, with_open. cbn. destruct (is_pending (c_state c)); reflexivity. Qed.
  Lemma view_owned c a : view (with_owned c a) = view c.
  Proof. unfold view, cell_update, with_owned. cbn. destruct (is_pending (c_state c)); reflexivity. Qed.

  Lemma update_rest c :
    c_arrival (cell_update c) = c_arrival c /\ c_open (cell_update c) = c_open c /\ c_owned (cell_update c) = c_owned c.
  Proof. unfold cell_update. destruct (is_pending (c_state c)); auto. Qed.

  Lemma take_rest c :
    c_arrival (snd (cell_take c)) = c_arrival c /\ c_open (snd (cell_take c)) = c_open c /\
    c_owned (snd (cell_take c)) = c_owned c.
  Proof. cbn. apply update_rest. Qed.

  (** A stored result shows if the view was pending. *)
  Lemma view_store c r : view c = Pending -> view (with_state c (c_state c) (Some r)) = shown r.
  Proof.
    unfold view, cell_update. destruct (c_state c) eqn:E; cbn; rewrite ?E; try discriminate.
    intros _. destruct r; reflexivity.
  Qed.

  (** ** The invariant, on the components of the world as functions
      [V]: views; [A]: closures; [O]: open senders; [U]: promises of the user; [F]: results in
      flight. [G] and [S] are ghosts: the outcome of each promise, and the promises whose
      closure has run. *)
  Definition upd {X} (m : nat -> X) (k : nat) (x : X) : nat -> X := fun y => if Nat.eqb y k then x else m y.

  Record Inv (N : nat) (V : nat -> pstate val) (A : nat -> option arrival) (O U : nat -> bool)
    (F : nat -> option res) l (G : nat -> option res) (S : nat -> bool) : Prop := {
    i_fresh : forall k, N <= k ->
      V k = Pending /\ A k = None /\ O k = false /\ U k = false /\ F k = None /\ G k = None /\ S k = false;
    i_held_lt : forall m k, V m = Available (Nest k) \/ F m = Some (RAvailable (Nest k)) -> k < N;
    i_flat_lt : forall k f, In (FFlattened k f) l -> k < N /\ f < N;
    i_sound : forall k r, G k = Some r -> yields l k r;
    i_sent : forall k r, In (FSent k r) l -> G k = Some r;
    i_open : forall k, O k = true -> G k = None /\ forall k', ~ In (FFlattened k' k) l;
    i_flight : forall k r, F k = Some r -> G k = Some r /\ V k = Pending /\ S k = false;
    i_view : forall k, match V k with
      | Pending => True
      | Available x => G k = Some (RAvailable x)
      | Cancelled c => G k = Some (RCancelled c)
      | Disposed => G k = Some RDisposed
      | Taken => exists x, G k = Some (RAvailable x) end;
    i_done : forall k r, G k = Some r -> F k = Some r \/ V k <> Pending \/ S k = true;
    i_spent : forall k, S k = true -> G k <> None /\ A k = None /\ V k = Pending;
    i_owned : forall k, U k = true -> A k = None /\ S k = false /\
      forall m, ~ (V m = Available (Nest k) \/ F m = Some (RAvailable (Nest k)));
    i_held : forall m k, V m = Available (Nest k) \/ F m = Some (RAvailable (Nest k)) ->
      A k = None /\ S k = false /\ V k <> Taken;
    i_uniq : forall m m' k,
      V m = Available (Nest k) \/ F m = Some (RAvailable (Nest k)) ->
      V m' = Available (Nest k) \/ F m' = Some (RAvailable (Nest k)) -> m = m';
    i_arr : forall k a, A k = Some a -> V k = Pending /\ S k = false /\
      match a with
      | Unwrap f => In (FFlattened k f) l /\ G f = None
      | Forward f => exists k0, In (FFlattened k0 f) l /\ G k0 = Some (RAvailable (Nest k)) /\ A k0 = None /\ G f = None
      end;
    i_flat : forall k f, In (FFlattened k f) l ->
      A k = Some (Unwrap f) \/
      (exists j, G k = Some (RAvailable (Nest j)) /\ A j = Some (Forward f)) \/
      (exists r, G k = Some r /\ match r with
        | RAvailable (Nest j) => G j <> None /\ G f = G j
        | RAvailable (Leaf _) => True
        | RCancelled c => G f = Some (RCancelled c)
        | RDisposed => G f = Some RDisposed end);
    i_flat_fun : forall k k' f, In (FFlattened k f) l -> In (FFlattened k' f) l -> k = k';
    i_flat_gone : forall k f, In (FFlattened k f) l -> U k = false /\
      forall m, ~ (V m = Available (Nest k) \/ F m = Some (RAvailable (Nest k)));
    i_taken : forall k, U k = true -> V k = Taken -> was_taken l k }.

  Lemma inv_empty : Inv 0 (fun _ => Pending) (fun _ => None) (fun _ => false) (fun _ => false) (fun _ => None) []
    (fun _ => None) (fun _ => false).
  Proof. split; try discriminate; cbn; intuition (try discriminate; auto). Qed.

  (** The outcomes are those of the specification. *)
  Lemma inv_yields N V A O U F l G S : Inv N V A O U F l G S -> forall k r, yields l k r -> (forall k, F k = None) -> G k = Some r.
  Proof.
    intros H k r Y HF. induction Y as [k r Hi|k j f r Hi Y1 IH1 Y2 IH2|k f c Hi Y IH|k f Hi Y IH].
    - apply (i_sent _ _ _ _ _ _ _ _ _ H), Hi.
    - destruct (i_flat _ _ _ _ _ _ _ _ _ H k f Hi) as [E|[(j' & E1 & E2)|(r' & E1 & E2)]].
      + exfalso. destruct (i_arr _ _ _ _ _ _ _ _ _ H _ _ E) as (V1 & S1 & _).
        destruct (i_done _ _ _ _ _ _ _ _ _ H _ _ IH1) as [D|[D|D]]; congruence.
      + exfalso. rewrite IH1 in E1. injection E1 as <-.
        destruct (i_arr _ _ _ _ _ _ _ _ _ H _ _ E2) as (V1 & S1 & _).
        destruct (i_done _ _ _ _ _ _ _ _ _ H _ _ IH2) as [D|[D|D]]; congruence.
      + rewrite IH1 in E1. injection E1 as <-. destruct E2 as [_ ->]. exact IH2.
    - destruct (i_flat _ _ _ _ _ _ _ _ _ H k f Hi) as [E|[(j' & E1 & E2)|(r' & E1 & E2)]].
      + exfalso. destruct (i_arr _ _ _ _ _ _ _ _ _ H _ _ E) as (V1 & S1 & _).
        destruct (i_done _ _ _ _ _ _ _ _ _ H _ _ IH) as [D|[D|D]]; congruence.
      + congruence.
      + rewrite IH in E1. injection E1 as <-. exact E2.
    - destruct (i_flat _ _ _ _ _ _ _ _ _ H k f Hi) as [E|[(j' & E1 & E2)|(r' & E1 & E2)]].
      + exfalso. destruct (i_arr _ _ _ _ _ _ _ _ _ H _ _ E) as (V1 & S1 & _).
        destruct (i_done _ _ _ _ _ _ _ _ _ H _ _ IH) as [D|[D|D]]; congruence.
      + congruence.
      + rewrite IH in E1. injection E1 as <-. exact E2.
  Qed.

  Ltac ups := unfold upd in *; repeat match goal with
    | |- context [Nat.eqb ?a ?b] => destruct (Nat.eqb_spec a b)
    | H : context [Nat.eqb ?a ?b] |- _ => destruct (Nat.eqb_spec a b)
    end; try subst.

  (** Events which only observe. *)
  Lemma inv_log N V A O U F l G S e :
    (forall k s, e = FSaw k s \/ e = FTook k s -> True) ->
    (forall k r, e <> FSent k r) -> (forall k f, e <> FFlattened k f) ->
    Inv N V A O U F l G S -> Inv N V A O U F (l ++ [e]) G S.
  Proof.
    intros _ N1 N2 [].
    assert (IL : incl l (l ++ [e])) by (intros x Hx; apply in_or_app; auto).
    assert (FL : forall k f, In (FFlattened k f) (l ++ [e]) <-> In (FFlattened k f) l).
    { intros k f. rewrite in_app_iff. cbn. split; [intros [?|[E|[]]]; [assumption|destruct (N2 _ _ E)]|auto]. }
    assert (SL : forall k r, In (FSent k r) (l ++ [e]) <-> In (FSent k r) l).
    { intros k r. rewrite in_app_iff. cbn. split; [intros [?|[E|[]]]; [assumption|destruct (N1 _ _ E)]|auto]. }
    split; try assumption.
    - intros k f. rewrite FL. auto.
    - intros k r H. apply (yields_mono l); auto.
    - intros k r. rewrite SL. auto.
    - intros k H. destruct (i_open0 k H) as [? Q]. split; [assumption|]. intros k'. rewrite FL. apply Q.
    - intros k a H. destruct (i_arr0 k a H) as (? & ? & Q). split; [assumption|]. split; [assumption|].
      destruct a; [destruct Q as (k0 & Q); exists k0|]; rewrite FL; exact Q.
    - intros k f. rewrite FL. auto.
    - intros k k' f. rewrite !FL. eauto.
    - intros k f. rewrite FL. eauto.
    - intros k H1 H2. destruct (i_taken0 k H1 H2) as (v & Hv). exists v. auto.
  Qed.

  Lemma inv_new N V A O U F l G S :
    Inv N V A O U F l G S -> Inv (Datatypes.S N) V A (upd O N true) (upd U N true) F l G S.
  Proof.
    intros []. destruct (i_fresh0 N (le_n N)) as (F1 & F2 & F3 & F4 & F5 & F6 & F7).
    split; try assumption.
    - intros k Hk. assert (N <= k) by lia. destruct (i_fresh0 k H) as (?&?&?&?&?&?&?). ups; [lia|]. auto 10.
    - intros m k H. specialize (i_held_lt0 m k H). lia.
    - intros k f H. specialize (i_flat_lt0 k f H). lia.
    - intros k H. ups; [|auto]. split; [assumption|]. intros k' Hk. apply i_flat_lt0 in Hk. lia.
    - intros k H. ups; [|auto]. split; [assumption|]. split; [assumption|]. intros m Hm. apply i_held_lt0 in Hm. lia.
    - intros k f H. ups; [|eauto]. apply i_flat_lt0 in H. lia.
    - intros k H1 H2. ups; [congruence|auto].
  Qed.

  Lemma view_pending N V A O U F l G S : Inv N V A O U F l G S -> forall k, G k = None -> V k = Pending /\ F k = None /\ S k = false.
  Proof.
    intros [] k H. specialize (i_view0 k). split; [|split].
    - destruct (V k); try congruence. destruct i_view0. congruence.
    - destruct (F k) eqn:E; [|reflexivity]. destruct (i_flight0 _ _ E). congruence.
    - destruct (S k) eqn:E; [|reflexivity]. destruct (i_spent0 _ E). congruence.
  Qed.

  Definition give (r : res) (U : nat -> bool) : nat -> bool :=
    match r with RAvailable (Nest j) => upd U j false | _ => U end.

  Lemma inv_send N V A O U F l G S k r :
    O k = true -> (forall j, r = RAvailable (Nest j) -> U j = true /\ V j <> Taken) ->
    Inv N V A O U F l G S ->
    Inv N V A (upd O k false) (give r U) (upd F k (Some r)) (l ++ [FSent k r]) (upd G k (Some r)) S.
  Proof.
    intros HO HJ H. pose proof (view_pending _ _ _ _ _ _ _ _ _ H) as VP. destruct H.
    destruct (i_open0 k HO) as [GK NF]. destruct (VP k GK) as (VK & FK & SK).
    assert (IL : incl l (l ++ [FSent k r])) by (intros x Hx; apply in_or_app; auto).
    assert (FL : forall a b, In (FFlattened a b) (l ++ [FSent k r]) <-> In (FFlattened a b) l).
    { intros a b. rewrite in_app_iff. cbn. split; [intros [?|[E|[]]]; [assumption|discriminate]|auto]. }
    assert (UG : forall x, give r U x = true -> U x = true /\ r <> RAvailable (Nest x)).
    { intros x. unfold give. destruct r as [[v|j]| |]; try (intros Hx; split; [exact Hx|discriminate]).
      ups; [discriminate|]. intros Hx. split; [exact Hx|congruence]. }
    assert (KN : k < N).
    { destruct (Nat.lt_ge_cases k N) as [|HN]; [assumption|]. destruct (i_fresh0 k HN) as (_ & _ & ? & _). congruence. }
    assert (HN : forall m x, V m = Available (Nest x) \/ upd F k (Some r) m = Some (RAvailable (Nest x)) ->
                 (V m = Available (Nest x) \/ F m = Some (RAvailable (Nest x))) \/ m = k /\ r = RAvailable (Nest x)).
    { intros m x [Hx|Hx]; [auto|]. ups; [right; split; [reflexivity|congruence]|auto]. }
    split; try assumption.
    - intros x Hx. destruct (i_fresh0 x Hx) as (?&?&?&?&?&?&?).
      assert (give r U x = false).
      { destruct (give r U x) eqn:E; [|reflexivity]. apply UG in E as [E _]. congruence. }
      ups; [lia|]. auto 10.
    - intros m x Hx. destruct (HN m x Hx) as [Q|[_ Q]]; [eauto|].
      destruct (HJ x Q) as [HU _]. destruct (Nat.lt_ge_cases x N) as [|HN2]; [assumption|].
      destruct (i_fresh0 x HN2) as (_ & _ & _ & ? & _). congruence.
    - intros a b. rewrite FL. auto.
    - intros x q Hx. ups.
      + injection Hx as <-. apply yields_sent, in_or_app. cbn. auto.
      + apply (yields_mono l); auto.
    - intros x q Hx. apply in_app_or in Hx as [Hx|[Hx|[]]].
      + apply i_sent0 in Hx. ups; [congruence|assumption].
      + injection Hx as <- <-. ups; [reflexivity|congruence].
    - intros x Hx. ups; [discriminate|]. destruct (i_open0 x Hx) as [? Q]. split; [assumption|]. intros k'. rewrite FL. apply Q.
    - intros x q Hx. ups; [auto|]. auto.
    - intros x. specialize (i_view0 x). ups; [|assumption]. rewrite VK. exact I.
    - intros x q Hx. ups; [auto|]. auto.
    - intros x Hx. destruct (i_spent0 x Hx) as (? & ?). ups; [split; [discriminate|assumption]|auto].
    - intros x Hx. apply UG in Hx as [Hx Hr]. destruct (i_owned0 x Hx) as (? & ? & Q).
      split; [assumption|]. split; [assumption|]. intros m Hm. destruct (HN m x Hm) as [Hm'|[_ E]]; [exact (Q m Hm')|contradiction].
    - intros m x Hx. destruct (HN m x Hx) as [Q|[-> Q]]; [eauto|].
      destruct (HJ x Q) as [HU HT]. destruct (i_owned0 x HU) as (? & ? & _). auto.
    - intros m m' x Hx Hx'. destruct (HN m x Hx) as [Q|[-> Q]], (HN m' x Hx') as [Q'|[-> Q']]; eauto;
        exfalso; destruct (HJ x) as [HU _]; auto; destruct (i_owned0 x HU) as (_ & _ & Z); eapply Z; eauto.
    - intros x a Hx. destruct (i_arr0 x a Hx) as (? & ? & Q). split; [assumption|]. split; [assumption|].
      destruct a as [f|f].
      + destruct Q as (k0 & Q1 & Q2 & Q3 & Q4). exists k0. rewrite FL. split; [assumption|].
        assert (f <> k) by (intros ->; exact (NF _ Q1)). ups; try congruence. auto.
      + destruct Q as [Q1 Q2]. rewrite FL. assert (f <> k) by (intros ->; exact (NF _ Q1)). ups; try congruence. auto.
    - intros x f Hx. rewrite FL in Hx. assert (f <> k) by (intros ->; exact (NF _ Hx)).
      destruct (i_flat0 x f Hx) as [E|[(j & E1 & E2)|(q & E1 & E2)]]; [auto| |].
      + right. left. exists j. split; [|assumption]. ups; [congruence|assumption].
      + right. right. exists q. split; [ups; [congruence|assumption]|].
        destruct q as [[v|j]|c|]; [exact I| | |].
        * destruct E2 as [E2 E3]. ups; try congruence. auto.
        * ups; [congruence|assumption].
        * ups; [congruence|assumption].
    - intros a b f. rewrite !FL. eauto.
    - intros x f Hx. rewrite FL in Hx. destruct (i_flat_gone0 x f Hx) as [Q1 Q2]. split.
      + destruct (give r U x) eqn:E; [|reflexivity]. apply UG in E as [E _]. congruence.
      + intros m Hm. destruct (HN m x Hm) as [Hm'|[_ E]]; [exact (Q2 m Hm')|]. destruct (HJ x E). congruence.
    - intros x H1 H2. apply UG in H1 as [H1 _]. destruct (i_taken0 x H1 H2) as (v & Hv). exists v. auto.
  Qed.

  (** A result is stored. *)
  Lemma inv_store N V A O U F l G S k r :
    F k = Some r -> A k = None -> Inv N V A O U F l G S ->
    Inv N (upd V k (shown r)) A O U (upd F k None) l G S.
  Proof.
    intros HF HA []. destruct (i_flight0 k r HF) as (GK & VK & SK).
    assert (HN : forall m x, upd V k (shown r) m = Available (Nest x) \/ upd F k None m = Some (RAvailable (Nest x)) ->
                 V m = Available (Nest x) \/ F m = Some (RAvailable (Nest x))).
    { intros m x [Hx|Hx]; ups; auto; [|discriminate]. right. rewrite HF. destruct r; cbn in Hx; congruence. }
    assert (NP : shown r <> Pending /\ shown r <> Taken) by (destruct r; cbn; split; discriminate).
    split; try assumption.
    - intros x Hx. destruct (i_fresh0 x Hx) as (?&?&?&?&?&?&?). ups; [congruence|]. auto 10.
    - intros m x Hx. eauto.
    - intros x q Hx. ups; [discriminate|]. auto.
    - intros x. specialize (i_view0 x). ups; [|assumption]. destruct r; cbn; assumption.
    - intros x q Hx. ups; [tauto|]. auto.
    - intros x Hx. destruct (i_spent0 x Hx) as (? & ? & ?). ups; [congruence|auto].
    - intros x Hx. destruct (i_owned0 x Hx) as (? & ? & Q). split; [assumption|]. split; [assumption|].
      intros m Hm. apply (Q m), HN, Hm.
    - intros m x Hx. apply HN in Hx. destruct (i_held0 m x Hx) as (? & ? & ?). split; [assumption|]. split; [assumption|].
      ups; tauto.
    - intros m m' x Hx Hx'. eauto.
    - intros x a Hx. destruct (i_arr0 x a Hx) as (? & ? & Q). ups; [congruence|]. auto.
    - intros x f Hx. destruct (i_flat_gone0 x f Hx) as [Q1 Q2]. split; [assumption|]. intros m Hm. apply (Q2 m), HN, Hm.
    - intros x H1 H2. ups; [tauto|]. auto.
  Qed.

  (** Only one closure leads to a promise. *)
  Definition leads (a : option arrival) (f : nat) : Prop := a = Some (Forward f) \/ a = Some (Unwrap f).

  Lemma arr_unique N V A O U F l G S m k f : Inv N V A O U F l G S -> leads (A m) f -> leads (A k) f -> m = k.
  Proof.
    intros [] [M|M] [K|K]; pose proof (i_arr0 _ _ M) as (_ & _ & QM); pose proof (i_arr0 _ _ K) as (_ & _ & QK).
    - destruct QM as (a & A1 & A2 & A3 & A4), QK as (b & B1 & B2 & B3 & B4).
      assert (a = b) by eauto. congruence.
    - destruct QM as (a & A1 & A2 & A3 & A4), QK as [B1 B2]. assert (a = k) by eauto. congruence.
    - destruct QK as (a & A1 & A2 & A3 & A4), QM as [B1 B2]. assert (a = m) by eauto. congruence.
    - destruct QM as [A1 _], QK as [B1 _]. eauto.
  Qed.

  (** A closure runs and passes a result on. *)
  Lemma inv_fire N V A O U F l G S k r f q (V' : nat -> pstate val) :
    F k = Some r -> leads (A k) f -> G f = None -> yields l f q ->
    (exists k0 r0, In (FFlattened k0 f) l /\ G k0 = Some r0 /\
       match r0 with
       | RAvailable (Nest j) => G j = Some q
       | RAvailable (Leaf _) => False
       | RCancelled c => q = RCancelled c
       | RDisposed => q = RDisposed end) ->
    ((V' = V /\ forall x, q = RAvailable (Nest x) -> r = q) \/
     (exists j, r = RAvailable (Nest j) /\ V j = shown q /\ V' = upd V j (taken (V j)))) ->
    Inv N V A O U F l G S ->
    Inv N V' (upd A k None) O U (upd (upd F k None) f (Some q)) l (upd G f (Some q)) (upd S k true).
  Proof.
    intros HF HA GF YF (k0 & r0 & KF & GK0 & EQ) HV H.
    pose proof (fun m Hm => arr_unique _ _ _ _ _ _ _ _ _ m k f H Hm HA) as AU.
    pose proof (view_pending _ _ _ _ _ _ _ _ _ H f GF) as (VF & FF & SF). destruct H.
    destruct (i_flight0 k r HF) as (GK & VK & SK).
    assert (FK : f <> k) by congruence.
    assert (KN : k < N).
    { destruct (Nat.lt_ge_cases k N) as [|HN]; [assumption|]. destruct (i_fresh0 k HN) as (_ & _ & _ & _ & ? & _). congruence. }
    assert (FN : f < N) by (apply (i_flat_lt0 k0 f KF)).
    assert (AK : A k <> None) by (destruct HA as [E|E]; rewrite E; discriminate).
    (* the new views *)
    assert (VV : forall x, V' x = V x \/ (exists v, V x = Available v /\ q = RAvailable v /\ V' x = Taken /\ r = RAvailable (Nest x))).
    { intros x. destruct HV as [[-> _]|(j & Er & Ej & ->)]; [auto|]. ups; [|auto]. rewrite Ej. destruct q; cbn; eauto 8. }
    assert (VP : forall x, V' x = Pending <-> V x = Pending).
    { intros x. destruct (VV x) as [->|(v & E & _ & E' & _)]; [tauto|]. rewrite E, E'. split; discriminate. }
    (* who holds what *)
    assert (HN : forall m x, V' m = Available (Nest x) \/ upd (upd F k None) f (Some q) m = Some (RAvailable (Nest x)) ->
       (m <> f /\ m <> k /\ (V m = Available (Nest x) \/ F m = Some (RAvailable (Nest x)))) \/
       (m = f /\ q = RAvailable (Nest x))).
    { intros m x [Hx|Hx].
      - left. destruct (VV m) as [E|(v & _ & _ & E & _)]; [|congruence]. rewrite E in Hx.
        split; [congruence|]. split; [congruence|]. auto.
      - ups; try congruence; [right; split; congruence|left; auto]. }
    assert (HQ : forall x, q = RAvailable (Nest x) ->
       (r = q /\ V' = V) \/ exists j, j <> k /\ r = RAvailable (Nest j) /\ V j = Available (Nest x) /\ V' j = Taken).
    { intros x Hq. destruct HV as [[-> E]|(j & Er & Ej & ->)]; [left; split; [eapply E; eauto|reflexivity]|].
      right. exists j. rewrite Hq in Ej. cbn in Ej. split; [congruence|]. split; [assumption|]. split; [assumption|].
      ups; [|congruence]. rewrite Ej. reflexivity. }
    assert (OLD : forall m x, V' m = Available (Nest x) \/ upd (upd F k None) f (Some q) m = Some (RAvailable (Nest x)) ->
       exists h, V h = Available (Nest x) \/ F h = Some (RAvailable (Nest x))).
    { intros m x Hx. destruct (HN m x Hx) as [(_ & _ & Q)|[_ Q]]; [eauto|].
      destruct (HQ x Q) as [[E _]|(j & _ & _ & E & _)]; [exists k; right; congruence|eauto]. }
    split; try assumption.
    - intros x Hx. destruct (i_fresh0 x Hx) as (?&?&?&?&?&?&?). rewrite VP. ups; try lia. auto 10.
    - intros m x Hx. destruct (OLD m x Hx) as (h & Hh). eauto.
    - intros x p Hx. ups; [injection Hx as <-; assumption|auto].
    - intros x p Hx. apply i_sent0 in Hx. ups; [congruence|assumption].
    - intros x Hx. destruct (i_open0 x Hx) as [? Q]. split; [|assumption]. ups; [|assumption]. destruct (Q _ KF).
    - intros x p Hx. rewrite VP. ups; try congruence; [split; [congruence|auto]|auto].
    - intros x. specialize (i_view0 x). destruct (VV x) as [->|(v & E1 & E2 & E3 & _)].
      + ups; [|assumption]. rewrite VF. exact I.
      + rewrite E3. exists v. rewrite E1 in i_view0. ups; [congruence|assumption].
    - intros x p Hx. rewrite VP. ups; auto.
    - intros x Hx. rewrite VP. ups; try congruence.
      + split; [congruence|]. auto.
      + auto.
    - intros x Hx. destruct (i_owned0 x Hx) as (Q1 & Q2 & Q3). assert (x <> k) by congruence.
      split; [ups; auto|]. split; [ups; congruence|]. intros m Hm. destruct (OLD m x Hm) as (h & Hh). exact (Q3 h Hh).
    - intros m x Hx. destruct (OLD m x Hx) as (h & Hh). destruct (i_held0 h x Hh) as (Q1 & Q2 & Q3).
      assert (x <> k) by congruence. split; [ups; auto|]. split; [ups; congruence|].
      intros HT. destruct (VV x) as [E|(v & E1 & E2 & E3 & E4)]; [congruence|].
      assert (Hk : V k = Available (Nest x) \/ F k = Some (RAvailable (Nest x))) by (right; congruence).
      destruct (HN m x Hx) as [(_ & N2 & Q)|[_ Q]].
      + apply N2. eauto.
      + destruct (HQ x Q) as [[_ EV]|(j & J1 & J2 & J3 & J4)]; [congruence|]. apply J1. eauto.
    - intros m m' x Hx Hx'.
      assert (KEY : forall m, V' m = Available (Nest x) \/ upd (upd F k None) f (Some q) m = Some (RAvailable (Nest x)) ->
                m <> f -> q = RAvailable (Nest x) -> False).
      { intros p Hp NP Hq. pose proof (HN p x Hp) as [(_ & N2 & Q)|[Q _]]; [|contradiction].
        destruct (HQ x Hq) as [[E EV]|(j & J1 & J2 & J3 & J4)].
        - apply N2. eapply i_uniq0; [exact Q|right; congruence].
        - assert (p = j) by (eapply i_uniq0; [exact Q|left; exact J3]). subst p.
          destruct Hp as [Hp|Hp]; [congruence|]. unfold upd in Hp.
          destruct (Nat.eqb_spec j f); [congruence|]. destruct (Nat.eqb_spec j k); [congruence|]. destruct (i_flight0 _ _ Hp) as (_ & ? & _). congruence. }
      destruct (HN m x Hx) as [(N1 & N2 & Q)|[-> Q]], (HN m' x Hx') as [(N1' & N2' & Q')|[-> Q']]; eauto; exfalso; eauto.
    - intros x a Hx. assert (NX : x <> k) by (intros ->; unfold upd in Hx; rewrite Nat.eqb_refl in Hx; discriminate).
      assert (HX : A x = Some a) by (ups; [congruence|assumption]).
      destruct (i_arr0 x a HX) as (Q1 & Q2 & Q3). rewrite VP. split; [assumption|]. split; [ups; congruence|].
      destruct a as [g|g].
      + assert (g <> f) by (intros ->; apply NX, AU; left; assumption).
        destruct Q3 as (p & P1 & P2 & P3 & P4). exists p. split; [assumption|]. ups; try congruence; auto.
      + assert (g <> f) by (intros ->; apply NX, AU; right; assumption). destruct Q3 as [P1 P2].
        split; [assumption|]. ups; congruence.
    - intros x g Hx. destruct (Nat.eq_dec g f) as [->|NG].
      + assert (x = k0) by eauto. subst x. right. right. exists r0.
        assert (k0 <> f) by congruence. split; [ups; congruence|].
        destruct r0 as [[v|j]|c|]; [destruct EQ| | |].
        * ups; try congruence. split; congruence.
        * subst q. ups; congruence.
        * subst q. ups; congruence.
      + destruct (i_flat0 x g Hx) as [E|[(j & E1 & E2)|(p & E1 & E2)]].
        * destruct (Nat.eq_dec x k) as [->|NX]; [|left; ups; congruence].
          exfalso. destruct HA as [HA|HA]; congruence.
        * right. left. exists j. assert (x <> f) by congruence. split; [ups; congruence|].
          assert (j <> k) by (intros ->; destruct HA as [HA|HA]; congruence). ups; congruence.
        * right. right. exists p. assert (x <> f) by congruence. split; [ups; congruence|].
          destruct p as [[v|j]|c|]; [exact I| | |].
          -- destruct E2 as [E2 E3]. ups; try congruence. auto.
          -- ups; congruence.
          -- ups; congruence.
    - intros x g Hx. destruct (i_flat_gone0 x g Hx) as [Q1 Q2]. split; [assumption|].
      intros m Hm. destruct (OLD m x Hm) as (h & Hh). exact (Q2 h Hh).
    - intros x H1 H2. destruct (VV x) as [E|(v & E1 & E2 & E3 & E4)]; [rewrite E in H2; auto|].
      exfalso. destruct (i_owned0 x H1) as (_ & _ & Q). apply (Q k). right. congruence.
  Qed.

  (** The closure of a promise gets a promise which is pending. *)
  Lemma inv_unwrap N V A O U F l G S k j f :
    F k = Some (RAvailable (Nest j)) -> A k = Some (Unwrap f) -> V j = Pending ->
    Inv N V A O U F l G S ->
    Inv N V (upd (upd A k None) j (Some (Forward f))) O U (upd F k None) l G (upd S k true).
  Proof.
    intros HF HA VJ H. pose proof (fun m Hm => arr_unique _ _ _ _ _ _ _ _ _ m k f H Hm (or_intror HA)) as AU. destruct H.
    destruct (i_flight0 k _ HF) as (GK & VK & SK). destruct (i_arr0 k _ HA) as (_ & _ & KF & GF).
    destruct (i_held0 k j (or_intror HF)) as (AJ & SJ & _).
    assert (JK : j <> k) by congruence.
    assert (JN : j < N) by (apply (i_held_lt0 k j); auto).
    assert (KN : k < N) by (apply (i_flat_lt0 k f KF)).
    assert (HN : forall m x, V m = Available (Nest x) \/ upd F k None m = Some (RAvailable (Nest x)) ->
                 (V m = Available (Nest x) \/ F m = Some (RAvailable (Nest x))) /\ m <> k).
    { intros m x [Hx|Hx]; [split; [auto|congruence]|]. ups; [discriminate|auto]. }
    assert (XJ : forall m x, V m = Available (Nest x) \/ upd F k None m = Some (RAvailable (Nest x)) -> x <> j).
    { intros m x Hx ->. destruct (HN m j Hx) as [Q NK]. apply NK. eapply i_uniq0; [exact Q|right; exact HF]. }
    split; try assumption.
    - intros x Hx. destruct (i_fresh0 x Hx) as (?&?&?&?&?&?&?). ups; try lia. auto 10.
    - intros m x Hx. apply HN in Hx as [Hx _]. eauto.
    - intros x p Hx. ups; [discriminate|]. auto.
    - intros x p Hx. ups; auto.
    - intros x Hx. ups; try congruence; [split; [congruence|auto]|auto].
    - intros x Hx. destruct (i_owned0 x Hx) as (Q1 & Q2 & Q3).
      assert (x <> j) by (intros ->; apply (Q3 k); auto). assert (x <> k) by congruence.
      split; [ups; congruence|]. split; [ups; congruence|]. intros m Hm. apply HN in Hm as [Hm _]. exact (Q3 m Hm).
    - intros m x Hx. pose proof (XJ m x Hx) as NJ. apply HN in Hx as [Hx _]. destruct (i_held0 m x Hx) as (Q1 & Q2 & Q3).
      assert (x <> k) by congruence. split; [ups; congruence|]. split; [ups; congruence|assumption].
    - intros m m' x Hx Hx'. apply HN in Hx as [Hx _]. apply HN in Hx' as [Hx' _]. eauto.
    - intros x a Hx. destruct (Nat.eq_dec x j) as [->|NJ].
      + assert (a = Forward f) as -> by (ups; congruence). split; [assumption|]. split; [ups; congruence|].
        exists k. split; [assumption|]. split; [assumption|]. split; [|assumption]. ups; congruence.
      + destruct (Nat.eq_dec x k) as [->|NK]; [ups; congruence|].
        assert (HX : A x = Some a) by (ups; congruence).
        destruct (i_arr0 x a HX) as (Q1 & Q2 & Q3). split; [assumption|]. split; [ups; congruence|].
        destruct a as [g|g]; [|assumption]. destruct Q3 as (p & P1 & P2 & P3 & P4). exists p.
        split; [assumption|]. split; [assumption|]. split; [|assumption].
        assert (p <> j).
        { intros ->. destruct (i_flat_gone0 j g P1) as [_ Q]. apply (Q k). auto. }
        ups; congruence.
    - intros x g Hx. destruct (i_flat0 x g Hx) as [E|[(p & E1 & E2)|E]]; [| |auto].
      + destruct (Nat.eq_dec x k) as [->|NK].
        * assert (g = f) as -> by congruence. right. left. exists j. split; [assumption|]. ups; congruence.
        * left. ups; congruence.
      + right. left. exists p. split; [assumption|]. ups; congruence.
    - intros x g Hx. destruct (i_flat_gone0 x g Hx) as [Q1 Q2]. split; [assumption|].
      intros m Hm. apply HN in Hm as [Hm _]. exact (Q2 m Hm).
  Qed.

  (** A plain value where a promise is expected; the types exclude this. *)
  Lemma inv_unwrap_leaf N V A O U F l G S k v f :
    F k = Some (RAvailable (Leaf v)) -> A k = Some (Unwrap f) ->
    Inv N V A O U F l G S -> Inv N V (upd A k None) O U (upd F k None) l G (upd S k true).
  Proof.
    intros HF HA []. destruct (i_flight0 k _ HF) as (GK & VK & SK). destruct (i_arr0 k _ HA) as (_ & _ & KF & GF).
    assert (KN : k < N) by (apply (i_flat_lt0 k f KF)).
    assert (HN : forall m x, V m = Available (Nest x) \/ upd F k None m = Some (RAvailable (Nest x)) ->
                 (V m = Available (Nest x) \/ F m = Some (RAvailable (Nest x)))).
    { intros m x [Hx|Hx]; [auto|]. ups; [discriminate|auto]. }
    split; try assumption.
    - intros x Hx. destruct (i_fresh0 x Hx) as (?&?&?&?&?&?&?). ups; try lia. auto 10.
    - intros m x Hx. eauto.
    - intros x p Hx. ups; [discriminate|]. auto.
    - intros x p Hx. ups; auto.
    - intros x Hx. ups; [split; [congruence|auto]|auto].
    - intros x Hx. destruct (i_owned0 x Hx) as (Q1 & Q2 & Q3). assert (x <> k) by congruence.
      split; [ups; congruence|]. split; [ups; congruence|]. intros m Hm. apply HN in Hm. exact (Q3 m Hm).
    - intros m x Hx. apply HN in Hx. destruct (i_held0 m x Hx) as (Q1 & Q2 & Q3).
      assert (x <> k) by congruence. split; [ups; congruence|]. split; [ups; congruence|assumption].
    - intros m m' x Hx Hx'. eauto.
    - intros x a Hx. destruct (Nat.eq_dec x k) as [->|NK]; [ups; congruence|].
      assert (HX : A x = Some a) by (ups; congruence).
      destruct (i_arr0 x a HX) as (Q1 & Q2 & Q3). split; [assumption|]. split; [ups; congruence|].
      destruct a as [g|g]; [|assumption]. destruct Q3 as (p & P1 & P2 & P3 & P4). exists p. ups; auto.
    - intros x g Hx. destruct (Nat.eq_dec x k) as [->|NK].
      + right. right. exists (RAvailable (Leaf v)). auto.
      + destruct (i_flat0 x g Hx) as [E|[(p & E1 & E2)|E]]; [left; ups; congruence| |auto].
        right. left. exists p. split; [assumption|]. ups; congruence.
    - intros x g Hx. destruct (i_flat_gone0 x g Hx) as [Q1 Q2]. split; [assumption|].
      intros m Hm. apply HN in Hm. exact (Q2 m Hm).
  Qed.

  Definition shown_opt (oq : option res) : pstate val := match oq with Some q => shown q | None => Pending end.

  (** A promise of the user is flattened into the new promise [N]. *)
  Lemma inv_flatten N V A O U F l G S k (V1 : nat -> pstate val) (A1 : nat -> option arrival) (oq : option res) :
    U k = true -> V k <> Taken ->
    (V k = Pending /\ V1 = V /\ A1 = upd A k (Some (Unwrap N)) /\ oq = None) \/
    (exists q, V k = shown q /\ (forall v, q <> RAvailable v) /\ V1 = V /\ A1 = A /\ oq = Some q) \/
    (exists j, V k = Available (Nest j) /\ V j = Pending /\ V1 = upd V k Taken /\ A1 = upd A j (Some (Forward N)) /\ oq = None) \/
    (exists j q, V k = Available (Nest j) /\ V j = shown q /\ V1 = upd (upd V k Taken) j (taken (V j)) /\ A1 = A /\ oq = Some q) \/
    (exists v, V k = Available (Leaf v) /\ V1 = upd V k Taken /\ A1 = A /\ oq = None) ->
    Inv N V A O U F l G S ->
    Inv (Datatypes.S N) (upd V1 N (shown_opt oq)) A1 O (upd (upd U k false) N true) F (l ++ [FFlattened k N]) (upd G N oq) S.
  Proof.
    intros HU HT HC H.
    destruct H.
    destruct (i_fresh0 N (le_n N)) as (VN & AN & ON & UN & FN & GN & SN).
    destruct (i_owned0 k HU) as (AK & SK & NH).
    assert (KN : k < N).
    { destruct (Nat.lt_ge_cases k N) as [|HN]; [assumption|]. destruct (i_fresh0 k HN) as (_ & _ & _ & ? & _). congruence. }
    set (l' := l ++ [FFlattened k N]).
    assert (IL : incl l l') by (intros x Hx; apply in_or_app; auto).
    assert (NEW : In (FFlattened k N) l') by (apply in_or_app; cbn; auto).
    assert (FL : forall a b, In (FFlattened a b) l' -> In (FFlattened a b) l \/ (a = k /\ b = N)).
    { intros a b Hab. apply in_app_or in Hab as [?|[E|[]]]; [auto|]. injection E as <- <-. auto. }
    assert (INJ : forall j, V k = Available (Nest j) -> j <> k /\ j < N /\ A j = None /\ S j = false /\ V j <> Taken).
    { intros j Hj. split; [intros ->; exact (NH k (or_introl Hj))|]. split; [eauto|]. eapply i_held0; eauto. }
    assert (VV : forall x, V1 x = V x \/ (exists v, V x = Available v /\ V1 x = Taken /\ (x = k \/ V k = Available (Nest x)))).
    { intros x. destruct HC as [(_ & -> & _)|[(q & _ & _ & -> & _)|[(j & E1 & E2 & -> & _)|[(j & q & E1 & E2 & -> & _)|(v & E1 & -> & _)]]]]; auto.
      - ups; [right; eauto 6|auto].
      - pose proof (INJ j E1) as (? & _). ups; try congruence; [|right; eauto 6|auto].
        destruct q; cbn; rewrite ?E2; cbn; auto. right. eexists. split; [reflexivity|]. split; [reflexivity|]. auto.
      - ups; [right; eauto 6|auto]. }
    assert (VP : forall x, V1 x = Pending <-> V x = Pending).
    { intros x. destruct (VV x) as [->|(v & E & E' & _)]; [tauto|]. rewrite E, E'. split; discriminate. }
    assert (AA : forall x, A1 x = A x \/ (A x = None /\ V x = Pending /\ S x = false /\
       ((x = k /\ A1 x = Some (Unwrap N)) \/ (V k = Available (Nest x) /\ A1 x = Some (Forward N))))).
    { intros x. destruct HC as [(E & _ & -> & _)|[(q & _ & _ & _ & -> & _)|[(j & E1 & E2 & _ & -> & _)|[(j & q & E1 & E2 & _ & -> & _)|(v & E1 & _ & -> & _)]]]]; auto.
      - ups; [right; auto 10|auto].
      - destruct (INJ j E1) as (? & _ & ? & ? & _). ups; [right; auto 10|auto]. }
    assert (HQ : forall x, oq = Some (RAvailable (Nest x)) -> exists j, V k = Available (Nest j) /\ V j = Available (Nest x) /\ V1 j = Taken).
    { intros x Hx. destruct HC as [(_ & _ & _ & E)|[(q & _ & E & _ & _ & E')|[(j & E1 & E2 & _ & _ & E)|[(j & q & E1 & E2 & -> & _ & E)|(v & E1 & _ & _ & E)]]]]; try congruence.
      assert (q = RAvailable (Nest x)) as -> by congruence. cbn in E2. exists j. split; [assumption|]. split; [assumption|].
      unfold upd. rewrite Nat.eqb_refl, E2. reflexivity. }
    assert (YQ : forall q, oq = Some q -> yields l' N q).
    { intros q Hq. destruct HC as [(_ & _ & _ & E)|[(q' & E0 & E & _ & _ & E')|[(j & E1 & E2 & _ & _ & E)|[(j & q' & E1 & E2 & _ & _ & E)|(v & E1 & _ & _ & E)]]]]; try congruence.
      - assert (q' = q) as -> by congruence. specialize (i_view0 k). rewrite E0 in i_view0.
        destruct q as [v|c|]; [destruct (E v eq_refl)| |]; cbn in i_view0.
        + eapply yields_cancelled; [exact NEW|]. apply (yields_mono l); auto.
        + eapply yields_disposed; [exact NEW|]. apply (yields_mono l); auto.
      - assert (q' = q) as -> by congruence. pose proof (i_view0 k) as IV. rewrite E1 in IV. pose proof (i_view0 j) as IJ. rewrite E2 in IJ.
        eapply yields_inner; [exact NEW|apply (yields_mono l); [exact IL|apply i_sound0, IV]|].
        apply (yields_mono l); [exact IL|]. apply i_sound0. destruct q; exact IJ. }
    assert (EQ : A1 k = Some (Unwrap N) \/
      (exists j, G k = Some (RAvailable (Nest j)) /\ A1 j = Some (Forward N)) \/
      (exists r, G k = Some r /\ match r with
        | RAvailable (Nest j) => G j <> None /\ oq = G j
        | RAvailable (Leaf _) => True
        | RCancelled c => oq = Some (RCancelled c)
        | RDisposed => oq = Some RDisposed end)).
    { pose proof (i_view0 k) as IV.
      destruct HC as [(E & _ & -> & _)|[(q & E1 & E & _ & _ & ->)|[(j & E1 & E2 & _ & -> & _)|[(j & q & E1 & E2 & _ & _ & ->)|(v & E1 & _ & _ & _)]]]].
      - left. ups; congruence.
      - right. right. exists q. rewrite E1 in IV. destruct q as [v|c|]; [destruct (E v eq_refl)| |]; cbn in IV; auto.
      - right. left. exists j. rewrite E1 in IV. split; [assumption|]. ups; congruence.
      - right. right. rewrite E1 in IV. exists (RAvailable (Nest j)). split; [assumption|]. pose proof (i_view0 j) as IJ.
        rewrite E2 in IJ. destruct q; cbn in IJ; rewrite IJ; split; congruence.
      - right. right. rewrite E1 in IV. exists (RAvailable (Leaf v)). auto. }
    (* who holds what *)
    assert (HN : forall m x, upd V1 N (shown_opt oq) m = Available (Nest x) \/ F m = Some (RAvailable (Nest x)) ->
       (m <> N /\ V1 m = V m /\ (V m = Available (Nest x) \/ F m = Some (RAvailable (Nest x)))) \/
       (m = N /\ oq = Some (RAvailable (Nest x)))).
    { intros m x [Hx|Hx].
      - unfold upd in Hx. destruct (Nat.eqb_spec m N) as [->|NM].
        + right. split; [reflexivity|]. destruct oq as [[]|]; cbn in Hx; congruence.
        + left. split; [assumption|]. destruct (VV m) as [E|(v & _ & E & _)]; [|congruence]. split; [assumption|].
          left. congruence.
      - left. split; [congruence|]. destruct (VV m) as [E|(v & E & _ & _)]; [auto|].
        destruct (i_flight0 _ _ Hx) as (_ & ? & _). congruence. }
    assert (OLD : forall m x, upd V1 N (shown_opt oq) m = Available (Nest x) \/ F m = Some (RAvailable (Nest x)) ->
       exists h, V h = Available (Nest x) \/ F h = Some (RAvailable (Nest x))).
    { intros m x Hx. destruct (HN m x Hx) as [(_ & _ & Q)|[_ Q]]; [eauto|].
      destruct (HQ x Q) as (j & _ & E & _). eauto. }
    assert (NJ : forall m x, upd V1 N (shown_opt oq) m = Available (Nest x) \/ F m = Some (RAvailable (Nest x)) ->
       V k = Available (Nest x) -> V1 k = Taken -> False).
    { intros m x Hx Hk HT1. destruct (HN m x Hx) as [(_ & Q1 & Q2)|[_ Q]].
      - assert (m = k) by eauto. subst m. congruence.
      - destruct (HQ x Q) as (j & J1 & J2 & _). assert (j = x) by congruence. subst j.
        assert (x = k) by eauto. destruct (INJ x Hk). contradiction. }
    assert (VT : forall j, V k = Available (Nest j) -> V1 k = Taken).
    { intros j Hj. destruct HC as [(E & _)|[(q & E & E' & _)|[(j' & E1 & E2 & -> & _)|[(j' & q & E1 & E2 & -> & _)|(v & E1 & _ & _ & _)]]]].
      - congruence.
      - exfalso. rewrite Hj in E. destruct q; try discriminate. eapply E'. reflexivity.
      - ups; congruence.
      - destruct (INJ j' E1) as (? & _). ups; congruence.
      - congruence. }
    split.
    - intros x Hx. assert (Hx' : N <= x) by lia. destruct (i_fresh0 x Hx') as (?&?&?&?&?&?&?).
      assert (A1 x = None).
      { destruct (AA x) as [->|(_ & _ & _ & [[-> _]|[E _]])]; [assumption|lia|]. destruct (INJ x E) as (_ & ? & _). lia. }
      ups; try lia. rewrite VP. auto 10.
    - intros m x Hx. destruct (OLD m x Hx) as (h & Hh). specialize (i_held_lt0 h x Hh). lia.
    - intros a b Hab. apply FL in Hab as [Hab|[-> ->]]; [specialize (i_flat_lt0 a b Hab)|]; lia.
    - intros x q Hx. ups; [auto|]. apply (yields_mono l); auto.
    - intros x q Hx. apply in_app_or in Hx as [Hx|[Hx|[]]]; [|discriminate]. apply i_sent0 in Hx. ups; [congruence|assumption].
    - intros x Hx. destruct (i_open0 x Hx) as [? Q]. assert (x <> N) by congruence. split; [ups; congruence|].
      intros k' Hk'. apply FL in Hk' as [Hk'|[_ E]]; [exact (Q k' Hk')|contradiction].
    - intros x q Hx. assert (x <> N) by congruence. destruct (i_flight0 x q Hx) as (Q1 & Q2 & Q3). ups; try congruence. rewrite VP. auto.
    - intros x. specialize (i_view0 x). unfold upd. destruct (Nat.eqb_spec x N) as [EX|NX]; [subst x|].
      + destruct oq as [[]|]; cbn; auto.
      + destruct (VV x) as [->|(v & E1 & E3 & _)]; [assumption|]. rewrite E3. rewrite E1 in i_view0. eauto.
    - intros x q Hx. unfold upd in *. destruct (Nat.eqb_spec x N) as [EX|NX]; [subst x|].
      + subst oq. right. left. destruct q; discriminate.
      + destruct (i_done0 x q Hx) as [D|[D|D]]; auto. right. left. rewrite VP. assumption.
    - intros x Hx. destruct (i_spent0 x Hx) as (Q1 & Q2 & Q3). assert (x <> N) by congruence.
      unfold upd. destruct (Nat.eqb_spec x N) as [->|_]; [congruence|]. split; [assumption|]. rewrite VP. split; [|assumption].
      destruct (AA x) as [->|(_ & _ & E & _)]; [assumption|congruence].
    - intros x Hx. unfold upd in Hx. destruct (Nat.eqb_spec x N) as [EX|NX]; [subst x|].
      + split; [|split; [assumption|]].
        * destruct (AA N) as [->|(_ & _ & _ & [[E _]|[E _]])]; [assumption|lia|]. destruct (INJ N E) as (_ & ? & _). lia.
        * intros m Hm. destruct (OLD m N Hm) as (h & Hh). specialize (i_held_lt0 h N Hh). lia.
      + destruct (Nat.eqb_spec x k) as [EK|NK]; [discriminate|]. destruct (i_owned0 x Hx) as (Q1 & Q2 & Q3).
        split; [|split; [assumption|]].
        * destruct (AA x) as [->|(_ & _ & _ & [[E _]|[E _]])]; [assumption|contradiction|]. destruct (Q3 k); auto.
        * intros m Hm. destruct (OLD m x Hm) as (h & Hh). exact (Q3 h Hh).
    - intros m x Hx. pose proof (NJ m x Hx) as NJx. destruct (OLD m x Hx) as (h & Hh). destruct (i_held0 h x Hh) as (Q1 & Q2 & Q3).
      assert (x <> k) by (intros ->; exact (NH h Hh)). assert (x <> N) by (specialize (i_held_lt0 h x Hh); lia).
      split; [|split; [assumption|]].
      + destruct (AA x) as [->|(_ & _ & _ & [[E _]|[E _]])]; [assumption|contradiction|]. destruct (NJx E). eauto.
      + unfold upd. destruct (Nat.eqb_spec x N); [contradiction|]. intros E.
        destruct (VV x) as [E'|(v & _ & _ & [E'|E'])]; [congruence|contradiction|]. apply (NJx E'). eauto.
    - intros m m' x Hx Hx'.
      assert (KEY : forall p, upd V1 N (shown_opt oq) p = Available (Nest x) \/ F p = Some (RAvailable (Nest x)) ->
                p <> N -> oq = Some (RAvailable (Nest x)) -> False).
      { intros p Hp NP Hq. destruct (HN p x Hp) as [(_ & Q1 & Q2)|[Q _]]; [|contradiction].
        destruct (HQ x Hq) as (j & J1 & J2 & J3). assert (p = j) by eauto. subst p. congruence. }
      destruct (HN m x Hx) as [(N1 & N2 & Q)|[-> Q]], (HN m' x Hx') as [(N1' & N2' & Q')|[-> Q']]; eauto; exfalso; eauto.
    - intros x a Hx. destruct (AA x) as [E|(E1 & E2 & E3 & E4)].
      + rewrite E in Hx. destruct (i_arr0 x a Hx) as (Q1 & Q2 & Q3). assert (x <> N) by congruence.
        unfold upd at 1. destruct (Nat.eqb_spec x N); [contradiction|]. rewrite VP. split; [assumption|]. split; [assumption|].
        destruct a as [g|g].
        * destruct Q3 as (p & P1 & P2 & P3 & P4). exists p. split; [auto|].
          assert (g <> N) by (destruct (i_flat_lt0 _ _ P1); lia). assert (p <> N) by congruence.
          unfold upd. destruct (Nat.eqb_spec p N); [contradiction|]. destruct (Nat.eqb_spec g N); [contradiction|].
          split; [assumption|]. split; [|assumption].
          destruct (AA p) as [->|(_ & _ & _ & [[-> _]|[E' _]])]; [assumption| |].
          -- destruct (i_flat_gone0 k g P1). congruence.
          -- destruct (i_flat_gone0 p g P1) as [_ Q]. destruct (Q k); auto.
        * destruct Q3 as [P1 P2]. assert (g <> N) by (destruct (i_flat_lt0 _ _ P1); lia).
          unfold upd. destruct (Nat.eqb_spec g N); [contradiction|]. auto.
      + assert (x <> N) by (destruct E4 as [[-> _]|[E4 _]]; [lia|destruct (INJ x E4) as (_ & ? & _); lia]).
        unfold upd at 1. destruct (Nat.eqb_spec x N); [contradiction|]. rewrite VP. split; [assumption|]. split; [assumption|].
        assert (OQ : oq = None).
        { destruct HC as [(_ & _ & _ & E)|[(q & _ & _ & _ & E & _)|[(j & _ & _ & _ & _ & E)|[(j & q & _ & _ & _ & E & _)|(v & _ & _ & E & _)]]]]; try assumption;
            rewrite E in E4; destruct E4 as [[_ E4]|[_ E4]]; congruence. }
        destruct E4 as [[-> E4]|[E4 E5]].
        * assert (a = Unwrap N) as -> by congruence. split; [assumption|]. unfold upd. rewrite Nat.eqb_refl. assumption.
        * assert (a = Forward N) as -> by congruence. exists k. split; [assumption|].
          pose proof (i_view0 k) as IV. rewrite E4 in IV. unfold upd. rewrite Nat.eqb_refl.
          destruct (Nat.eqb_spec k N); [lia|]. split; [assumption|]. split; [|assumption].
          destruct (AA k) as [->|(_ & E & _)]; [assumption|congruence].
    - intros x g Hx. apply FL in Hx as [Hx|[-> ->]].
      + destruct (i_flat_lt0 x g Hx) as [L1 L2]. assert (x <> N) by lia. assert (g <> N) by lia.
        destruct (i_flat_gone0 x g Hx) as [NU NG].
        assert (AX : forall y, A y <> None -> A1 y = A y) by (intros y Hy; destruct (AA y) as [E|(E & _)]; [assumption|contradiction]).
        destruct (i_flat0 x g Hx) as [E|[(j & E1 & E2)|(p & E1 & E2)]].
        * left. rewrite AX; congruence.
        * right. left. exists j. unfold upd. destruct (Nat.eqb_spec x N); [contradiction|]. split; [assumption|]. rewrite AX; congruence.
        * right. right. exists p. unfold upd. destruct (Nat.eqb_spec x N); [contradiction|]. split; [assumption|].
          destruct (Nat.eqb_spec g N); [contradiction|].
          destruct p as [[v|j]|c|]; auto. destruct E2 as [E2 E3]. assert (j <> N) by congruence.
          destruct (Nat.eqb_spec j N); [contradiction|]. auto.
      + unfold upd. rewrite Nat.eqb_refl. destruct (Nat.eqb_spec k N); [lia|].
        destruct EQ as [E|[E|(r & E1 & E2)]]; [auto|auto|]. right. right. exists r. split; [assumption|].
        destruct r as [[v|j]|c|]; auto. destruct E2 as [E2 E3]. assert (j <> N) by congruence.
        destruct (Nat.eqb_spec j N); [contradiction|]. auto.
    - intros a b g Ha Hb. apply FL in Ha as [Ha|[-> ->]]; apply FL in Hb as [Hb|[-> E]]; try subst; eauto.
      + destruct (i_flat_lt0 _ _ Ha). lia.
      + destruct (i_flat_lt0 _ _ Hb). lia.
    - intros x g Hx. apply FL in Hx as [Hx|[-> ->]].
      + destruct (i_flat_gone0 x g Hx) as [Q1 Q2]. destruct (i_flat_lt0 x g Hx).
        unfold upd at 1. destruct (Nat.eqb_spec x N); [lia|]. split; [ups; congruence|].
        intros m Hm. destruct (OLD m x Hm) as (h & Hh). exact (Q2 h Hh).
      + unfold upd at 1. destruct (Nat.eqb_spec k N); [lia|]. split; [ups; congruence|].
        intros m Hm. destruct (OLD m k Hm) as (h & Hh). exact (NH h Hh).
    - intros x H1 H2. unfold upd in H1, H2. destruct (Nat.eqb_spec x N) as [EX|NX]; [subst x|].
      + destruct oq as [[]|]; discriminate.
      + destruct (Nat.eqb_spec x k) as [EK|NK]; [discriminate|].
        destruct (VV x) as [E|(v & _ & _ & [E|E])]; [|contradiction|].
        * rewrite E in H2. destruct (i_taken0 x H1 H2) as (v & Hv). exists v. auto.
        * destruct (i_owned0 x H1) as (_ & _ & Q). destruct (Q k); auto.
  Qed.

  (** The user takes the value of a promise. *)
  Definition get (s : pstate val) (U : nat -> bool) : nat -> bool :=
    match s with Available (Nest j) => upd U j true | _ => U end.

  Lemma inv_take N V A O U F l G S k :
    U k = true -> Inv N V A O U F l G S ->
    Inv N (upd V k (taken (V k))) A O (get (V k) U) F (l ++ [FTook k (V k)]) G S.
  Proof.
    intros HU H. apply (inv_log _ _ _ _ _ _ _ _ _ (FTook k (V k))) in H; [|auto|discriminate|discriminate].
    set (l' := l ++ [FTook k (V k)]) in *.
    assert (TK : forall v, V k = Available v -> was_taken l' k).
    { intros v E. exists v. unfold l'. rewrite E. apply in_or_app. cbn. auto. }
    clearbody l'. destruct H.
    destruct (i_owned0 k HU) as (AK & SK & NH).
    assert (KN : k < N).
    { destruct (Nat.lt_ge_cases k N) as [|HN]; [assumption|]. destruct (i_fresh0 k HN) as (_ & _ & _ & ? & _). congruence. }
    assert (VV : forall x, upd V k (taken (V k)) x = V x \/ (x = k /\ (exists v, V k = Available v) /\ upd V k (taken (V k)) x = Taken)).
    { intros x. ups; [|auto]. destruct (V k); cbn; auto. right. eauto. }
    assert (VP : forall x, upd V k (taken (V k)) x = Pending <-> V x = Pending).
    { intros x. destruct (VV x) as [->|(-> & (v & E) & ->)]; [tauto|]. rewrite E. split; discriminate. }
    assert (HN : forall m x, upd V k (taken (V k)) m = Available (Nest x) \/ F m = Some (RAvailable (Nest x)) ->
       (V m = Available (Nest x) \/ F m = Some (RAvailable (Nest x))) /\ V k <> Available (Nest x)).
    { intros m x [Hx|Hx].
      - assert (m <> k).
        { intros ->. unfold upd in Hx. rewrite Nat.eqb_refl in Hx. destruct (V k); discriminate. }
        destruct (VV m) as [E|(E & _)]; [|contradiction]. rewrite E in Hx. split; [auto|].
        intros E'. apply H. eauto.
      - split; [auto|]. intros E'. assert (m = k) by eauto. subst m. destruct (i_flight0 _ _ Hx) as (_ & ? & _). congruence. }
    assert (UG : forall x, get (V k) U x = true -> (U x = true /\ V k <> Available (Nest x)) \/ V k = Available (Nest x)).
    { intros x. unfold get. destruct (V k) as [[v|j]| | | |] eqn:E; try (intros Hx; left; split; [exact Hx|discriminate]).
      ups; [auto|]. intros Hx. left. split; [exact Hx|congruence]. }
    split; try assumption.
    - intros x Hx. destruct (i_fresh0 x Hx) as (?&?&?&?&?&?&?). rewrite VP.
      assert (get (V k) U x = false).
      { destruct (get (V k) U x) eqn:E; [|reflexivity]. destruct (UG x E) as [[? _]|E']; [congruence|].
        specialize (i_held_lt0 k x (or_introl E')). lia. }
      auto 10.
    - intros m x Hx. apply HN in Hx as [Hx _]. eauto.
    - intros x q Hx. rewrite VP. auto.
    - intros x. specialize (i_view0 x). destruct (VV x) as [->|(-> & (v & E) & ->)]; [assumption|]. rewrite E in i_view0. eauto.
    - intros x q Hx. rewrite VP. auto.
    - intros x Hx. rewrite VP. auto.
    - intros x Hx. destruct (UG x Hx) as [[Hx' NX]|E].
      + destruct (i_owned0 x Hx') as (Q1 & Q2 & Q3). split; [assumption|]. split; [assumption|].
        intros m Hm. apply HN in Hm as [Hm _]. exact (Q3 m Hm).
      + destruct (i_held0 k x (or_introl E)) as (Q1 & Q2 & Q3). split; [assumption|]. split; [assumption|].
        intros m Hm. apply HN in Hm as [_ Hm]. contradiction.
    - intros m x Hx. apply HN in Hx as [Hx _]. destruct (i_held0 m x Hx) as (Q1 & Q2 & Q3). split; [assumption|]. split; [assumption|].
      destruct (VV x) as [->|(-> & _)]; [assumption|]. destruct (NH m Hx).
    - intros m m' x Hx Hx'. apply HN in Hx as [Hx _]. apply HN in Hx' as [Hx' _]. eauto.
    - intros x a Hx. rewrite VP. auto.
    - intros x g Hx. destruct (i_flat_gone0 x g Hx) as [Q1 Q2]. split.
      + destruct (get (V k) U x) eqn:E; [|reflexivity]. destruct (UG x E) as [[? _]|E']; [congruence|]. destruct (Q2 k); auto.
      + intros m Hm. apply HN in Hm as [Hm _]. exact (Q2 m Hm).
    - intros x H1 H2. destruct (VV x) as [E|(-> & (v & E) & _)]; [|eauto]. rewrite E in H2.
      destruct (UG x H1) as [[H1' _]|E']; [auto|]. destruct (i_held0 k x (or_introl E')) as (_ & _ & ?). contradiction.
  Qed.
End FlattenProofs.
