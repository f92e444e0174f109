(** * Lemmas about the registry: whole calls *)

From Coq Require Import List Arith Bool Lia.
From Verif Require Import RegistryModel RegistrySpec RegistryProofs.
Import ListNotations.

Lemma w1_true a t b u : w1 a t b u = true <-> a = b /\ t = u.
Proof. unfold w1. rewrite andb_true_iff, abil_eqb_eq, Nat.eqb_eq. reflexivity. Qed.
Lemma wor_true v w a u : wor v w a u = true <-> v a u = true \/ w a u = true.
Proof. unfold wor. apply orb_true_iff. Qed.
Lemma w0_true a u : w0 a u = true <-> False.
Proof. unfold w0. split; [discriminate|intros []]. Qed.

Local Opaque w0.

Section Rust.
Context (R : rust).
Notation runs := (fold_left (run_atom R)).

Lemma guarded_of l : forall st, good st ->
  (forall b t, In (ARes b t) l -> has st Known t) -> guarded R st l.
Proof.
  induction l as [|x l IH]; intros st G H; [exact Logic.I|].
  assert (K : guard st x).
  { destruct x; try exact Logic.I. apply (H b). left. reflexivity. }
  split; [exact K|]. apply IH; [exact (atom_good R st x G K)|].
  intros b t I. apply (added_has _ _ _ _ _ (atom_added R st x G K)). apply (H b). right. exact I.
Qed.

Lemma mop_res t o b t' : In (ARes b t') (mop_atoms R t o) <-> o = WithResult b /\ t' = t.
Proof.
  destruct o as [f|f|f| | | |]; cbn; try (split; [intros H; intuition discriminate|intros [H _]; discriminate]).
  - rewrite in_app_iff, in_flat_map. cbn. split; [|intros [H _]; discriminate].
    intros [(p & _ & H)|[H|[]]]; intuition discriminate.
  - split; [intros [H|[]]; injection H; intros; subst; split; reflexivity|].
    intros [H ->]. injection H as ->. left. reflexivity.
Qed.

Lemma nop_res q p o b t' : In (ARes b t') (nop_atoms R q p o) <-> o = NResult b /\ t' = p.
Proof.
  destruct o as [| | | | | |f|f|f| | | | |]; unfold nop_atoms;
    try (cbn; split; [intros H; intuition discriminate|intros [H _]; discriminate]).
  - cbn [In]. rewrite mop_res. split; [intros [H|[H _]]; discriminate|intros [H _]; discriminate].
  - cbn [In]. rewrite mop_res. split.
    + intros [H|[H ->]]; [discriminate|]. injection H as ->. split; reflexivity.
    + intros [H ->]. injection H as ->. right. split; reflexivity.
Qed.

Lemma impl_res d s c t b t' : In (ARes b t') (impl_atoms d s c t) <-> False.
Proof. cbn. split; [intros H; intuition discriminate|intros []]. Qed.

Lemma call_res x b t : In (ARes b t) (atoms R x) <-> asks_result b t x.
Proof.
  destruct x as [d s c t' ops|d s c id n ops|id cf bu]; unfold atoms.
  - rewrite in_app_iff, impl_res. cbn [In]. rewrite in_flat_map. split.
    + intros [[]|[H|(o & O & H)]]; [discriminate|]. apply mop_res in H as [-> ->].
      constructor. exact O.
    + intros A. inversion A; subst. right. right. exists (WithResult b). split; [assumption|].
      apply mop_res. split; reflexivity.
  - rewrite !in_app_iff, !impl_res. cbn [In]. rewrite in_flat_map. split.
    + intros [[]|[[]|[H|(o & O & H)]]]; [discriminate|]. apply nop_res in H as [-> ->].
      constructor; [reflexivity|exact O].
    + intros A. inversion A; subst. right. right. right. exists (NResult b). split; [assumption|].
      apply nop_res. split; reflexivity.
  - cbn. split; [intros [H|[]]; discriminate|intros A; inversion A].
Qed.

Lemma impl_known d s c t st : good st -> has (runs (impl_atoms d s c t) st) Known t.
Proof.
  intros G. apply (runs_complete R _ st (ACl c t)); trivial.
  - apply guarded_of; [exact G|]. intros b t' I. apply impl_res in I as [].
  - cbn. tauto.
  - discriminate.
  - cbn [awants]. rewrite wor_true, w1_true. left. split; reflexivity.
Qed.

Lemma call_guarded x st : good st -> guarded R st (atoms R x).
Proof.
  intros G. destruct x as [d s c t ops|d s c id n ops|id cf bu]; unfold atoms.
  - assert (K : guarded R st (impl_atoms d s c t)).
    { apply guarded_of; [exact G|]. intros b t' I. apply impl_res in I as []. }
    apply guarded_app. split; [exact K|]. apply guarded_of; [exact (runs_good R _ st G K)|].
    intros b t' [I|I]; [discriminate|]. apply in_flat_map in I as (o & _ & I).
    apply mop_res in I as [_ ->]. apply impl_known; exact G.
  - assert (K : guarded R st (impl_atoms d s c (n_request n))).
    { apply guarded_of; [exact G|]. intros b t' I. apply impl_res in I as []. }
    apply guarded_app. split; [exact K|]. pose proof (runs_good R _ st G K) as G1.
    set (s1 := runs (impl_atoms d s c (n_request n)) st) in *.
    assert (K1 : guarded R s1 (impl_atoms d s c (n_response n))).
    { apply guarded_of; [exact G1|]. intros b t' I. apply impl_res in I as []. }
    apply guarded_app. split; [exact K1|].
    apply guarded_of; [exact (runs_good R _ s1 G1 K1)|].
    intros b t' [I|I]; [discriminate|]. apply in_flat_map in I as (o & _ & I).
    apply nop_res in I as [_ ->]. apply impl_known; exact G1.
  - cbn. split; exact Logic.I.
Qed.

Lemma calls_guarded xs : forall st, good st -> guarded R st (flat_map (atoms R) xs).
Proof.
  induction xs as [|x xs IH]; intros st G; [exact Logic.I|]. cbn [flat_map].
  apply guarded_app. split; [exact (call_guarded x st G)|].
  apply IH. exact (runs_good R _ st G (call_guarded x st G)).
Qed.

(** ** The small steps ask for what the calls ask for *)

Lemma part_true b t a u : part2 b t a u = true <->
  t = u /\ (a = Known \/ b = true /\ (a = Serialize \/ a = Clone)).
Proof.
  unfold part2. destruct b; rewrite !wor_true, ?w1_true, ?(w0_true a u).
  - split; [intuition congruence|]. intros [-> [->|[_ [->| ->]]]]; intuition.
  - split; [intuition congruence|]. intros [-> [->|[[] _]]]; intuition.
Qed.

Definition someone (l : list atom) (a : ability) (u : nat) : Prop :=
  exists y, In y l /\ awants R y a u = true.

Lemma someone_app l l' a u : someone (l ++ l') a u <-> someone l a u \/ someone l' a u.
Proof.
  unfold someone. split.
  - intros (y & I & W). apply in_app_iff in I as [I|I]; [left|right]; exists y; tauto.
  - intros [(y & I & W)|(y & I & W)]; exists y; rewrite in_app_iff; tauto.
Qed.
Lemma someone_cons x l a u : someone (x :: l) a u <-> awants R x a u = true \/ someone l a u.
Proof.
  unfold someone. split.
  - intros (y & [->|I] & W); [left; exact W|right; exists y; tauto].
  - intros [W|(y & I & W)]; [exists x; cbn; tauto|exists y; cbn; tauto].
Qed.
Lemma someone_nil a u : someone [] a u <-> False.
Proof. unfold someone. split; [intros (y & [] & _)|intros []]. Qed.
Lemma someone_flat {A} (f : A -> list atom) l a u :
  someone (flat_map f l) a u <-> exists o, In o l /\ someone (f o) a u.
Proof.
  unfold someone. split.
  - intros (y & I & W). apply in_flat_map in I as (o & O & I). exists o. split; [exact O|]. exists y. tauto.
  - intros (o & O & y & I & W). exists y. rewrite in_flat_map. split; [|exact W]. exists o. tauto.
Qed.

Lemma someone_part b t a u :
  someone [ASer b t; ACl b t] a u <-> part2 b t a u = true.
Proof. rewrite !someone_cons, someone_nil. cbn [awants]. unfold part2. rewrite !wor_true. tauto. Qed.

Ltac wz := rewrite ?someone_cons, ?someone_nil; cbn [awants];
  rewrite ?wor_true, ?w1_true, ?w0_true.

Lemma impl_someone d s c t a u : someone (impl_atoms d s c t) a u <-> common d s c t a u.
Proof.
  unfold impl_atoms. destruct d, s, c; wz; (split;
    [intros H; assert (E : t = u) by intuition; subst u; destruct a;
     try (constructor; reflexivity); exfalso; intuition congruence
    |intros H; inversion H; subst; try discriminate; intuition]).
Qed.

Lemma vec_someone t a u : someone [AJoin (vec_of R t)] a u <-> vecs R t a u.
Proof.
  wz. split.
  - intros [[[<- <-]|[<- <-]]|[]]; constructor.
  - intros H. inversion H; subst; tauto.
Qed.

Lemma part_unzip_true b t a u :
  someone (flat_map (fun p => [ASer b p; ACl b p]) (parts_of R t)) a u
  <-> exists p, In p (parts_of R t) /\ part2 b p a u = true.
Proof.
  rewrite someone_flat. split; intros (p & I & H); exists p; (split; [exact I|]);
    [apply someone_part in H|apply someone_part]; exact H.
Qed.

Lemma mop_someone t o a u : someone (mop_atoms R t o) a u <-> owants R o t a u.
Proof.
  destruct o as [f|f|f| | | |]; cbn [mop_atoms].
  - rewrite someone_app, part_unzip_true. wz. split.
    + intros [(p & I & H)|[[[<- <-]|[<- <-]]|[]]].
      * apply part_true in H as [<- [->|[-> [->| ->]]]].
        -- apply ow_part_known. constructor. exact I.
        -- apply ow_part_ser; [reflexivity|]. constructor. exact I.
        -- apply ow_part_clone; [reflexivity|]. constructor. exact I.
      * apply ow_known.
      * apply ow_unzip.
    + intros H. inversion H; subst; try tauto;
        match goal with P : part _ _ _ _ |- _ => inversion P; subst end;
        left; exists u; (split; [assumption|]); apply part_true; cbn in *; tauto.
  - wz. rewrite !part_true. split.
    + intros [[[[<- <-]|[<- <-]]|[[<- H]|[<- H]]]|[]].
      * apply ow_known.
      * apply ow_result.
      * destruct H as [->|[-> [->| ->]]]; [apply ow_part_known|apply ow_part_ser|apply ow_part_clone];
          try reflexivity; constructor.
      * destruct H as [->|[-> [->| ->]]]; [apply ow_part_known|apply ow_part_ser|apply ow_part_clone];
          try reflexivity; constructor.
    + intros H. inversion H; subst; try tauto;
        match goal with P : part _ _ _ _ |- _ => inversion P; subst end; cbn in *; tauto.
  - change [ASpl t; ASer f (item_of R t); ACl f (item_of R t);
            ASer f (vec_of R (item_of R t)); ACl f (vec_of R (item_of R t))]
      with ([ASpl t] ++ [ASer f (item_of R t); ACl f (item_of R t)]
            ++ [ASer f (vec_of R (item_of R t)); ACl f (vec_of R (item_of R t))]).
    rewrite !someone_app, !someone_part, !part_true. wz. split.
    + intros [[[[<- <-]|[<- <-]]|[]]|[[<- H]|[<- H]]].
      * apply ow_known.
      * apply ow_split.
      * destruct H as [->|[-> [->| ->]]]; [apply ow_part_known|apply ow_part_ser|apply ow_part_clone];
          try reflexivity; constructor.
      * destruct H as [->|[-> [->| ->]]]; [apply ow_part_known|apply ow_part_ser|apply ow_part_clone];
          try reflexivity; constructor.
    + intros H. inversion H; subst; try tauto;
        match goal with P : part _ _ _ _ |- _ => inversion P; subst end; cbn in *; tauto.
  - wz. split; [intros [[[<- <-]|[<- <-]]|[]]; [apply ow_known|constructor]|].
    intros H; inversion H; subst; try tauto; try discriminate;
      match goal with P : part _ _ _ _ |- _ => inversion P end.
  - wz. split; [intros [[[<- <-]|[<- <-]]|[]]; [apply ow_known|constructor]|].
    intros H; inversion H; subst; try tauto; try discriminate;
      match goal with P : part _ _ _ _ |- _ => inversion P end.
  - wz. split; [intros [[[<- <-]|[<- <-]]|[]]; [apply ow_known|constructor]|].
    intros H; inversion H; subst; try tauto; try discriminate;
      match goal with P : part _ _ _ _ |- _ => inversion P end.
  - wz. split; [intros [[[<- <-]|[<- <-]]|[]]; [apply ow_known|constructor]|].
    intros H; inversion H; subst; try tauto; try discriminate;
      match goal with P : part _ _ _ _ |- _ => inversion P end.
Qed.

(** An operation on a node may also make the entry of a type known *)
Lemma nop_someone_known q p o a u : someone (nop_atoms R q p o) a u ->
  nwants R o q p a u \/ (a = Known /\ (u = q \/ u = p)).
Proof.
  destruct o as [| | | | | |f|f|f| | | | |]; unfold nop_atoms;
    try (rewrite someone_app, impl_someone, vec_someone; intros [H|H]; left;
         [solve [apply nw_common_request; exact H|apply nw_common_response; exact H]
         |solve [apply nw_common_request_vec; exact H|apply nw_common_response_vec; exact H]]);
    try (wz; cbn [awants]; intros H;
         repeat match goal with
           | X : _ \/ _ |- _ => destruct X
           | X : _ /\ _ |- _ => destruct X
           | X : False |- _ => destruct X
         end; subst; tauto || (left; constructor); fail).
  all: try (change (AJoin (vec_of R p) :: ?l) with ([AJoin (vec_of R p)] ++ l)).
  all: rewrite someone_app, vec_someone, mop_someone; intros [H|H]; left;
         [eapply nw_response_vec; [reflexivity|exact H]|eapply nw_response; [reflexivity|exact H]].
Qed.

Lemma nop_someone q p o a u : nwants R o q p a u -> someone (nop_atoms R q p o) a u.
Proof.
  intros H. inversion H as [? ? ? ? X|? ? ? ? X| | |? ? ? ? X|? ? ? ? X| | |o0 o' ? ? ? ? E X|o0 o' ? ? ? ? E X| | | | |]; subst; unfold nop_atoms.
  - rewrite someone_app, impl_someone. tauto.
  - rewrite someone_app, vec_someone. tauto.
  - wz. tauto.
  - wz. tauto.
  - rewrite someone_app, impl_someone. tauto.
  - rewrite someone_app, vec_someone. tauto.
  - wz. tauto.
  - wz. tauto.
  - destruct o; try discriminate; injection E as <-; rewrite someone_cons, mop_someone; tauto.
  - destruct o; try discriminate; rewrite someone_cons; left;
      apply vec_someone in X; rewrite someone_cons, someone_nil in X; tauto.
  - wz. tauto.
  - wz. tauto.
  - wz. tauto.
  - wz. tauto.
  - wz. tauto.
Qed.

Lemma call_someone x a u : someone (atoms R x) a u <-> wants R x a u.
Proof.
  destruct x as [d s c t ops|d s c id n ops|id cf bu]; unfold atoms.
  - change (AJoin (vec_of R t) :: ?l) with ([AJoin (vec_of R t)] ++ l).
    rewrite !someone_app, impl_someone, vec_someone, someone_flat. split.
    + intros [H|[H|(o & O & H)]].
      * apply w_message. exact H.
      * apply w_message_vec. exact H.
      * apply mop_someone in H. eapply w_message_op; [exact O|exact H].
    + intros H. inversion H; subst; [tauto|tauto|]. right. right. exists o. split; [assumption|].
      apply mop_someone. assumption.
  - rewrite !someone_app, !impl_someone, someone_cons, someone_flat. cbn [awants]. rewrite w0_true. split.
    + intros [H|[H|[[]|(o & O & H)]]].
      * apply w_request. exact H.
      * apply w_response. exact H.
      * apply nop_someone_known in H as [H|[-> [->| ->]]].
        -- eapply w_node_op; [exact O|exact H].
        -- apply w_request. constructor.
        -- apply w_response. constructor.
    + intros H. inversion H; subst; [tauto|tauto|]. right. right. right. exists o. split; [assumption|].
      apply nop_someone. assumption.
  - wz. split; [tauto|]. intros H. inversion H.
Qed.

Lemma calls_someone xs a u :
  someone (flat_map (atoms R) xs) a u <-> exists x, In x xs /\ wants R x a u.
Proof.
  rewrite someone_flat. split; intros (x & I & H); exists x; (split; [exact I|]); apply call_someone; exact H.
Qed.

Lemma calls_res xs b t : In (ARes b t) (flat_map (atoms R) xs) <-> exists x, In x xs /\ asks_result b t x.
Proof.
  rewrite in_flat_map. split; intros (x & I & H); exists x; (split; [exact I|]); apply call_res; exact H.
Qed.

(** ** The claims about whole runs *)

Lemma run_good xs st : good st -> good (run R st xs).
Proof. intros G. rewrite run_runs. apply runs_good; [exact G|]. apply calls_guarded. exact G. Qed.

Lemma run_keeps xs st a u : good st -> has st a u -> has (run R st xs) a u.
Proof. intros G H. rewrite run_runs. apply runs_keep; trivial. apply calls_guarded. exact G. Qed.

Lemma run_sound xs st a u : good st -> has (run R st xs) a u ->
  has st a u \/ exists x, In x xs /\ wants R x a u.
Proof.
  intros G H. rewrite run_runs in H.
  destruct (runs_sound R _ st a u G (calls_guarded xs st G) H) as [H1|H1]; [left; exact H1|].
  right. apply calls_someone. exact H1.
Qed.

Lemma run_complete xs st a u x : good st -> (forall t, answer st ForkResult t = None) ->
  uniform_results xs -> In x xs -> wants R x a u -> has (run R st xs) a u.
Proof.
  intros G N U I W. rewrite run_runs. pose proof (calls_guarded xs st G) as K.
  assert (S : someone (flat_map (atoms R) xs) a u) by (apply calls_someone; exists x; tauto).
  destruct S as (y & Y & V).
  destruct y as [b t|b t|b t|s d t|t|t|t|t|t|t|b t|id n|id cf bu];
    try (apply (runs_complete R _ st _ a u G K Y); [discriminate|exact V]).
  apply (runs_complete_parts R _ st b t a u G K Y (N t)); [|exact V].
  intros b' Y'. apply calls_res in Y as (x1 & X1 & A1). apply calls_res in Y' as (x2 & X2 & A2).
  destruct b, b'; try reflexivity; exfalso.
  - exact (U t x1 x2 X1 X2 A1 A2).
  - exact (U t x2 x1 X2 X1 A2 A1).
Qed.

(** The parts of results are known in any case *)
Lemma runs_parts_known l : forall st b t u, good st -> guarded R st l -> In (ARes b t) l ->
  answer st ForkResult t = None -> u = ok_of R t \/ u = err_of R t -> has (runs l st) Known u.
Proof.
  induction l as [|y l IH]; intros st b t u G K I N W; [destruct I|].
  destruct K as [K1 K2]. cbn [fold_left].
  destruct (answer (run_atom R st y) ForkResult t) as [z|] eqn:E.
  - assert (Y : exists b', y = ARes b' t).
    { rewrite (atom_added R st y G K1) in E. destruct (again st y) eqn:Ag;
        [destruct (w0 ForkResult t) eqn:Z; [apply w0_true in Z as []|congruence]|].
      destruct (awants R y ForkResult t) eqn:V; [|congruence]. clear - V.
      destruct y as [b0 t0|b0 t0|b0 t0|s0 d0 t0|t0|t0|t0|t0|t0|t0|b0 t0|id n|id cf bu]; cbn [awants] in V;
        try (destruct b0); rewrite ?wor_true, ?w1_true in V;
        try (apply w0_true in V as []);
        try (exfalso; intuition congruence).
      - exfalso. destruct V as [[? _]|V]; [discriminate|apply w0_true in V as []].
      - exists true. rewrite !part_true in V. intuition congruence.
      - exists false. rewrite !part_true in V. intuition congruence. }
    destruct Y as [b' ->]. apply runs_keep; trivial; [exact (atom_good R st _ G K1)|].
    unfold has. rewrite (atom_added R st _ G K1). unfold again. rewrite N.
    assert (V : awants R (ARes b' t) Known u = true).
    { cbn [awants]. rewrite !wor_true, !part_true. destruct W as [->| ->]; tauto. }
    rewrite V. discriminate.
  - destruct I as [->|I].
    + exfalso. rewrite (atom_added R st _ G K1) in E. unfold again in E. rewrite N in E.
      assert (V : awants R (ARes b t) ForkResult t = true).
      { cbn [awants]. rewrite !wor_true, !w1_true. tauto. }
      rewrite V in E. discriminate.
    + exact (IH _ b t u (atom_good R st y G K1) K2 I E W).
Qed.

(** Without any condition: everything but serializing and cloning the parts of results *)
Lemma run_complete_others xs st a u x : good st -> (forall t, answer st ForkResult t = None) ->
  In x xs -> wants R x a u ->
  (a <> Serialize /\ a <> Clone \/
   forall b t, asks_result b t x -> u <> ok_of R t /\ u <> err_of R t) ->
  has (run R st xs) a u.
Proof.
  intros G N I W P. rewrite run_runs. pose proof (calls_guarded xs st G) as K.
  assert (S : someone (atoms R x) a u) by (apply call_someone; exact W).
  destruct S as (y & Y & V).
  assert (Y' : In y (flat_map (atoms R) xs)) by (apply in_flat_map; exists x; tauto).
  destruct y as [b t|b t|b t|s d t|t|t|t|t|t|t|b t|id n|id cf bu];
    try (apply (runs_complete R _ st _ a u G K Y'); [discriminate|exact V]).
  apply call_res in Y. cbn [awants] in V. rewrite !wor_true, !part_true in V.
  destruct V as [V|V].
  - apply (runs_complete_result R _ st b t a u G K Y'). rewrite wor_true. exact V.
  - destruct P as [[P1 P2]|P].
    + assert (a = Known) as -> by (destruct V as [[_ V]|[_ V]]; intuition congruence).
      apply (runs_parts_known _ st b t u G K Y' (N t)).
      destruct V as [[V _]|[V _]]; [left|right]; congruence.
    + destruct (P b t Y) as [P1 P2]. destruct V as [[V _]|[V _]]; congruence.
Qed.

End Rust.

Lemma blank_good j c : good (blank j c).
Proof.
  intros a u x. rewrite answer_eq. cbn. unfold upd.
  destruct (Nat.eqb_spec u t_json) as [->|N]; [|discriminate].
  destruct a; cbn; congruence.
Qed.

Lemma blank_has j c a u : has (blank j c) a u <-> a = Known /\ u = t_json.
Proof.
  unfold has. rewrite answer_eq. cbn. unfold upd.
  destruct (Nat.eqb_spec u t_json) as [->|N].
  - destruct a; cbn; split; try congruence; try (intros [? _]; congruence); try (intros _; split; reflexivity).
  - split; [congruence|tauto].
Qed.

Lemma blank_no_result j c t : answer (blank j c) ForkResult t = None.
Proof. rewrite answer_eq. cbn. unfold upd. destruct (Nat.eqb t t_json); reflexivity. Qed.
