(** * Lemmas about the registry: what each step adds *)

From Coq Require Import List Arith Bool Lia.
From Verif Require Import RegistryModel RegistrySpec.
Import ListNotations.

Definition abil_eqb (a b : ability) : bool :=
  match a, b with
  | Known, Known | Deserialize, Deserialize | Serialize, Serialize | Clone, Clone
  | Unzip, Unzip | ForkResult, ForkResult | Split, Split | Join, Join
  | BufferAccess, BufferAccess | Listen, Listen | ToString, ToString => true
  | _, _ => false
  end.

Lemma abil_eqb_eq a b : abil_eqb a b = true <-> a = b.
Proof. destruct a, b; cbn; split; congruence. Qed.

Definition gives (r : mreg) (a : ability) : option nat :=
  match a with
  | Known => Some (m_made r)
  | Deserialize => m_de r
  | Serialize => m_ser r
  | Clone => m_clone r
  | Unzip => m_unzip r
  | ForkResult => m_result r
  | Split => m_split r
  | Join => m_join r
  | BufferAccess => m_access r
  | Listen => m_listen r
  | ToString => m_string r
  end.

Lemma answer_eq st a t :
  answer st a t = match messages st t with Some r => gives r a | None => None end.
Proof.
  destruct a; cbn; unfold get_create_buffer, get_deserialize, get_serialize, get_fork_clone,
    get_unzip, get_fork_result, get_split, get_join, get_buffer_access, get_listen,
    get_to_string, field; destruct (messages st t) as [r|]; cbn; try reflexivity.
  all: match goal with |- context [match ?x with Some _ => _ | None => _ end] => destruct x; reflexivity end.
Qed.

(** Everything that is given for a type was made for that type *)
Definition good (st : state) : Prop := forall a u x, answer st a u = Some x -> x = u.

Definition w1 (a : ability) (t : nat) : ability -> nat -> bool :=
  fun b u => abil_eqb a b && Nat.eqb t u.
Definition w0 : ability -> nat -> bool := fun _ _ => false.
Definition wor (v w : ability -> nat -> bool) : ability -> nat -> bool :=
  fun a u => v a u || w a u.

Definition added (st st' : state) (w : ability -> nat -> bool) : Prop :=
  forall a u, answer st' a u = if w a u then Some u else answer st a u.

Lemma added_good st st' w : good st -> added st st' w -> good st'.
Proof.
  intros G A a u x E. rewrite A in E. destruct (w a u); [congruence|]. exact (G a u x E).
Qed.

Lemma added_trans s1 s2 s3 v w : added s1 s2 v -> added s2 s3 w -> added s1 s3 (wor v w).
Proof.
  intros A B a u. rewrite B, A. unfold wor. destruct (v a u), (w a u); reflexivity.
Qed.

Lemma added_refl st : added st st w0.
Proof. intros a u. reflexivity. Qed.

Lemma added_ext st st' v w : (forall a u, v a u = w a u) -> added st st' v -> added st st' w.
Proof. intros E A a u. rewrite <- E. apply A. Qed.

Lemma put_answer st t r a u :
  answer (put st t r) a u = if Nat.eqb u t then gives r a else answer st a u.
Proof. rewrite !answer_eq. cbn. unfold upd. destruct (Nat.eqb u t); reflexivity. Qed.

Lemma put_cloned_answer st t r c a u :
  answer (with_cloned (put st t r) c) a u = if Nat.eqb u t then gives r a else answer st a u.
Proof. rewrite !answer_eq. cbn. unfold upd. destruct (Nat.eqb u t); reflexivity. Qed.

(** What an entry gives, before anything is set *)
Lemma entry_gives st t a : good st ->
  gives (entry st t t) a = if abil_eqb Known a then Some t else answer st a t.
Proof.
  intros G. unfold entry. rewrite answer_eq. destruct (messages st t) as [r|] eqn:E.
  - destruct a; cbn; try reflexivity.
    f_equal. apply (G Known t). rewrite answer_eq, E. reflexivity.
  - destruct a; reflexivity.
Qed.

(** Setting the field of an ability *)
Lemma put_added st t r f a0 : good st ->
  (forall a, gives (f r) a = if abil_eqb a0 a then Some t else gives r a) ->
  r = entry st t t ->
  added st (put st t (f r)) (wor (w1 Known t) (w1 a0 t)).
Proof.
  intros G F -> a u. rewrite put_answer. unfold wor, w1.
  rewrite (Nat.eqb_sym t u). destruct (Nat.eqb_spec u t) as [->|N];
    [|rewrite !andb_false_r; reflexivity].
  rewrite !andb_true_r, F, (entry_gives _ _ _ G).
  destruct (abil_eqb a0 a), (abil_eqb Known a); reflexivity.
Qed.

(** The entry is only made *)
Lemma put_entry_added st t : good st ->
  added st (put st t (entry st t t)) (w1 Known t).
Proof.
  intros G a u. rewrite put_answer. unfold w1.
  rewrite (Nat.eqb_sym t u). destruct (Nat.eqb_spec u t) as [->|N];
    [|rewrite !andb_false_r; reflexivity].
  rewrite !andb_true_r, (entry_gives _ _ _ G). reflexivity.
Qed.

(** The entry is kept because the ability is already there *)
Lemma put_kept_added st t a0 x : good st ->
  gives (entry st t t) a0 = Some x ->
  added st (put st t (entry st t t)) (wor (w1 Known t) (w1 a0 t)).
Proof.
  intros G E a u. rewrite (put_entry_added st t G). unfold wor, w1.
  destruct (abil_eqb Known a && Nat.eqb t u) eqn:K; [reflexivity|]. cbn [orb].
  destruct (abil_eqb a0 a && Nat.eqb t u) eqn:H; [|reflexivity].
  apply andb_true_iff in H as [H1 H2]. apply abil_eqb_eq in H1. apply Nat.eqb_eq in H2. subst a u.
  rewrite Nat.eqb_refl, andb_true_r in K.
  rewrite (entry_gives _ _ _ G), K in E. rewrite E. f_equal. exact (G _ _ _ E).
Qed.

Ltac ability_case := intros []; reflexivity.

Lemma add_schema_gives r t a : gives (add_schema r t) a = gives r a.
Proof. unfold add_schema. destruct (m_schema r); [reflexivity|]. destruct a; reflexivity. Qed.

Lemma serialize_added b t st : good st ->
  added st (register_serialize b t st) (if b then wor (w1 Known t) (w1 Serialize t) else w0).
Proof.
  intros G. destruct b; [|apply added_refl]. cbn [register_serialize].
  apply (put_added st t (entry st t t) (fun r => add_schema (set_ser r (Some t)) t)); trivial.
  intros a. rewrite add_schema_gives. destruct a; reflexivity.
Qed.

Lemma deserialize_added b t st : good st ->
  added st (register_deserialize b t st) (if b then wor (w1 Known t) (w1 Deserialize t) else w0).
Proof.
  intros G. destruct b; [|apply added_refl]. cbn [register_deserialize].
  apply (put_added st t (entry st t t) (fun r => add_schema (set_de r (Some t)) t)); trivial.
  intros a. rewrite add_schema_gives. destruct a; reflexivity.
Qed.

Lemma clone_added b t st : good st ->
  added st (register_clone b t st) (wor (w1 Known t) (if b then w1 Clone t else w0)).
Proof.
  intros G. unfold register_clone. destruct b; cbn [negb orb].
  - destruct (m_clone (entry st t t)) as [x|] eqn:E.
    + apply (put_kept_added st t Clone x); trivial.
    + intros a u. rewrite put_cloned_answer, <- put_answer.
      apply (put_added st t (entry st t t) (fun r => set_clone r (Some t))); trivial. ability_case.
  - apply (added_ext _ _ (w1 Known t)); [|apply put_entry_added; trivial].
    intros a u. unfold wor, w0. rewrite orb_false_r. reflexivity.
Qed.

Lemma join_added t st : good st ->
  added st (register_join t st) (wor (w1 Known t) (w1 Join t)).
Proof.
  intros G. unfold register_join. destruct (m_join (entry st t t)) as [x|] eqn:E.
  - apply (put_kept_added st t Join x); trivial.
  - apply (put_added st t (entry st t t) (fun r => set_join r (Some t))); trivial. ability_case.
Qed.

Lemma access_added t st : good st ->
  added st (register_buffer_access t st) (wor (w1 Known t) (w1 BufferAccess t)).
Proof.
  intros G. unfold register_buffer_access. destruct (m_access (entry st t t)) as [x|] eqn:E.
  - apply (put_kept_added st t BufferAccess x); trivial.
  - apply (put_added st t (entry st t t) (fun r => set_access r (Some t))); trivial. ability_case.
Qed.

Lemma listen_added t st : good st ->
  added st (register_listen t st) (wor (w1 Known t) (w1 Listen t)).
Proof.
  intros G. unfold register_listen. destruct (m_listen (entry st t t)) as [x|] eqn:E.
  - apply (put_kept_added st t Listen x); trivial.
  - apply (put_added st t (entry st t t) (fun r => set_listen r (Some t))); trivial. ability_case.
Qed.

Lemma string_added t st : good st ->
  added st (register_to_string t st) (wor (w1 Known t) (w1 ToString t)).
Proof.
  intros G. unfold register_to_string.
  apply (put_added st t (entry st t t) (fun r => set_string r (Some t))); trivial. ability_case.
Qed.

Lemma json_added s d t st : added st (register_json s d t st) w0.
Proof.
  intros a u. unfold register_json, w0. destruct (s && d); [|reflexivity].
  rewrite !answer_eq. reflexivity.
Qed.

(** ** Calls as sequences of small steps *)

Inductive atom :=
| ASer (b : bool) (t : nat)
| ADe (b : bool) (t : nat)
| ACl (b : bool) (t : nat)
| AJson (s d : bool) (t : nat)
| AJoin (t : nat)
| AAcc (t : nat)
| ALis (t : nat)
| AStr (t : nat)
| AUnz (t : nat)
| ASpl (t : nat)
| ARes (b : bool) (t : nat)
| ANode (id : nat) (n : nreg)
| ASec (id config builder : nat).

Section Rust.
Context (R : rust).

Definition run_atom (st : state) (x : atom) : state :=
  match x with
  | ASer b t => register_serialize b t st
  | ADe b t => register_deserialize b t st
  | ACl b t => register_clone b t st
  | AJson s d t => register_json s d t st
  | AJoin t => register_join t st
  | AAcc t => register_buffer_access t st
  | ALis t => register_listen t st
  | AStr t => register_to_string t st
  | AUnz t => let r := entry st t t in
              match m_unzip r with Some _ => put st t r | None => put st t (set_unzip r (Some t)) end
  | ASpl t => put st t (set_split (entry st t t) (Some t))
  | ARes b t => register_result R b t st
  | ANode id n => with_nodes st (upd (nodes st) id (Some n))
  | ASec id config builder => register_section id config builder st
  end.

Definition mop_atoms (t : nat) (o : mop) : list atom :=
  match o with
  | WithUnzip b => flat_map (fun p => [ASer b p; ACl b p]) (parts_of R t) ++ [AUnz t]
  | WithResult b => [ARes b t]
  | WithSplit b => [ASpl t; ASer b (item_of R t); ACl b (item_of R t);
                    ASer b (vec_of R (item_of R t)); ACl b (vec_of R (item_of R t))]
  | WithJoin => [AJoin t]
  | WithBufferAccess => [AAcc t]
  | WithListen => [ALis t]
  | WithToString => [AStr t]
  end.

Definition impl_atoms (d s c : bool) (t : nat) : list atom :=
  [ADe d t; ASer s t; ACl c t; AJson s d t].

Definition nop_atoms (q p : nat) (o : nop) : list atom :=
  match o with
  | NCommonRequest => impl_atoms true true true q ++ [AJoin (vec_of R q)]
  | NCloneRequest => [ACl true q]
  | NDeserializeRequest => [ADe true q]
  | NCommonResponse => impl_atoms true true true p ++ [AJoin (vec_of R p)]
  | NCloneResponse => [ACl true p]
  | NSerializeResponse => [ASer true p]
  | NUnzip b => AJoin (vec_of R p) :: mop_atoms p (WithUnzip b)
  | NResult b => AJoin (vec_of R p) :: mop_atoms p (WithResult b)
  | NSplit b => AJoin (vec_of R p) :: mop_atoms p (WithSplit b)
  | NJoin => [AJoin q]
  | NBufferAccess => [AAcc q]
  | NListen => [ALis q]
  | NRequestToString => [AStr q]
  | NResponseToString => [AStr p]
  end.

Definition atoms (x : call) : list atom :=
  match x with
  | CMessage d s c t ops =>
      impl_atoms d s c t ++ AJoin (vec_of R t) :: flat_map (mop_atoms t) ops
  | CNode d s c id n ops =>
      impl_atoms d s c (n_request n) ++ impl_atoms d s c (n_response n)
      ++ ANode id n :: flat_map (nop_atoms (n_request n) (n_response n)) ops
  | CSection id config builder => [ASec id config builder]
  end.

Notation runs := (fold_left run_atom).

Lemma unzip_runs b l st :
  fold_left (fun st p => register_clone b p (register_serialize b p st)) l st
  = runs (flat_map (fun p => [ASer b p; ACl b p]) l) st.
Proof. revert st. induction l as [|p l IH]; intros st; cbn; [reflexivity|]. apply IH. Qed.

Lemma mop_runs t o st : run_mop R t st o = runs (mop_atoms t o) st.
Proof.
  destruct o; try reflexivity. cbn [run_mop mop_atoms]. rewrite fold_left_app.
  unfold register_unzip, unzip_on_register. rewrite unzip_runs. reflexivity.
Qed.

Lemma mops_runs t ops st : fold_left (run_mop R t) ops st = runs (flat_map (mop_atoms t) ops) st.
Proof.
  revert st. induction ops as [|o ops IH]; intros st; [reflexivity|].
  cbn [fold_left flat_map]. rewrite fold_left_app, IH, mop_runs. reflexivity.
Qed.

Lemma nop_runs q p o st : run_nop R q p st o = runs (nop_atoms q p o) st.
Proof.
  destruct o; try reflexivity; cbn [run_nop nop_atoms];
    rewrite mop_runs; reflexivity.
Qed.

Lemma nops_runs q p ops st :
  fold_left (run_nop R q p) ops st = runs (flat_map (nop_atoms q p) ops) st.
Proof.
  revert st. induction ops as [|o ops IH]; intros st; [reflexivity|].
  cbn [fold_left flat_map]. rewrite fold_left_app, IH, nop_runs. reflexivity.
Qed.

Lemma call_runs x st : run_call R st x = runs (atoms x) st.
Proof.
  destruct x as [d s c t ops|d s c id n ops|]; [| |reflexivity]; cbn [run_call atoms].
  - rewrite mops_runs, fold_left_app. reflexivity.
  - rewrite nops_runs, !fold_left_app. reflexivity.
Qed.

Lemma run_runs xs st : run R st xs = runs (flat_map atoms xs) st.
Proof.
  revert st. induction xs as [|x xs IH]; intros st; [reflexivity|].
  cbn [flat_map]. rewrite fold_left_app, <- call_runs, <- IH. reflexivity.
Qed.

(** ** What each small step adds *)

Definition part2 (b : bool) (t : nat) : ability -> nat -> bool :=
  wor (if b then wor (w1 Known t) (w1 Serialize t) else w0)
      (wor (w1 Known t) (if b then w1 Clone t else w0)).

Definition awants (x : atom) : ability -> nat -> bool :=
  match x with
  | ASer b t => if b then wor (w1 Known t) (w1 Serialize t) else w0
  | ADe b t => if b then wor (w1 Known t) (w1 Deserialize t) else w0
  | ACl b t => wor (w1 Known t) (if b then w1 Clone t else w0)
  | AJson _ _ _ => w0
  | AJoin t => wor (w1 Known t) (w1 Join t)
  | AAcc t => wor (w1 Known t) (w1 BufferAccess t)
  | ALis t => wor (w1 Known t) (w1 Listen t)
  | AStr t => wor (w1 Known t) (w1 ToString t)
  | AUnz t => wor (w1 Known t) (w1 Unzip t)
  | ASpl t => wor (w1 Known t) (w1 Split t)
  | ARes b t => wor (wor (w1 Known t) (w1 ForkResult t))
                    (wor (part2 b (ok_of R t)) (part2 b (err_of R t)))
  | ANode _ _ | ASec _ _ _ => w0
  end.

(** Forking a result again adds nothing *)
Definition again (st : state) (x : atom) : bool :=
  match x with
  | ARes _ t => match answer st ForkResult t with Some _ => true | None => false end
  | _ => false
  end.

Definition guard (st : state) (x : atom) : Prop :=
  match x with ARes _ t => has st Known t | _ => True end.

Lemma entry_made st t m : has st Known t -> entry st t m = entry st t t.
Proof.
  unfold has, entry. rewrite answer_eq. destruct (messages st t); [reflexivity|].
  intros H. exfalso. apply H. reflexivity.
Qed.

Lemma atom_added st x : good st -> guard st x ->
  added st (run_atom st x) (if again st x then w0 else awants x).
Proof.
  intros G K. destruct x as [b t|b t|b t|s d t|t|t|t|t|t|t|b t|id n|id cf bu];
    cbn [run_atom again awants].
  - apply serialize_added; trivial.
  - apply deserialize_added; trivial.
  - apply clone_added; trivial.
  - apply json_added.
  - apply join_added; trivial.
  - apply access_added; trivial.
  - apply listen_added; trivial.
  - apply string_added; trivial.
  - destruct (m_unzip (entry st t t)) as [y|] eqn:E.
    + apply (put_kept_added st t Unzip y); trivial.
    + apply (put_added st t (entry st t t) (fun r => set_unzip r (Some t))); trivial. ability_case.
  - apply (put_added st t (entry st t t) (fun r => set_split r (Some t))); trivial. ability_case.
  - cbn [guard] in K. unfold register_result. rewrite (entry_made st t (ok_of R t) K).
    cbn zeta.
    assert (E : answer st ForkResult t = m_result (entry st t t)).
    { pose proof (entry_gives st t ForkResult G) as H. cbn in H. symmetry. exact H. }
    rewrite E. destruct (m_result (entry st t t)) as [y|] eqn:E'.
    + intros a u. rewrite (put_entry_added st t G). unfold w1, w0.
      destruct (abil_eqb Known a && Nat.eqb t u) eqn:H; [|reflexivity].
      apply andb_true_iff in H as [H1 H2]. apply abil_eqb_eq in H1. apply Nat.eqb_eq in H2. subst a u.
      unfold has in K. destruct (answer st Known t) as [z|] eqn:Z; [|congruence].
      f_equal. symmetry. exact (G _ _ _ Z).
    + set (s1 := put st t (set_result (entry st t t) (Some t))).
      assert (A1 : added st s1 (wor (w1 Known t) (w1 ForkResult t))).
      { apply (put_added st t (entry st t t) (fun r => set_result r (Some t))); trivial. ability_case. }
      pose proof (added_good _ _ _ G A1) as G1.
      pose proof (serialize_added b (ok_of R t) s1 G1) as A2.
      pose proof (added_good _ _ _ G1 A2) as G2.
      pose proof (clone_added b (ok_of R t) _ G2) as A3.
      pose proof (added_good _ _ _ G2 A3) as G3.
      pose proof (serialize_added b (err_of R t) _ G3) as A4.
      pose proof (added_good _ _ _ G3 A4) as G4.
      pose proof (clone_added b (err_of R t) _ G4) as A5.
      eapply added_ext; [|exact (added_trans _ _ _ _ _ A1
        (added_trans _ _ _ _ _ (added_trans _ _ _ _ _ A2 A3) (added_trans _ _ _ _ _ A4 A5)))].
      reflexivity.
  - intros a u. rewrite !answer_eq. reflexivity.
  - intros a u. rewrite !answer_eq. reflexivity.
Qed.

(** ** Sequences of small steps *)

Fixpoint guarded (st : state) (l : list atom) : Prop :=
  match l with
  | [] => True
  | x :: l => guard st x /\ guarded (run_atom st x) l
  end.

Lemma added_has st st' w a u : added st st' w -> has st a u -> has st' a u.
Proof. intros A H. unfold has. rewrite A. destruct (w a u); [discriminate|exact H]. Qed.

Lemma atom_good st x : good st -> guard st x -> good (run_atom st x).
Proof. intros G K. exact (added_good _ _ _ G (atom_added st x G K)). Qed.

Lemma runs_good l : forall st, good st -> guarded st l -> good (runs l st).
Proof.
  induction l as [|x l IH]; intros st G K; [exact G|]. destruct K as [K1 K2]. cbn [fold_left].
  exact (IH _ (atom_good st x G K1) K2).
Qed.

Lemma runs_keep l : forall st a u, good st -> guarded st l -> has st a u -> has (runs l st) a u.
Proof.
  induction l as [|x l IH]; intros st a u G K H; [exact H|]. destruct K as [K1 K2]. cbn [fold_left].
  exact (IH _ a u (atom_good st x G K1) K2 (added_has _ _ _ _ _ (atom_added st x G K1) H)).
Qed.

Lemma guarded_app l l' st : guarded st (l ++ l') <-> guarded st l /\ guarded (runs l st) l'.
Proof.
  revert st. induction l as [|x l IH]; intros st; cbn [app guarded fold_left]; [tauto|].
  rewrite IH. tauto.
Qed.

(** Only what was wanted is there *)
Lemma runs_sound l : forall st a u, good st -> guarded st l -> has (runs l st) a u ->
  has st a u \/ exists x, In x l /\ awants x a u = true.
Proof.
  induction l as [|x l IH]; intros st a u G K H; [left; exact H|].
  destruct K as [K1 K2]. cbn [fold_left] in H.
  destruct (IH _ a u (atom_good st x G K1) K2 H) as [H1|(y & Y1 & Y2)].
  - unfold has in H1. rewrite (atom_added st x G K1) in H1.
    destruct (again st x); [left; exact H1|].
    destruct (awants x a u) eqn:E; [|left; exact H1].
    right. exists x. split; [left; reflexivity|exact E].
  - right. exists y. split; [right; exact Y1|exact Y2].
Qed.

(** What was wanted by a step that is not repeated forking is there *)
Lemma runs_complete l : forall st x a u, good st -> guarded st l -> In x l ->
  (forall b t, x <> ARes b t) -> awants x a u = true -> has (runs l st) a u.
Proof.
  induction l as [|y l IH]; intros st x a u G K I N W; [destruct I|].
  destruct K as [K1 K2]. cbn [fold_left]. destruct I as [->|I].
  - apply runs_keep; trivial; [exact (atom_good st x G K1)|].
    unfold has. rewrite (atom_added st x G K1).
    assert (again st x = false) as -> by (destruct x; try reflexivity; exfalso; eapply N; reflexivity).
    rewrite W. discriminate.
  - exact (IH _ x a u (atom_good st y G K1) K2 I N W).
Qed.

(** Forking results: everything but the abilities of the parts *)
Lemma runs_complete_result l : forall st b t a u, good st -> guarded st l -> In (ARes b t) l ->
  (wor (w1 Known t) (w1 ForkResult t)) a u = true -> has (runs l st) a u.
Proof.
  induction l as [|y l IH]; intros st b t a u G K I W; [destruct I|].
  destruct K as [K1 K2]. cbn [fold_left]. destruct I as [->|I].
  - apply runs_keep; trivial; [exact (atom_good st _ G K1)|].
    unfold has. rewrite (atom_added st _ G K1). unfold again.
    destruct (answer st ForkResult t) as [z|] eqn:E.
    + unfold w0. unfold wor, w1 in W. apply orb_true_iff in W as [W|W];
        apply andb_true_iff in W as [W1 W2]; apply abil_eqb_eq in W1; apply Nat.eqb_eq in W2; subst a u.
      * exact K1.
      * rewrite E. discriminate.
    + cbn [awants]. unfold wor at 1. rewrite W. discriminate.
  - exact (IH _ b t a u (atom_good st y G K1) K2 I W).
Qed.

(** The parts, if all requests for results of this type are of the same kind *)
Lemma runs_complete_parts l : forall st b t a u, good st -> guarded st l -> In (ARes b t) l ->
  (answer st ForkResult t = None) ->
  (forall b', In (ARes b' t) l -> b' = b) ->
  awants (ARes b t) a u = true -> has (runs l st) a u.
Proof.
  induction l as [|y l IH]; intros st b t a u G K I N U W; [destruct I|].
  destruct K as [K1 K2]. cbn [fold_left].
  destruct (answer (run_atom st y) ForkResult t) as [z|] eqn:E.
  - assert (Y : y = ARes b t).
    { rewrite (atom_added st y G K1) in E. destruct (again st y) eqn:Ag; [unfold w0 in E; congruence|].
      destruct (awants y ForkResult t) eqn:V; [|congruence].
      assert (exists b', y = ARes b' t) as [b' ->].
      { clear - V. destruct y as [b0 t0|b0 t0|b0 t0|s0 d0 t0|t0|t0|t0|t0|t0|t0|b0 t0|id n|id cf bu]; cbn in V;
          try (destruct b0); cbn in V; try discriminate.
        - exists true. apply orb_true_iff in V as [V|V].
          + unfold wor, w1 in V. cbn in V. apply Nat.eqb_eq in V. subst. reflexivity.
          + unfold wor, part2, wor, w1 in V. cbn in V. discriminate.
        - exists false. apply orb_true_iff in V as [V|V].
          + unfold wor, w1 in V. cbn in V. apply Nat.eqb_eq in V. subst. reflexivity.
          + unfold wor, part2, wor, w1, w0 in V. cbn in V. discriminate. }
      rewrite (U b' (or_introl eq_refl)). reflexivity. }
    subst y. apply runs_keep; trivial; [exact (atom_good st _ G K1)|].
    unfold has. rewrite (atom_added st _ G K1). unfold again. rewrite N, W. discriminate.
  - destruct I as [->|I].
    + exfalso. rewrite (atom_added st _ G K1) in E. unfold again in E. rewrite N in E.
      cbn [awants] in E. unfold wor, w1 in E. cbn in E. rewrite Nat.eqb_refl in E. discriminate.
    + apply (IH _ b t a u (atom_good st y G K1) K2 I E); trivial.
      intros b' I'. apply U. right. exact I'.
Qed.

End Rust.
