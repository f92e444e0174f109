(** The connect phase: what one connector does with one output. *)
From Verif Require Import Base DiagramModel DiagramSpec.

(** ** Maps *)

Definition waits (m : list (opref * list output)) (r : opref) (o : output) : Prop :=
  exists os, In (r, os) m /\ In o os.

Lemma waits_app m1 m2 r o : waits (m1 ++ m2) r o <-> waits m1 r o \/ waits m2 r o.
Proof.
  unfold waits. split.
  - intros (os & Hin & Ho). apply in_app_iff in Hin as [H|H]; eauto.
  - intros [(os & H & Ho)|(os & H & Ho)]; exists os; split; auto; apply in_app_iff; auto.
Qed.

Lemma waits_cons r os m r' o : waits ((r, os) :: m) r' o <-> (r = r' /\ In o os) \/ waits m r' o.
Proof.
  unfold waits. split.
  - intros (os' & [E|Hin] & Ho); [injection E as -> ->; auto|eauto].
  - intros [[-> Ho]|(os' & Hin & Ho)]; eexists; split; eauto; cbn; auto.
Qed.

Lemma waits_nil r o : ~ waits [] r o.
Proof. intros (os & [] & _). Qed.

Lemma waits_push m r o r' o' : waits (push m r o) r' o' <-> waits m r' o' \/ (r' = r /\ o' = o).
Proof.
  induction m as [|[r1 os] m IH]; cbn.
  - rewrite waits_cons. cbn. split; [intros [[-> [->|[]]]|H]; auto; destruct (waits_nil _ _ H)|].
    intros [H|[-> ->]]; [destruct (waits_nil _ _ H)|auto].
  - destruct (opref_eq_dec r r1) as [E|N]; rewrite !waits_cons.
    + subst r1. rewrite in_app_iff. cbn. split; intuition (subst; auto).
    + rewrite IH. intuition.
Qed.

Lemma keys_push {A} (m : list (opref * list A)) r o :
  NoDup (map fst m) -> NoDup (map fst (push m r o)).
Proof.
  induction m as [|[r1 os] m IH]; cbn; intros ND; [repeat constructor; cbn; tauto|].
  destruct (opref_eq_dec r r1) as [E|N]; [exact ND|].
  cbn. apply NoDup_cons_iff in ND as [N1 ND]. constructor; [|auto].
  intros H. apply N1. clear - H N. induction m as [|[r2 os2] m IHm]; cbn in *; [destruct H as [->|[]]; congruence|].
  destruct (opref_eq_dec r r2) as [E|N2]; cbn in *; intuition.
Qed.

Lemma keys_put {A} (m : list (opref * A)) r a x :
  In x (map fst (put m r a)) <-> x = r \/ In x (map fst m).
Proof.
  induction m as [|[r1 os] m IH]; cbn; [intuition|].
  destruct (opref_eq_dec r r1) as [E|N]; cbn; [subst; intuition|]. rewrite IH. intuition.
Qed.

Lemma keys_put_NoDup {A} (m : list (opref * A)) r a : NoDup (map fst m) -> NoDup (map fst (put m r a)).
Proof.
  induction m as [|[r1 os] m IH]; cbn; intros ND; [repeat constructor; cbn; tauto|].
  apply NoDup_cons_iff in ND as [N1 ND].
  destruct (opref_eq_dec r r1) as [E|N]; cbn; [subst; constructor; auto|].
  constructor; [|auto]. rewrite keys_put. intros [H|H]; [congruence|auto].
Qed.

Lemma look_put {A} (m : list (opref * A)) r a r' :
  look (put m r a) r' = if opref_eq_dec r' r then Some a else look m r'.
Proof.
  induction m as [|[r1 b] m IH]; cbn.
  - destruct (opref_eq_dec r' r); auto.
  - destruct (opref_eq_dec r r1) as [E|N]; cbn.
    + subst r1. destruct (opref_eq_dec r' r); auto.
    + rewrite IH. destruct (opref_eq_dec r' r1) as [E|]; auto.
      destruct (opref_eq_dec r' r); auto. congruence.
Qed.

Lemma look_In {A} (m : list (opref * A)) r a : look m r = Some a -> In (r, a) m.
Proof.
  induction m as [|[r1 b] m IH]; cbn; [discriminate|].
  destruct (opref_eq_dec r r1) as [E|]; [intros [= ->]; subst; auto|auto].
Qed.

Lemma look_None {A} (m : list (opref * A)) r : look m r = None <-> ~ In r (map fst m).
Proof.
  induction m as [|[r1 b] m IH]; cbn; [tauto|].
  destruct (opref_eq_dec r r1) as [E|N]; [split; [discriminate|intros H; destruct H; auto]|].
  rewrite IH. intuition.
Qed.

Lemma In_look {A} (m : list (opref * A)) r a : NoDup (map fst m) -> In (r, a) m -> look m r = Some a.
Proof.
  induction m as [|[r1 b] m IH]; cbn; [tauto|]. intros ND Hin. apply NoDup_cons_iff in ND as [N1 ND].
  destruct (opref_eq_dec r r1) as [E|N].
  - destruct Hin as [[= _ ->]|Hin]; [auto|]. subst. destruct N1. apply in_map_iff. exists (r1, a). auto.
  - destruct Hin as [[= -> _]|Hin]; [congruence|auto].
Qed.

Lemma find_In {A} k (l : list (nat * A)) a : find k l = Some a -> In (k, a) l.
Proof.
  induction l as [|[k1 b] l IH]; cbn; [discriminate|].
  destruct (Nat.eqb_spec k k1) as [E|]; [intros [= ->]; subst; auto|auto].
Qed.

(** ** Changes which only connect *)

Record frame (P : entry -> Prop) (c c' : con) : Prop := {
  f_conns : c_conns c' = c_conns c;
  f_outs : c_outs c' = c_outs c;
  f_bufs : c_bufs c' = c_bufs c;
  f_hints : c_hints c' = c_hints c;
  f_gen : c_gen c' = c_gen c;
  f_next : c_next c <= c_next c';
  f_log : exists l, c_log c' = c_log c ++ l /\ (forall e, In e l -> P e);
  f_keep : forall r o, waits (c_new c) r o -> waits (c_new c') r o;
  f_pass : forall r o, In (LPass r o) (c_log c') -> In (LPass r o) (c_log c) \/ waits (c_new c') r o;
  f_from : forall r o, waits (c_new c') r o -> waits (c_new c) r o \/ In (LPass r o) (c_log c');
  f_keys : NoDup (map fst (c_new c)) -> NoDup (map fst (c_new c'))
}.

Lemma frame_refl (P : entry -> Prop) c : frame P c c.
Proof. constructor; auto. exists []. rewrite app_nil_r. split; [auto|intros e []]. Qed.

Lemma frame_in (P : entry -> Prop) c c' e : frame P c c' -> In e (c_log c) -> In e (c_log c').
Proof. intros F H. destruct (f_log _ _ _ F) as (l & -> & _). apply in_app_iff; auto. Qed.

Lemma frame_new (P : entry -> Prop) c c' e : frame P c c' -> In e (c_log c') -> In e (c_log c) \/ P e.
Proof. intros F H. destruct (f_log _ _ _ F) as (l & E & HP). rewrite E, in_app_iff in H. destruct H; auto. Qed.

Lemma frame_trans (P : entry -> Prop) c1 c2 c3 : frame P c1 c2 -> frame P c2 c3 -> frame P c1 c3.
Proof.
  intros F1 F2. pose proof (fun e => frame_in P c2 c3 e F2) as Hin.
  destruct F1 as [a1 b1 d1 e1 g1 n1 (l1 & L1 & P1) k1 p1 fr1 q1], F2 as [a2 b2 d2 e2 g2 n2 (l2 & L2 & P2) k2 p2 fr2 q2].
  constructor; try congruence; try lia; auto.
  - exists (l1 ++ l2). split; [rewrite L2, L1, app_assoc; auto|].
    intros e H. apply in_app_iff in H as [H|H]; auto.
  - intros r o H. destruct (p2 r o H) as [H1|H1]; [|auto]. destruct (p1 r o H1); auto.
  - intros r o H. destruct (fr2 r o H) as [H1|H1]; [|auto]. destruct (fr1 r o H1); auto.
Qed.

Lemma frame_weak (P Q : entry -> Prop) c c' : (forall e, P e -> Q e) -> frame P c c' -> frame Q c c'.
Proof.
  intros H F. destruct F as [a b d e g n (l & L & PP) k p fr q]. constructor; auto. exists l. split; auto.
Qed.

Lemma frame_note (P : entry -> Prop) e c : P e -> (forall r o, e <> LPass r o) -> frame P c (note e c).
Proof.
  intros HP HN. constructor; cbn; auto.
  - exists [e]. split; [auto|]. intros x [<-|[]]. auto.
  - intros r o H. apply in_app_iff in H as [H|[H|[]]]; [auto|]. destruct (HN r o H).
Qed.

Lemma frame_next (P : entry -> Prop) n c : c_next c <= n -> frame P c (set_next n c).
Proof. intros H. constructor; cbn; auto. exists []. rewrite app_nil_r. split; [auto|intros e []]. Qed.

Lemma frame_pass (P : entry -> Prop) r o c : P (LPass r o) -> frame P c (pass_output r o c).
Proof.
  intros HP. constructor; cbn; auto.
  - exists [LPass r o]. split; [auto|]. intros x [<-|[]]. auto.
  - intros r' o' H. apply waits_push. auto.
  - intros r' o' H. apply in_app_iff in H as [H|[H|[]]]; [auto|]. injection H as <- <-. right.
    apply waits_push. auto.
  - intros r' o' H. apply waits_push in H as [H|[-> ->]]; [auto|]. right. apply in_app_iff. cbn. auto.
  - apply keys_push.
Qed.

Ltac inn :=
  match goal with
  | H : In ?e ?l |- In ?e ?l => exact H
  | F : frame _ ?a ?c, H : In ?e (c_log ?a) |- In ?e (c_log ?c) => exact (frame_in _ _ _ _ F H)
  end.

(** The entries which connecting one output can write *)
Section Connecting.
Variable g : registry.

Definition quiet (e : entry) : Prop :=
  match e with
  | LPass _ _ => True
  | LConnect o s => o_ty o = s_ty s
  | LConv k i out er => allowed g k i out er
  | _ => False
  end.

Definition cache (k : conv) (log : list entry) (s : slot) (inc : list (nat * slot)) : Prop :=
  forall ty i, In (ty, i) inc ->
    s_ty i = ty /\ exists out er, In (LConv k i out er) log /\ In (LConnect out s) log.

Definition std_wf (log : list entry) (x : std) : Prop :=
  match x with
  | SSer s inc => s_ty s = TJson /\ cache CSerialize log s inc
  | SDe s ser =>
      match ser with
      | Some i => s_ty i = TJson /\ exists out er, In (LConv CDeserialize i out er) log /\ In (LConnect out s) log
      | None => True
      end
  | SBasic s => True
  end.

Lemma cache_mono k log log' s inc : (forall e, In e log -> In e log') -> cache k log s inc -> cache k log' s inc.
Proof. intros H C ty i Hi. destruct (C ty i Hi) as (E & out & er & A & B). split; [auto|]. exists out, er. auto. Qed.

Lemma std_wf_mono log log' x : (forall e, In e log -> In e log') -> std_wf log x -> std_wf log' x.
Proof.
  intros H. destruct x as [s inc|s [i|]|s]; cbn; auto.
  - intros [E C]. split; [auto|]. eapply cache_mono; eauto.
  - intros (E & out & er & A & B). split; [auto|]. exists out, er. auto.
Qed.

(** [o] reaches [s] the way the types ask for *)
Definition reaches (log : list entry) (o : output) (s : slot) : Prop :=
  direct log o s \/ (converted log o s /\ o_ty o <> s_ty s).

Lemma reaches_mono log log' o s : (forall e, In e log -> In e log') -> reaches log o s -> reaches log' o s.
Proof.
  intros H [(E & A)|((k & i & out & er & A & B & C) & N)]; [left; split; auto|right; split; [|auto]].
  exists k, i, out, er. auto.
Qed.

(** Every new connection of a conversion or of [o] *)
Definition linked (imp : opref) (c c' : con) (o : output) (ss : list slot) : Prop :=
 (forall r' o', In (LPass r' o') (c_log c') ->
    In (LPass r' o') (c_log c) \/ (r' = imp /\ exists k i ok, In (LConv k i ok (Some o')) (c_log c'))) /\
  forall o' s', In (LConnect o' s') (c_log c') ->
    In (LConnect o' s') (c_log c) \/
    (exists k i er, In (LConv k i o' er) (c_log c') /\ exists s, In s ss /\ s' = s) \/
    (o' = o /\ exists s, In s ss /\ (s' = s \/ exists k out er, In (LConv k s' out er) (c_log c') /\ In (LConnect out s) (c_log c'))).

Lemma connect_to_ok o s c c' : connect_to o s c = inl c' -> o_ty o = s_ty s /\ c' = note (LConnect o s) c.
Proof. unfold connect_to. destruct (Nat.eqb_spec (o_ty o) (s_ty s)); [intros [= <-]; auto|discriminate]. Qed.

Lemma connect_to_frame o s c c' : connect_to o s c = inl c' -> frame quiet c c' /\ In (LConnect o s) (c_log c').
Proof.
  intros H. apply connect_to_ok in H as [E ->]. split.
  - apply frame_note; [exact E|discriminate].
  - cbn. apply in_app_iff. cbn. auto.
Qed.

Lemma connect_to_linked imp o s c c' : connect_to o s c = inl c' -> linked imp c c' o [s].
Proof.
  intros H. apply connect_to_ok in H as [E ->]. split.
  { intros r' o' Hin. cbn in Hin. apply in_app_iff in Hin as [H|[H|[]]]; [auto|discriminate]. }
  intros o' s' Hin. cbn in Hin.
  apply in_app_iff in Hin as [H|[H|[]]]; [auto|]. injection H as <- <-.
  right; right. split; [auto|]. exists s. cbn. auto.
Qed.

Lemma try_serialize_ok imp sc s inc o c c' inc' :
  try_serialize g imp sc s inc o c = inl (c', Some inc') ->
  s_ty s = TJson -> cache CSerialize (c_log c) s inc ->
  frame quiet c c' /\ cache CSerialize (c_log c') s inc' /\ reaches (c_log c') o s /\ linked imp c c' o [s].
Proof.
  unfold try_serialize. intros H Es C.
  destruct (Nat.eqb_spec (o_ty o) TJson) as [Eo|No].
  - destruct (connect_to o s c) as [c1|e] eqn:Ec; [|discriminate]. injection H as <- <-.
    destruct (connect_to_frame _ _ _ _ Ec) as [F Hin]. split; [auto|split; [|split]].
    + eapply cache_mono; [|exact C]. intros e. eapply frame_in; eauto.
    + left. split; [congruence|auto].
    + eapply connect_to_linked; eauto.
  - destruct (find (o_ty o) inc) as [i|] eqn:Ef.
    + destruct (connect_to o i c) as [c1|e] eqn:Ec; [|discriminate]. injection H as <- <-.
      destruct (connect_to_frame _ _ _ _ Ec) as [F Hin].
      destruct (C _ _ (find_In _ _ _ Ef)) as (Ei & out & er & A & B).
      split; [auto|split; [|split]].
      * eapply cache_mono; [|exact C]. intros e. eapply frame_in; eauto.
      * right. split; [|congruence]. exists CSerialize, i, out, er.
        split; [auto|split; inn].
      * apply connect_to_ok in Ec as [E ->]. split; [intros r' o' H; cbn in H; apply in_app_iff in H as [H|[H|[]]]; [auto|discriminate]|]. intros o' s' H. cbn in H.
        apply in_app_iff in H as [H|[H|[]]]; [auto|]. injection H as <- <-. right; right. split; [auto|].
        exists s. split; [cbn; auto|]. right. exists CSerialize, out, er. split; inn.
    + destruct (r_ser g (o_ty o)) eqn:Er; [|discriminate].
      cbn in H. set (i := {| s_id := c_next c; s_ty := o_ty o; s_scope := sc |}) in *.
      set (ok := {| o_id := S (c_next c); o_ty := TJson; o_scope := sc |}) in *.
      set (er := {| o_id := S (S (c_next c)); o_ty := TString; o_scope := sc |}) in *.
      match type of H with context [connect_to ok s ?x] => set (c1 := x) in *; destruct (connect_to ok s c1) as [c2|e] eqn:E2; [|discriminate] end.
      match type of H with context [connect_to o i ?x] => set (c3 := x) in *; destruct (connect_to o i c3) as [c4|e] eqn:E4; [|discriminate] end.
      injection H as <- <-.
      assert (F1 : frame quiet c c1).
      { eapply frame_trans; [apply (frame_next _ (S (S (S (c_next c)))) c); cbn; lia|].
        apply frame_note; [|discriminate]. cbn. eauto. }
      assert (H1 : In (LConv CSerialize i ok (Some er)) (c_log c1)) by (cbn; apply in_app_iff; cbn; auto).
      destruct (connect_to_frame _ _ _ _ E2) as [F2 H2].
      assert (F3 : frame quiet c2 c3) by (apply frame_pass; exact I).
      destruct (connect_to_frame _ _ _ _ E4) as [F4 H4].
      assert (F34 : frame quiet c2 c4) by (eapply frame_trans; eauto).
      assert (F14 : frame quiet c1 c4) by (eapply frame_trans; eauto).
      assert (F : frame quiet c c4) by (eapply frame_trans; eauto).
      split; [auto|split; [|split]].
      * intros ty j [Hj|Hj].
        -- injection Hj as <- <-. split; [reflexivity|]. exists ok, (Some er). split; inn.
        -- destruct (C ty j Hj) as (E & out & er' & A & B). split; [auto|]. exists out, er'. split; inn.
      * right. split; [|congruence]. exists CSerialize, i, ok, (Some er).
        split; [auto|split; inn].
      * split; [|intros o' s' Hin; apply connect_to_ok in E4 as [_ E4]; rewrite E4 in Hin; cbn in Hin].
        { intros r' o' Hin. destruct (f_pass _ _ _ F4 r' o') as [H|H]; auto; [|].
          all: apply connect_to_ok in E4 as [_ E4']; apply connect_to_ok in E2 as [_ E2']; rewrite E4' in Hin; cbn in Hin;
            rewrite E2' in Hin; cbn in Hin; rewrite !in_app_iff in Hin; cbn in Hin.
          all: destruct Hin as [[[[Hin|[Hin|[]]]|[Hin|[]]]|[Hin|[]]]|[Hin|[]]]; try discriminate; auto.
          all: injection Hin as <- <-; right; split; [auto|]; first [exists CSerialize, i, ok; inn|exists CDeserialize, i, ok; inn]. }
        apply in_app_iff in Hin as [Hin|[Hin|[]]].
        -- apply in_app_iff in Hin as [Hin|[Hin|[]]]; [|discriminate].
           apply connect_to_ok in E2 as [_ E2]. rewrite E2 in Hin. cbn in Hin.
           apply in_app_iff in Hin as [Hin|[Hin|[]]].
           ++ apply in_app_iff in Hin as [Hin|[Hin|[]]]; [auto|discriminate].
           ++ injection Hin as <- <-. right; left. exists CSerialize, i, (Some er).
              split; [inn|]. exists s. cbn. auto.
        -- injection Hin as <- <-. right; right. split; [auto|]. exists s. split; [cbn; auto|].
           right. exists CSerialize, ok, (Some er). split; inn.
Qed.

Lemma deserialize_ok imp sc s ser o c c' ser' :
  deserialize g imp sc s ser o c = inl (c', ser') ->
  std_wf (c_log c) (SDe s ser) ->
  frame quiet c c' /\ std_wf (c_log c') (SDe s ser') /\ reaches (c_log c') o s /\ linked imp c c' o [s].
Proof.
  unfold deserialize. intros H W.
  destruct (Nat.eqb_spec (o_ty o) (s_ty s)) as [Eo|No].
  - destruct (connect_to o s c) as [c1|e] eqn:Ec; [|discriminate]. injection H as <- <-.
    destruct (connect_to_frame _ _ _ _ Ec) as [F Hin]. split; [auto|split; [|split]].
    + eapply std_wf_mono; [|exact W]. intros e. eapply frame_in; eauto.
    + left. split; auto.
    + eapply connect_to_linked; eauto.
  - destruct (Nat.eqb_spec (o_ty o) TJson) as [Ej|Nj]; [|discriminate].
    destruct ser as [i|].
    + destruct (connect_to o i c) as [c1|e] eqn:Ec; [|discriminate]. injection H as <- <-.
      destruct (connect_to_frame _ _ _ _ Ec) as [F Hin].
      assert (W' : std_wf (c_log c1) (SDe s (Some i))).
      { eapply std_wf_mono; [|exact W]. intros e. eapply frame_in; eauto. }
      destruct W' as (Ei & out & er & A & B).
      split; [auto|split; [cbn; eauto|split]].
      * right. split; [|auto]. exists CDeserialize, i, out, er. auto.
      * apply connect_to_ok in Ec as [E ->]. split; [intros r' o' H; cbn in H; apply in_app_iff in H as [H|[H|[]]]; [auto|discriminate]|]. intros o' s' H. cbn in H.
        apply in_app_iff in H as [H|[H|[]]]; [auto|]. injection H as <- <-. right; right. split; [auto|].
        exists s. split; [cbn; auto|]. right. exists CDeserialize, out, er. auto.
    + destruct (r_de g (s_ty s)) eqn:Er; [|discriminate].
      cbn in H. set (i := {| s_id := c_next c; s_ty := TJson; s_scope := sc |}) in *.
      set (ok := {| o_id := S (c_next c); o_ty := s_ty s; o_scope := sc |}) in *.
      set (er := {| o_id := S (S (c_next c)); o_ty := TString; o_scope := sc |}) in *.
      match type of H with context [connect_to ok s ?x] => set (c1 := x) in *; destruct (connect_to ok s c1) as [c2|e] eqn:E2; [|discriminate] end.
      match type of H with context [connect_to o i ?x] => set (c3 := x) in *; destruct (connect_to o i c3) as [c4|e] eqn:E4; [|discriminate] end.
      injection H as <- <-.
      assert (F1 : frame quiet c c1).
      { eapply frame_trans; [apply (frame_next _ (S (S (S (c_next c)))) c); cbn; lia|].
        apply frame_note; [|discriminate]. cbn. eauto. }
      assert (H1 : In (LConv CDeserialize i ok (Some er)) (c_log c1)) by (cbn; apply in_app_iff; cbn; auto).
      destruct (connect_to_frame _ _ _ _ E2) as [F2 H2].
      assert (F3 : frame quiet c2 c3) by (apply frame_pass; exact I).
      destruct (connect_to_frame _ _ _ _ E4) as [F4 H4].
      assert (F34 : frame quiet c2 c4) by (eapply frame_trans; eauto).
      assert (F14 : frame quiet c1 c4) by (eapply frame_trans; eauto).
      assert (F : frame quiet c c4) by (eapply frame_trans; eauto).
      split; [auto|split; [|split]].
      * cbn. split; [reflexivity|]. exists ok, (Some er). split; inn.
      * right. split; [|auto]. exists CDeserialize, i, ok, (Some er).
        split; [auto|split; inn].
      * split; [|intros o' s' Hin; apply connect_to_ok in E4 as [_ E4]; rewrite E4 in Hin; cbn in Hin].
        { intros r' o' Hin. destruct (f_pass _ _ _ F4 r' o') as [H|H]; auto; [|].
          all: apply connect_to_ok in E4 as [_ E4']; apply connect_to_ok in E2 as [_ E2']; rewrite E4' in Hin; cbn in Hin;
            rewrite E2' in Hin; cbn in Hin; rewrite !in_app_iff in Hin; cbn in Hin.
          all: destruct Hin as [[[[Hin|[Hin|[]]]|[Hin|[]]]|[Hin|[]]]|[Hin|[]]]; try discriminate; auto.
          all: injection Hin as <- <-; right; split; [auto|]; first [exists CSerialize, i, ok; inn|exists CDeserialize, i, ok; inn]. }
        apply in_app_iff in Hin as [Hin|[Hin|[]]].
        -- apply in_app_iff in Hin as [Hin|[Hin|[]]]; [|discriminate].
           apply connect_to_ok in E2 as [_ E2]. rewrite E2 in Hin. cbn in Hin.
           apply in_app_iff in Hin as [Hin|[Hin|[]]].
           ++ apply in_app_iff in Hin as [Hin|[Hin|[]]]; [auto|discriminate].
           ++ injection Hin as <- <-. right; left. exists CDeserialize, i, (Some er).
              split; [inn|]. exists s. cbn. auto.
        -- injection Hin as <- <-. right; right. split; [auto|]. exists s. split; [cbn; auto|].
           right. exists CDeserialize, ok, (Some er). split; inn.
Qed.

Lemma std_connect_ok imp sc x o c c' x' :
  std_connect g imp sc x o c = inl (c', x') -> std_wf (c_log c) x ->
  frame quiet c c' /\ std_wf (c_log c') x' /\ std_slot x' = std_slot x /\
  reaches (c_log c') o (std_slot x) /\ linked imp c c' o [std_slot x].
Proof.
  unfold std_connect. destruct x as [s inc|s ser|s]; intros H W.
  - destruct (try_serialize g imp sc s inc o c) as [[c1 [inc'|]]|e] eqn:E; try discriminate.
    injection H as <- <-. destruct W as [Es C].
    destruct (try_serialize_ok _ _ _ _ _ _ _ _ E Es C) as (A & B & D & L). cbn. auto.
  - destruct (deserialize g imp sc s ser o c) as [[c1 ser']|e] eqn:E; try discriminate.
    injection H as <- <-.
    destruct (deserialize_ok _ _ _ _ _ _ _ _ E W) as (A & B & D & L). cbn [std_slot]. auto.
  - destruct (connect_to o s c) as [c1|e] eqn:E; try discriminate. injection H as <- <-.
    destruct (connect_to_frame _ _ _ _ E) as [F Hin]. split; [auto|split; [exact I|split; [auto|split]]].
    + left. split; [|auto]. apply connect_to_ok in E. tauto.
    + eapply connect_to_linked; eauto.
Qed.

Lemma standard_wf log s : std_wf log (standard g s).
Proof.
  unfold standard. destruct (Nat.eqb_spec (s_ty s) TJson) as [E|N].
  - split; [auto|intros ty i []].
  - destruct (r_de g (s_ty s)); exact I.
Qed.

Lemma standard_slot s : std_slot (standard g s) = s.
Proof.
  unfold standard. destruct (s_ty s =? TJson); [auto|]. destruct (r_de g (s_ty s)); auto.
Qed.

Lemma plain_ok imp k o c i out c1 tout sc ss s c2 c3 :
  new_plain k (o_ty o) tout sc c = (c1, (i, out)) -> allowed g k {| s_id := 0; s_ty := o_ty o; s_scope := 0 |} {| o_id := 0; o_ty := tout; o_scope := 0 |} None ->
  connect_to out s c1 = inl c2 -> connect_to o i c2 = inl c3 -> In s ss ->
  frame quiet c c3 /\ In (LConv k i out None) (c_log c3) /\ In (LConnect out s) (c_log c3) /\
  In (LConnect o i) (c_log c3) /\ s_ty i = o_ty o /\ linked imp c c3 o ss.
Proof.
  intros E A E2 E3 Hs. cbn in E. injection E as <- <- <-.
  set (i := {| s_id := c_next c; s_ty := o_ty o; s_scope := sc |}) in *.
  set (out := {| o_id := S (c_next c); o_ty := tout; o_scope := sc |}) in *.
  match type of E2 with connect_to out s ?x = _ => set (c1 := x) in * end.
  assert (F1 : frame quiet c c1).
  { eapply frame_trans; [apply (frame_next _ (S (S (c_next c))) c); cbn; lia|].
    apply frame_note; [|discriminate]. destruct k; exact A. }
  assert (H1 : In (LConv k i out None) (c_log c1)) by (cbn; apply in_app_iff; cbn; auto).
  destruct (connect_to_frame _ _ _ _ E2) as [F2 H2]. destruct (connect_to_frame _ _ _ _ E3) as [F3 H3].
  assert (F23 : frame quiet c1 c3) by (eapply frame_trans; eauto).
  split; [eapply frame_trans; eauto|]. split; [inn|]. split; [inn|].
  split; [auto|split; [reflexivity|]].
  split.
  { intros r' o' Hin. apply connect_to_ok in E3 as [_ E3']. apply connect_to_ok in E2 as [_ E2'].
    rewrite E3' in Hin. cbn in Hin. rewrite E2' in Hin. cbn in Hin. rewrite !in_app_iff in Hin. cbn in Hin.
    destruct Hin as [[[Hin|[Hin|[]]]|[Hin|[]]]|[Hin|[]]]; try discriminate; auto. }
  intros o' s' Hin. apply connect_to_ok in E3 as [_ E3]. rewrite E3 in Hin. cbn in Hin.
  apply in_app_iff in Hin as [Hin|[Hin|[]]].
  - apply connect_to_ok in E2 as [_ E2]. rewrite E2 in Hin. cbn in Hin.
    apply in_app_iff in Hin as [Hin|[Hin|[]]].
    + apply in_app_iff in Hin as [Hin|[Hin|[]]]; [auto|discriminate].
    + injection Hin as <- <-. right; left. exists k, i, None. split; [inn|]. exists s. auto.
  - injection Hin as <- <-. right; right. split; [auto|]. exists s. split; [auto|].
    right. exists k, out, None. split; inn.
Qed.

Lemma linked_weak imp c c' o ss ss' : (forall s, In s ss -> In s ss') -> linked imp c c' o ss -> linked imp c c' o ss'.
Proof.
  intros Hs [L0 L]. split; [exact L0|]. intros o' s' H. destruct (L o' s' H) as [A|[(k & i & er & A & s & B & D)|(A & s & B & D)]]; [auto| |].
  - right; left. exists k, i, er. split; [auto|]. exists s. auto.
  - right; right. split; [auto|]. exists s. auto.
Qed.

Definition cancel_wf (log : list entry) (q j s : slot) (js ss ts : list (nat * slot)) : Prop :=
  s_ty q = TUnit /\ s_ty j = TJson /\ s_ty s = TString /\
  cache CSerialize log j js /\ cache CString log s ss /\ cache CTrigger log q ts.

Definition cancelled (log : list entry) (o : output) (s : slot) : Prop :=
  direct log o s \/ converted log o s.

Lemma cancel_connect_ok imp sc q j s js ss ts o c c' k' :
  cancel_connect g imp sc q j s js ss ts o c = inl (c', k') ->
  cancel_wf (c_log c) q j s js ss ts ->
  frame quiet c c' /\ linked imp c c' o [q; j; s] /\
  exists js' ss' ts', k' = KCancel q j s js' ss' ts' /\ cancel_wf (c_log c') q j s js' ss' ts' /\
    (cancelled (c_log c') o q \/ cancelled (c_log c') o j \/ cancelled (c_log c') o s).
Proof.
  unfold cancel_connect. intros H (Tq & Tj & Ts & Cj & Cs & Ct).
  assert (Up : forall c1, frame quiet c c1 -> cache CSerialize (c_log c1) j js /\ cache CString (c_log c1) s ss /\ cache CTrigger (c_log c1) q ts).
  { intros c1 F. split; [|split]; (eapply cache_mono; [intros e; eapply frame_in; exact F|assumption]). }
  destruct (try_string g sc s ss o c) as [[c1 [ss'|]]|e] eqn:E1; try discriminate.
  - injection H as <- <-. unfold try_string in E1.
    destruct (Nat.eqb_spec (o_ty o) TString) as [Eo|No].
    + destruct (connect_to o s c) as [c2|e] eqn:Ec; [|discriminate]. injection E1 as <- <-.
      destruct (connect_to_frame _ _ _ _ Ec) as [F Hin]. destruct (Up _ F) as (U1 & U2 & U3).
      split; [auto|split].
      * eapply linked_weak; [|eapply connect_to_linked; eauto]. cbn. intuition.
      * exists js, ss, ts. split; [auto|split; [split; [auto|split; [auto|split; [auto|auto]]]|]].
        right; right. left. split; [congruence|auto].
    + destruct (find (o_ty o) ss) as [i|] eqn:Ef.
      * destruct (connect_to o i c) as [c2|e] eqn:Ec; [|discriminate]. injection E1 as <- <-.
        destruct (connect_to_frame _ _ _ _ Ec) as [F Hin]. destruct (Up _ F) as (U1 & U2 & U3).
        destruct (U2 _ _ (find_In _ _ _ Ef)) as (Ei & out & er & A & B).
        split; [auto|split].
        -- apply connect_to_ok in Ec as [E ->]. split; [intros r' o' H; cbn in H; apply in_app_iff in H as [H|[H|[]]]; [auto|discriminate]|]. intros o' s' H. cbn in H.
           apply in_app_iff in H as [H|[H|[]]]; [auto|]. injection H as <- <-. right; right. split; [auto|].
           exists s. split; [cbn; auto|]. right. exists CString, out, er. auto.
        -- exists js, ss, ts. split; [auto|split; [split; [auto|split; [auto|split; [auto|auto]]]|]].
           right; right. right. exists CString, i, out, er. auto.
      * destruct (r_known g (o_ty o)) eqn:Ek; [|discriminate]. cbn [negb] in E1.
        destruct (r_string g (o_ty o)) eqn:Er; [|discriminate].
        destruct (new_plain CString (o_ty o) TString sc c) as [c2 [i out]] eqn:En.
        destruct (connect_to out s c2) as [c3|e] eqn:E3; [|discriminate].
        destruct (connect_to o i c3) as [c4|e] eqn:E4; [|discriminate]. injection E1 as <- <-.
        destruct (plain_ok imp CString o c i out c2 TString sc [q; j; s] s c3 c4 En) as (F & A1 & A2 & A3 & A4 & L);
          try assumption; [cbn; auto|cbn; auto|]. destruct (Up _ F) as (U1 & U2 & U3).
        split; [auto|split; [auto|]]. exists js, ((o_ty o, i) :: ss), ts.
        split; [auto|split; [split; [auto|split; [auto|split; [auto|split; [auto|split; [|auto]]]]]|]].
        -- intros ty i' [Hj|Hj]; [injection Hj as <- <-; split; [auto|eauto]|auto].
        -- right; right. right. exists CString, i, out, None. auto.
  - destruct (try_serialize g imp sc j js o c) as [[c2 [js'|]]|e] eqn:E2; try discriminate.
    + injection H as <- <-.
      destruct (try_serialize_ok _ _ _ _ _ _ _ _ E2 Tj Cj) as (F & C' & R & L).
      destruct (Up _ F) as (U1 & U2 & U3).
      split; [auto|split; [eapply linked_weak; [|exact L]; cbn; intuition|]].
      exists js', ss, ts. split; [auto|split; [split; [auto|split; [auto|split; [auto|auto]]]|]].
      right; left. destruct R as [R|[R _]]; [left|right]; auto.
    + destruct (find (o_ty o) ts) as [i|] eqn:Ef.
      * destruct (connect_to o i c) as [c3|e] eqn:Ec; [|discriminate]. injection H as <- <-.
        destruct (connect_to_frame _ _ _ _ Ec) as [F Hin]. destruct (Up _ F) as (U1 & U2 & U3).
        destruct (U3 _ _ (find_In _ _ _ Ef)) as (Ei & out & er & A & B).
        split; [auto|split].
        -- apply connect_to_ok in Ec as [E ->]. split; [intros r' o' H; cbn in H; apply in_app_iff in H as [H|[H|[]]]; [auto|discriminate]|]. intros o' s' H. cbn in H.
           apply in_app_iff in H as [H|[H|[]]]; [auto|]. injection H as <- <-. right; right. split; [auto|].
           exists q. split; [cbn; auto|]. right. exists CTrigger, out, er. auto.
        -- exists js, ss, ts. split; [auto|split; [split; [auto|split; [auto|split; [auto|auto]]]|]].
           left. right. exists CTrigger, i, out, er. auto.
      * destruct (r_known g (o_ty o)) eqn:Ek; [|discriminate].
        destruct (new_plain CTrigger (o_ty o) TUnit sc c) as [c3 [i out]] eqn:En.
        destruct (connect_to out q c3) as [c4|e] eqn:E4; [|discriminate].
        destruct (connect_to o i c4) as [c5|e] eqn:E5; [|discriminate]. injection H as <- <-.
        destruct (plain_ok imp CTrigger o c i out c3 TUnit sc [q; j; s] q c4 c5 En) as (F & A1 & A2 & A3 & A4 & L);
          try assumption; [cbn; auto|cbn; auto|]. destruct (Up _ F) as (U1 & U2 & U3).
        split; [auto|split; [auto|]]. exists js, ss, ((o_ty o, i) :: ts).
        split; [auto|split; [split; [auto|split; [auto|split; [auto|split; [auto|split; [auto|]]]]]|]].
        -- intros ty i' [Hj|Hj]; [injection Hj as <- <-; split; [auto|eauto]|auto].
        -- left. right. exists CTrigger, i, out, None. auto.
Qed.

End Connecting.
