(** The connect phase as a whole: no output gets lost except by being
    overwritten, and every connection was asked for. *)
From Verif Require Import Base DiagramModel DiagramSpec DiagramProofs.

Lemma in_ns_named ns t : in_ns ns (to_ref t) = named ns t.
Proof. destruct t as [n|[]|s n]; cbn; rewrite ?app_nil_r; auto. Qed.

Lemma in_ns_nil r : in_ns [] r = r.
Proof. destruct r; auto. Qed.

Lemma in_ns_app a b r : in_ns a (in_ns b r) = in_ns (a ++ b) r.
Proof. destruct r; cbn; rewrite ?app_assoc; auto. Qed.

Lemma implicit_directed d : implicit d = directed d [] None.
Proof. unfold implicit, directed. destruct (d_implicit d) as [[n|[]|s n]|]; auto. Qed.

Section Phase.
Variable d : diagram.
Variable g : registry.
Notation imp := (implicit d).

Lemma leadsto_trans r1 r2 r3 : leadsto d r1 r2 -> leadsto d r2 r3 -> leadsto d r1 r3.
Proof. induction 1; intros; eauto using leadsto_step. Qed.

Lemma leadsto_snoc r1 r2 r3 : leadsto d r1 r2 -> goes d r2 r3 -> leadsto d r1 r3.
Proof. intros H1 H2. eapply leadsto_trans; [eauto|]. eapply leadsto_step; [eauto|constructor]. Qed.

(** ** Connectors *)

Definition wired (log : list entry) (r : opref) (x : std) : Prop :=
  In (LSlot r (std_slot x)) log /\ std_wf log x.

Definition conn_wf (log : list entry) (r : opref) (k : connector) : Prop :=
  match k with
  | KStd x => wired log r x
  | KDispose => r = RDispose
  | KCancel q j s js ss ts =>
      r = RCancel [] /\ In (LSlot r q) log /\ In (LSlot r j) log /\ In (LSlot r s) log /\
      cancel_wf log q j s js ss ts
  | KRedirect to _ => goes d r to
  | KRequest sc en start ox =>
      exists u term ex st ops strs nx,
        In (LScope u sc en term ex) log /\ u_op u = OScope st ops strs nx /\
        r = RNamed (u_ns u) None (u_id u) /\ start = named (u_ns u ++ [u_id u]) st /\
        match ox with
        | Some x => wired log r x /\ s_id (std_slot x) = sc /\
                    In (LPass start {| o_id := en; o_ty := s_ty (std_slot x); o_scope := sc |}) log
        | None => True
        end
  | KResponse sc term ex par next ox =>
      exists u en st ops strs nx,
        In (LScope u sc en term ex) log /\ u_op u = OScope st ops strs nx /\
        r = RTerminate (u_ns u ++ [u_id u]) /\ next = named (u_ns u) nx /\ par = u_scope u /\
        match ox with
        | Some x => wired log r x /\ s_id (std_slot x) = term /\
                    In (LPass next {| o_id := ex; o_ty := s_ty (std_slot x); o_scope := par |}) log
        | None => True
        end
  | KStream sc par to ox =>
      exists u en term ex st ops strs nx n t,
        In (LScope u sc en term ex) log /\ u_op u = OScope st ops strs nx /\ In (n, t) strs /\
        r = RStream (u_ns u ++ [u_id u]) n /\ to = named (u_ns u) t /\ par = u_scope u /\
        match ox with
        | Some x => wired log r x /\ exists o, In (LStream r (std_slot x) o) log /\ In (LPass to o) log /\
                                              o_ty o = s_ty (std_slot x) /\ o_scope o = par
        | None => True
        end
  end.

Lemma wired_mono log log' r x : (forall e, In e log -> In e log') -> wired log r x -> wired log' r x.
Proof. intros H [A B]. split; [auto|]. eapply std_wf_mono; eauto. Qed.

Lemma conn_wf_mono log log' r k : (forall e, In e log -> In e log') -> conn_wf log r k -> conn_wf log' r k.
Proof.
  intros H. destruct k; cbn [conn_wf]; auto.
  - apply wired_mono; auto.
  - intros (E & A & B & C & (a1 & a2 & a3 & W1 & W2 & W3)). do 4 (split; [auto|]).
    do 3 (split; [auto|]). split; [|split]; (eapply cache_mono; [exact H|assumption]).
  - intros (u & term & ex & st & ops & strs & nx & A & B & C & D & E).
    exists u, term, ex, st, ops, strs, nx. repeat (split; [auto|]).
    destruct c as [x|]; [|auto]. destruct E as (E1 & E2 & E3). split; [eapply wired_mono; eauto|auto].
  - intros (u & en & st & ops & strs & nx & A & B & C & D & E0 & E).
    exists u, en, st, ops, strs, nx. repeat (split; [auto|]).
    destruct c as [x|]; [|auto]. destruct E as (E1 & E2 & E3). split; [eapply wired_mono; eauto|auto].
  - intros (u & en & term & ex & st & ops & strs & nx & n & t & A & B & C & D & E0 & E1 & E).
    exists u, en, term, ex, st, ops, strs, nx, n, t. repeat (split; [auto|]).
    destruct c as [x|]; [|auto]. destruct E as (E2 & o & E3 & E4 & E5). split; [eapply wired_mono; eauto|exists o; auto].
Qed.

(** A connector only changes its caches and gets its connection. *)
Definition std_same (x y : std) : Prop := std_slot x = std_slot y.

Definition opt_evolves (a b : option std) : Prop :=
  match a, b with
  | None, _ => True
  | Some x, Some y => std_same x y
  | Some _, None => False
  end.

Definition evolves (k k' : connector) : Prop :=
  match k, k' with
  | KStd x, KStd y => std_same x y
  | KDispose, KDispose => True
  | KCancel q j s _ _ _, KCancel q' j' s' _ _ _ => q = q' /\ j = j' /\ s = s'
  | KRedirect to _, KRedirect to' _ => to = to'
  | KRequest a b c x, KRequest a' b' c' y => a = a' /\ b = b' /\ c = c' /\ opt_evolves x y
  | KResponse a b c e f x, KResponse a' b' c' e' f' y => a = a' /\ b = b' /\ c = c' /\ e = e' /\ f = f' /\ opt_evolves x y
  | KStream a b c x, KStream a' b' c' y => a = a' /\ b = b' /\ c = c' /\ opt_evolves x y
  | _, _ => False
  end.

Lemma evolves_refl k : evolves k k.
Proof. destruct k as [x| | | |? ? ? [x|]|? ? ? ? ? [x|]|? ? ? [x|]]; cbn; unfold std_same; auto 10. Qed.

Lemma opt_evolves_trans a b c : opt_evolves a b -> opt_evolves b c -> opt_evolves a c.
Proof. destruct a, b, c; cbn; unfold std_same; try tauto; congruence. Qed.

Lemma evolves_trans a b c : evolves a b -> evolves b c -> evolves a c.
Proof.
  destruct a, b; cbn [evolves]; try tauto; destruct c; cbn [evolves]; try tauto; unfold std_same;
    intuition (subst; auto); try congruence; eauto using opt_evolves_trans.
Qed.

Definition quiet_slot (r : opref) (e : entry) : Prop :=
  quiet g e \/ (exists s, e = LSlot r s) \/ (exists s o, e = LStream r s o).

Definition settled (log : list entry) (new : list (opref * list output)) (r : opref) (o : output) : Prop :=
  arrives log r o \/ exists to, goes d r to /\ waits new to o /\ In (LPass to o) log.

(** Every new connection and every new output is accounted for. *)
Definition accounted (r : opref) (o : output) (c c' : con) : Prop :=
  (forall r' o', In (LPass r' o') (c_log c') ->
     In (LPass r' o') (c_log c) \/ born d (c_log c') r' o' \/ (o' = o /\ goes d r r')) /\
  (forall o' s', In (LConnect o' s') (c_log c') ->
     In (LConnect o' s') (c_log c) \/
     exists s0, In (LSlot r s0) (c_log c') /\
       ((s' = s0 /\ exists k i er, In (LConv k i o' er) (c_log c')) \/
        (o' = o /\ (s' = s0 \/ exists k out er, In (LConv k s' out er) (c_log c') /\ In (LConnect out s0) (c_log c'))))).

Lemma linked_accounted r o c c' ss :
  linked imp c c' o ss -> (forall s, In s ss -> In (LSlot r s) (c_log c')) -> accounted r o c c'.
Proof.
  intros [L1 L2] Hs. split.
  - intros r' o' H. destruct (L1 r' o' H) as [A|(-> & k & i & ok & A)]; [auto|]. right; left.
    rewrite implicit_directed. econstructor. exact A.
  - intros o' s' H. destruct (L2 o' s' H) as [A|[(k & i & er & A & s & B & ->)|(-> & s & B & D)]]; [auto| |].
    + right. exists s. split; [auto|]. left. split; [auto|]. eauto.
    + right. exists s. split; [auto|]. right. auto.
Qed.

Lemma accounted_before r o c0 c c' P :
  frame P c0 c -> (forall r' o', In (LPass r' o') (c_log c) -> In (LPass r' o') (c_log c0) \/ born d (c_log c) r' o' \/ (o' = o /\ goes d r r')) ->
  (forall o' s', In (LConnect o' s') (c_log c) -> In (LConnect o' s') (c_log c0)) ->
  (forall e, In e (c_log c) -> In e (c_log c')) ->
  accounted r o c c' -> accounted r o c0 c'.
Proof.
  intros F Hp Hc Hm [A B]. split.
  - intros r' o' H. destruct (A r' o' H) as [X|X]; [|auto].
    destruct (Hp r' o' X) as [Y|[Y|Y]]; auto. right; left.
    clear - Y Hm. destruct Y; [eapply born_error|eapply born_begin|eapply born_end|eapply born_stream]; eauto.
  - intros o' s' H. destruct (B o' s' H) as [X|X]; [|auto]. left. auto.
Qed.

Lemma reaches_arrives log r o s : In (LSlot r s) log -> reaches log o s -> arrives log r o.
Proof. intros H [A|[A N]]; right; exists s; auto. Qed.

Lemma cancelled_arrives log o s : In (LSlot (RCancel []) s) log -> cancelled log o s -> arrives log (RCancel []) o.
Proof. intros H [A|A]; right; exists s; auto. Qed.

Lemma weak_slot r e : quiet g e -> quiet_slot r e.
Proof. left; auto. Qed.

Lemma born_mono log log' r o : (forall e, In e log -> In e log') -> born d log r o -> born d log' r o.
Proof.
  intros H Y. destruct Y; [eapply born_error|eapply born_begin|eapply born_end|eapply born_stream]; eauto.
Qed.

(** The scope connectors when they are connected for the first time *)
Lemma first_connect r o c c1 sc i p1 p2 :
  frame (quiet_slot r) c c1 -> In (LSlot r i) (c_log c1) ->
  (forall r' o', In (LPass r' o') (c_log c1) -> In (LPass r' o') (c_log c) \/ born d (c_log c1) r' o' \/ (o' = o /\ goes d r r')) ->
  (forall o' s', In (LConnect o' s') (c_log c1) -> In (LConnect o' s') (c_log c)) ->
  std_connect g imp sc (standard g i) o c1 = inl (p1, p2) ->
  frame (quiet_slot r) c p1 /\ wired (c_log p1) r p2 /\ std_slot p2 = i /\ arrives (c_log p1) r o /\
  accounted r o c p1 /\ frame (quiet_slot r) c1 p1.
Proof.
  intros F Hi Hp Hc E.
  destruct (std_connect_ok _ _ _ _ _ _ _ _ E (standard_wf g _ i)) as (F2 & W & Es & R & L).
  rewrite standard_slot in *.
  assert (F2' : frame (quiet_slot r) c1 p1) by (eapply frame_weak; [apply weak_slot|exact F2]).
  assert (Hi' : In (LSlot r i) (c_log p1)) by (eapply frame_in; eauto).
  split; [eapply frame_trans; eauto|]. split; [split; [rewrite Es; auto|auto]|]. split; [auto|].
  split; [eapply reaches_arrives; eauto|]. split; [|auto].
  eapply accounted_before; [exact F|exact Hp|exact Hc|intros e; eapply frame_in; eauto|].
  eapply linked_accounted; [exact L|]. intros s [<-|[]]. auto.
Qed.

Lemma connect_into_ok r sc k o c c' k' :
  connect_into g imp r sc k o c = inl (c', k') -> conn_wf (c_log c) r k ->
  frame (quiet_slot r) c c' /\ conn_wf (c_log c') r k' /\ settled (c_log c') (c_new c') r o /\
  evolves k k' /\ accounted r o c c'.
Proof.
  intros H W. destruct k as [x| |q j s js ss ts|to seen|scid en start [x|]|scid term ex par nx [x|]|scid par to [x|]]; cbn [connect_into] in H.
  - destruct (std_connect g imp sc x o c) as [[p1 p2]|e] eqn:E; [|discriminate]. injection H as <- <-.
    destruct W as [Hs Wx]. destruct (std_connect_ok _ _ _ _ _ _ _ _ E Wx) as (F & W' & Es & R & L).
    assert (Hs' : In (LSlot r (std_slot x)) (c_log p1)) by (eapply frame_in; eauto).
    split; [eapply frame_weak; [apply weak_slot|exact F]|]. cbn [conn_wf fst snd].
    split; [split; [rewrite Es; auto|auto]|]. split; [left; eapply reaches_arrives; eauto|].
    split; [cbn; unfold std_same; auto|]. eapply linked_accounted; [exact L|]. intros s [<-|[]]. auto.
  - injection H as <- <-. cbn in W. subst r. split; [apply frame_refl|]. split; [reflexivity|].
    split; [left; left; auto|]. split; [exact I|]. split; auto.
  - destruct W as (-> & H1 & H2 & H3 & W).
    destruct (cancel_connect_ok _ _ _ _ _ _ _ _ _ _ _ _ _ H W) as (F & L & js' & ss' & ts' & -> & W' & R).
    assert (S1 : In (LSlot (RCancel []) q) (c_log c')) by (eapply frame_in; eauto).
    assert (S2 : In (LSlot (RCancel []) j) (c_log c')) by (eapply frame_in; eauto).
    assert (S3 : In (LSlot (RCancel []) s) (c_log c')) by (eapply frame_in; eauto).
    split; [eapply frame_weak; [apply weak_slot|exact F]|]. split; [do 4 (split; [auto|]); exact W'|].
    split; [left; destruct R as [R|[R|R]]; (eapply cancelled_arrives; [|exact R]; assumption)|].
    split; [cbn; auto|]. eapply linked_accounted; [exact L|]. intros x [<-|[<-|[<-|[]]]]; auto.
  - destruct (existsb (Nat.eqb (o_id o)) seen) eqn:E; [discriminate|]. injection H as <- <-. cbn in W.
    split; [apply frame_pass; left; exact I|]. split; [exact W|].
    split; [right; exists to; split; [auto|split; [cbn; apply waits_push; auto|cbn; apply in_app_iff; cbn; auto]]|]. split; [reflexivity|].
    split.
    + intros r' o' Hin. cbn in Hin. apply in_app_iff in Hin as [Hin|[Hin|[]]]; [auto|]. injection Hin as <- <-. auto.
    + intros o' s' Hin. cbn in Hin. apply in_app_iff in Hin as [Hin|[Hin|[]]]; [auto|discriminate].
  - destruct (std_connect g imp sc x o c) as [[p1 p2]|e] eqn:E; [|discriminate]. injection H as <- <-.
    destruct W as (u & term & ex & st & ops & strs & nx & A & B & C & D & (Hs & Wx) & E2 & E3).
    destruct (std_connect_ok _ _ _ _ _ _ _ _ E Wx) as (F & W' & Es & R & L).
    assert (Hs' : In (LSlot r (std_slot x)) (c_log p1)) by (eapply frame_in; eauto).
    split; [eapply frame_weak; [apply weak_slot|exact F]|].
    split; [exists u, term, ex, st, ops, strs, nx; cbn [fst snd]; repeat (split; [first [assumption|eapply frame_in; [exact F|eassumption]]|]); rewrite Es; split; [split; [rewrite Es|]; auto|split; [auto|eapply frame_in; eauto]]|].
    split; [left; eapply reaches_arrives; eauto|]. split; [cbn; unfold std_same; auto|].
    eapply linked_accounted; [exact L|]. intros s [<-|[]]. auto.
  - destruct (r_known g (o_ty o)) eqn:Ek; [|discriminate].
    set (b := {| o_id := en; o_ty := o_ty o; o_scope := scid |}) in *.
    set (i := {| s_id := scid; s_ty := o_ty o; s_scope := sc |}) in *.
    match type of H with context [std_connect g imp sc (standard g i) o ?x] => set (c1 := x) in * end.
    destruct (std_connect g imp sc (standard g i) o c1) as [[p1 p2]|e] eqn:E; [|discriminate]. injection H as <- <-.
    destruct W as (u & term & ex & st & ops & strs & nx & A & B & C & D & _).
    assert (F1 : frame (quiet_slot r) c c1).
    { eapply frame_trans; [apply frame_pass; left; exact I|]. apply frame_note; [right; left; eauto|discriminate]. }
    assert (Hb : In (LPass start b) (c_log c1)) by (cbn; rewrite !in_app_iff; cbn; auto).
    assert (Hi : In (LSlot r i) (c_log c1)) by (cbn; rewrite !in_app_iff; cbn; auto).
    destruct (first_connect r o c c1 sc i p1 p2 F1 Hi) as (F & W & Es & R & L & F2); auto.
    { intros r' o' Hin. cbn in Hin. rewrite !in_app_iff in Hin. cbn in Hin.
      destruct Hin as [[Hin|[Hin|[]]]|[Hin|[]]]; try discriminate; auto. injection Hin as <- <-. right; left.
      subst start. eapply born_begin; [eapply frame_in; [exact F1|exact A]|exact B|reflexivity|reflexivity]. }
    { intros o' s' Hin. cbn in Hin. rewrite !in_app_iff in Hin. cbn in Hin.
      destruct Hin as [[Hin|[Hin|[]]]|[Hin|[]]]; try discriminate; auto. }
    split; [auto|]. split.
    { exists u, term, ex, st, ops, strs, nx. cbn [fst snd].
      repeat (split; [first [assumption|rewrite Es; reflexivity|eapply frame_in; [exact F|eassumption]]|]). rewrite Es.
      eapply frame_in; [exact F2|exact Hb]. }
    split; [left; auto|]. split; [cbn; auto|auto].
  - destruct (std_connect g imp sc x o c) as [[p1 p2]|e] eqn:E; [|discriminate]. injection H as <- <-.
    destruct W as (u & en & st & ops & strs & next & A & B & C & D & D' & (Hs & Wx) & E2 & E3).
    destruct (std_connect_ok _ _ _ _ _ _ _ _ E Wx) as (F & W' & Es & R & L).
    assert (Hs' : In (LSlot r (std_slot x)) (c_log p1)) by (eapply frame_in; eauto).
    split; [eapply frame_weak; [apply weak_slot|exact F]|].
    split; [exists u, en, st, ops, strs, next; cbn [fst snd]; repeat (split; [first [assumption|eapply frame_in; [exact F|eassumption]]|]); rewrite Es; split; [split; [rewrite Es|]; auto|split; [auto|eapply frame_in; eauto]]|].
    split; [left; eapply reaches_arrives; eauto|]. split; [cbn; unfold std_same; auto 8|].
    eapply linked_accounted; [exact L|]. intros s [<-|[]]. auto.
  - destruct (r_known g (o_ty o)) eqn:Ek; [|discriminate].
    set (b := {| o_id := ex; o_ty := o_ty o; o_scope := par |}) in *.
    set (i := {| s_id := term; s_ty := o_ty o; s_scope := scid |}) in *.
    match type of H with context [std_connect g imp sc (standard g i) o ?x] => set (c1 := x) in * end.
    destruct (std_connect g imp sc (standard g i) o c1) as [[p1 p2]|e] eqn:E; [|discriminate]. injection H as <- <-.
    destruct W as (u & en & st & ops & strs & next & A & B & C & D & D' & _).
    assert (F1 : frame (quiet_slot r) c c1).
    { eapply frame_trans; [apply frame_pass; left; exact I|]. apply frame_note; [right; left; eauto|discriminate]. }
    assert (Hb : In (LPass nx b) (c_log c1)) by (cbn; rewrite !in_app_iff; cbn; auto).
    assert (Hi : In (LSlot r i) (c_log c1)) by (cbn; rewrite !in_app_iff; cbn; auto).
    destruct (first_connect r o c c1 sc i p1 p2 F1 Hi) as (F & W & Es & R & L & F2); auto.
    { intros r' o' Hin. cbn in Hin. rewrite !in_app_iff in Hin. cbn in Hin.
      destruct Hin as [[Hin|[Hin|[]]]|[Hin|[]]]; try discriminate; auto. injection Hin as <- <-. right; left.
      subst nx par. eapply born_end; [eapply frame_in; [exact F1|exact A]|exact B|reflexivity|reflexivity]. }
    { intros o' s' Hin. cbn in Hin. rewrite !in_app_iff in Hin. cbn in Hin.
      destruct Hin as [[Hin|[Hin|[]]]|[Hin|[]]]; try discriminate; auto. }
    split; [auto|]. split.
    { exists u, en, st, ops, strs, next. cbn [fst snd].
      repeat (split; [first [assumption|rewrite Es; reflexivity|eapply frame_in; [exact F|eassumption]]|]). rewrite Es.
      eapply frame_in; [exact F2|exact Hb]. }
    split; [left; auto|]. split; [cbn; auto 8|auto].
  - destruct (std_connect g imp sc x o c) as [[p1 p2]|e] eqn:E; [|discriminate]. injection H as <- <-.
    destruct W as (u & en & term & ex & st & ops & strs & next & n & t & A & B & B' & C & D & D' & (Hs & Wx) & o1 & E2 & E3 & E4).
    destruct (std_connect_ok _ _ _ _ _ _ _ _ E Wx) as (F & W' & Es & R & L).
    assert (Hs' : In (LSlot r (std_slot x)) (c_log p1)) by (eapply frame_in; eauto).
    split; [eapply frame_weak; [apply weak_slot|exact F]|].
    split; [exists u, en, term, ex, st, ops, strs, next, n, t; cbn [fst snd]; repeat (split; [first [assumption|eapply frame_in; [exact F|eassumption]]|]); rewrite Es; split; [split; [rewrite Es|]; auto|exists o1; split; [eapply frame_in; eauto|split; [eapply frame_in; eauto|auto]]]|].
    split; [left; eapply reaches_arrives; eauto|]. split; [cbn; unfold std_same; auto 8|].
    eapply linked_accounted; [exact L|]. intros s [<-|[]]. auto.
  - destruct (r_known g (o_ty o)) eqn:Ek; [|discriminate]. cbn [spawn_slot spawn_output spawn] in H.
    set (i := {| s_id := c_next c; s_ty := o_ty o; s_scope := scid |}) in *.
    cbn [c_next set_next] in H.
    set (b := {| o_id := S (c_next c); o_ty := o_ty o; o_scope := par |}) in *.
    match type of H with context [std_connect g imp sc (standard g i) o ?x] => set (c1 := x) in * end.
    destruct (std_connect g imp sc (standard g i) o c1) as [[p1 p2]|e] eqn:E; [|discriminate]. injection H as <- <-.
    destruct W as (u & en & term & ex & st & ops & strs & next & n & t & A & B & B' & C & D & D' & _).
    assert (F1 : frame (quiet_slot r) c c1).
    { eapply frame_trans; [apply (frame_next _ (S (S (c_next c))) c); cbn; lia|].
      eapply frame_trans; [apply frame_pass; left; exact I|].
      eapply frame_trans; [apply frame_note; [right; left; eauto|discriminate]|].
      apply frame_note; [right; right; eauto|discriminate]. }
    assert (Hb : In (LPass to b) (c_log c1)) by (cbn; rewrite !in_app_iff; cbn; auto).
    assert (Hi : In (LSlot r i) (c_log c1)) by (cbn; rewrite !in_app_iff; cbn; auto).
    assert (Hst : In (LStream r i b) (c_log c1)) by (cbn; rewrite !in_app_iff; cbn; auto).
    destruct (first_connect r o c c1 sc i p1 p2 F1 Hi) as (F & W & Es & R & L & F2); auto.
    { intros r' o' Hin. cbn in Hin. rewrite !in_app_iff in Hin. cbn in Hin.
      destruct Hin as [[[Hin|[Hin|[]]]|[Hin|[]]]|[Hin|[]]]; try discriminate; auto. injection Hin as <- <-. right; left.
      rewrite D. eapply born_stream; [eapply frame_in; [exact F1|exact A]|exact B|exact B'| |exact D'].
      rewrite <- C. exact Hst. }
    { intros o' s' Hin. cbn in Hin. rewrite !in_app_iff in Hin. cbn in Hin.
      destruct Hin as [[[Hin|[Hin|[]]]|[Hin|[]]]|[Hin|[]]]; try discriminate; auto. }
    split; [auto|]. split.
    { exists u, en, term, ex, st, ops, strs, next, n, t. cbn [fst snd].
      repeat (split; [first [assumption|eapply frame_in; [exact F|eassumption]]|]). rewrite Es.
      exists b. split; [eapply frame_in; [exact F2|exact Hst]|]. split; [eapply frame_in; [exact F2|exact Hb]|]. auto. }
    split; [left; auto|]. split; [cbn; auto|auto].
Qed.

Lemma slot_of_mono log log' p ss r s :
  (forall e, In e log -> In e log') -> slot_of log p ss r s -> slot_of log' p ss r s.
Proof.
  intros H Y. destruct Y; [eapply slot_own|eapply slot_exposed|eapply slot_scope|eapply slot_terminal|eapply slot_stream
    |apply slot_response|apply slot_outside|apply slot_cancel]; eauto.
Qed.

Lemma std_connect_slots sc x o c c' x' r s :
  std_connect g imp sc x o c = inl (c', x') -> std_wf (c_log c) x ->
  In (LSlot r s) (c_log c') -> In (LSlot r s) (c_log c).
Proof.
  intros H W X. destruct (std_connect_ok _ _ _ _ _ _ _ _ H W) as (F & _).
  destruct (frame_new _ _ _ _ F X) as [Y|[]]. auto.
Qed.

Lemma connect_into_slots r sc k o c c' k' p ss r' s' :
  connect_into g imp r sc k o c = inl (c', k') -> conn_wf (c_log c) r k ->
  In (LSlot r' s') (c_log c') -> In (LSlot r' s') (c_log c) \/ slot_of (c_log c') p ss r' s'.
Proof.
  intros H W X. pose proof (connect_into_ok _ _ _ _ _ _ _ H W) as (F & _).
  assert (M : forall e, In e (c_log c) -> In e (c_log c')) by (intros e; eapply frame_in; exact F).
  destruct k as [x| |q j s js xs ts|to seen|scid en start [x|]|scid term ex par nx [x|]|scid par to [x|]]; cbn [connect_into] in H.
  - destruct (std_connect g imp sc x o c) as [[p1 p2]|e] eqn:E; [|discriminate]. injection H as <- <-.
    left. eapply std_connect_slots; [exact E|apply W|exact X].
  - injection H as <- <-. auto.
  - destruct W as (-> & H1 & H2 & H3 & W).
    destruct (cancel_connect_ok _ _ _ _ _ _ _ _ _ _ _ _ _ H W) as (F2 & _).
    destruct (frame_new _ _ _ _ F2 X) as [Y|[]]. auto.
  - destruct (existsb (Nat.eqb (o_id o)) seen) eqn:E; [discriminate|]. injection H as <- <-.
    cbn in X. apply in_app_iff in X as [X|[X|[]]]; [auto|discriminate].
  - destruct (std_connect g imp sc x o c) as [[p1 p2]|e] eqn:E; [|discriminate]. injection H as <- <-.
    destruct W as (u & term & ex & st & ops & strs & nx & A & B & C & D & (Hs & Wx) & E2 & E3).
    left. eapply std_connect_slots; [exact E|exact Wx|exact X].
  - destruct (r_known g (o_ty o)) eqn:Ek; [|discriminate].
    match type of H with context [std_connect g imp sc (standard g ?i) o ?x] => set (c1 := x) in * end.
    match type of H with context [std_connect g imp sc ?x o c1] =>
      destruct (std_connect g imp sc x o c1) as [[p1 p2]|e] eqn:E end; [|discriminate]. injection H as <- <-.
    destruct W as (u & term & ex & st & ops & strs & nx & A & B & -> & D & _).
    apply (std_connect_slots _ _ _ _ _ _ _ _ E (standard_wf g _ _)) in X.
    cbn in X. rewrite !in_app_iff in X. cbn in X. destruct X as [[X|[X|[]]]|[X|[]]]; [auto|discriminate|].
    injection X as <- <-. right. eapply slot_scope; [apply M; exact A|reflexivity].
  - destruct (std_connect g imp sc x o c) as [[p1 p2]|e] eqn:E; [|discriminate]. injection H as <- <-.
    destruct W as (u & en & st & ops & strs & next & A & B & C & D & D' & (Hs & Wx) & E2 & E3).
    left. eapply std_connect_slots; [exact E|exact Wx|exact X].
  - destruct (r_known g (o_ty o)) eqn:Ek; [|discriminate].
    match type of H with context [std_connect g imp sc (standard g ?i) o ?x] => set (c1 := x) in * end.
    match type of H with context [std_connect g imp sc ?x o c1] =>
      destruct (std_connect g imp sc x o c1) as [[p1 p2]|e] eqn:E end; [|discriminate]. injection H as <- <-.
    destruct W as (u & en & st & ops & strs & next & A & B & -> & D & D' & _).
    apply (std_connect_slots _ _ _ _ _ _ _ _ E (standard_wf g _ _)) in X.
    cbn in X. rewrite !in_app_iff in X. cbn in X. destruct X as [[X|[X|[]]]|[X|[]]]; [auto|discriminate|].
    injection X as <- <-. right. eapply slot_terminal; [apply M; exact A|reflexivity|reflexivity].
  - destruct (std_connect g imp sc x o c) as [[p1 p2]|e] eqn:E; [|discriminate]. injection H as <- <-.
    destruct W as (u & en & term & ex & st & ops & strs & next & n & t & A & B & B' & C & D & D' & (Hs & Wx) & o1 & E2 & E3 & E4).
    left. eapply std_connect_slots; [exact E|exact Wx|exact X].
  - destruct (r_known g (o_ty o)) eqn:Ek; [|discriminate]. cbn [spawn_slot spawn_output spawn] in H.
    match type of H with context [std_connect g imp sc (standard g ?i) o ?x] => set (c1 := x) in * end.
    match type of H with context [std_connect g imp sc ?x o c1] =>
      destruct (std_connect g imp sc x o c1) as [[p1 p2]|e] eqn:E end; [|discriminate]. injection H as <- <-.
    destruct W as (u & en & term & ex & st & ops & strs & next & n & t & A & B & B' & -> & D & D' & _).
    destruct (std_connect_ok _ _ _ _ _ _ _ _ E (standard_wf g _ _)) as (F2 & _).
    apply (std_connect_slots _ _ _ _ _ _ _ _ E (standard_wf g _ _)) in X.
    cbn in X. rewrite !in_app_iff in X. cbn in X. destruct X as [[[X|[X|[]]]|[X|[]]]|[X|[]]]; try discriminate; [auto|].
    injection X as <- <-. right. eapply slot_stream; [apply M; exact A|exact B|exact B'| |reflexivity].
    eapply frame_in; [exact F2|]. cbn. rewrite !in_app_iff. cbn. right; left; reflexivity.
Qed.

End Phase.
