(** Every entity of a built diagram has one role, and is in one scope: the invariant. *)
From Verif Require Import Base DiagramModel DiagramSpec DiagramSpec2 DiagramProofs DiagramProofs2 DiagramProofs3 DiagramProofs4 DiagramProofs9.

Definition targets := opref -> option target.

Definition upd (f : targets) (r : opref) (t : target) : targets := fun x => if opref_eq_dec x r then Some t else f x.

Lemma upd_same f r t : upd f r t r = Some t.
Proof. unfold upd. destruct (opref_eq_dec r r); congruence. Qed.

Lemma upd_other f r t x : x <> r -> upd f r t x = f x.
Proof. intros H. unfold upd. destruct (opref_eq_dec x r); congruence. Qed.

(** The slot of a connector, its converters, and the scope inside of what it is
    the terminate of *)
Definition conn_slot (k : connector) (s : slot) : Prop :=
  match k with
  | KStd x => std_slot x = s
  | KCancel q j t _ _ _ => In s [q; j; t]
  | KRequest _ _ _ (Some x) => std_slot x = s
  | KResponse _ _ _ _ _ (Some x) => std_slot x = s
  | KStream _ _ _ (Some x) => std_slot x = s
  | _ => False
  end.

Definition conn_cached (k : connector) : list slot :=
  match k with
  | KStd x => std_cached x
  | KCancel _ _ _ js ss ts => cancel_cached js ss ts
  | KRequest _ _ _ (Some x) => std_cached x
  | KResponse _ _ _ _ _ (Some x) => std_cached x
  | KStream _ _ _ (Some x) => std_cached x
  | _ => []
  end.

Definition inner (t : target) : option nat :=
  match t_conn t with
  | KRedirect _ _ => Some (t_scope t)
  | KResponse sc _ _ _ _ _ => Some sc
  | _ => None
  end.

Definition place_ok (log : list entry) (r : opref) (t : target) : Prop :=
  match t_conn t with
  | KStd _ | KRequest _ _ _ _ | KCancel _ _ _ _ _ _ => lies log r (t_scope t)
  | _ => True
  end.

Lemma evolves_slot k k' s : evolves k k' -> conn_slot k s -> conn_slot k' s.
Proof.
  destruct k as [x| |q j t js ss ts|to seen|scid en start [x|]|scid term ex par nx [x|]|scid par to [x|]],
           k' as [x'| |q' j' t' js' ss' ts'|to' seen'|scid' en' start' [x'|]|scid' term' ex' par' nx' [x'|]|scid' par' to' [x'|]];
    cbn; unfold std_same; try tauto.
  - congruence.
  - intros (-> & -> & ->). auto.
  - intros (_ & _ & _ & ->). auto.
  - intros (_ & _ & _ & _ & _ & ->). auto.
  - intros (_ & _ & _ & ->). auto.
Qed.

Lemma evolves_inner k k' sc : evolves k k' -> inner {| t_conn := k; t_scope := sc |} = inner {| t_conn := k'; t_scope := sc |}.
Proof. destruct k, k'; cbn; try tauto. intros (-> & _). reflexivity. Qed.

Lemma evolves_place log r k k' sc : evolves k k' -> place_ok log r {| t_conn := k; t_scope := sc |} -> place_ok log r {| t_conn := k'; t_scope := sc |}.
Proof. destruct k, k'; cbn; tauto. Qed.

Lemma placed_mono log log' ns sc : (forall e, In e log -> In e log') -> placed log ns sc -> placed log' ns sc.
Proof. intros M H. destruct H; econstructor; eauto. Qed.

Lemma lies_mono log log' r sc : (forall e, In e log -> In e log') -> lies log r sc -> lies log' r sc.
Proof. intros M (ns & A & B). exists ns. split; [auto|]. eapply placed_mono; eauto. Qed.

Lemma place_mono log log' r t : (forall e, In e log -> In e log') -> place_ok log r t -> place_ok log' r t.
Proof. intros M. unfold place_ok. destruct (t_conn t); auto; apply lies_mono; auto. Qed.

Section Inv.
Variable d : diagram.
Variable g : registry.
Notation imp := (implicit d).

Definition linked_ok (f : targets) (log : list entry) (o : output) (s : slot) : Prop :=
  exists r s0 t, In (LSlot r s0) log /\ f r = Some t /\
    ((s = s0 /\ exists k i er, In (LConv k i o er) log /\ o_scope o = t_scope t) \/
     (In (LHand r o) log /\
      (s = s0 \/ exists k out er, In (LConv k s out er) log /\ In (LConnect out s0) log /\ s_scope s = t_scope t))).

Record idinv (f : targets) (log : list entry) (n : nat) (us : list unf) : Prop := {
  i_lt : forall i x, role_of log i x -> i < n;
  i_fun : forall i x y, role_of log i x -> role_of log i y -> x = y;
  i_one : forall r s, In (LSlot r s) log -> exists t, f r = Some t /\ conn_slot (t_conn t) s;
  i_wf : forall r t, f r = Some t -> conn_wf d log r (t_conn t);
  i_cache : forall r t i, f r = Some t -> In i (conn_cached (t_conn t)) -> s_scope i = t_scope t;
  i_link : forall o s, In (LConnect o s) log -> linked_ok f log o s;
  i_ins : forall ns sc, placed log ns sc -> (ns = [] /\ sc = 0) \/
            (ns <> [] /\ exists t, f (RTerminate ns) = Some t /\ inner t = Some sc);
  i_us : forall u, In u us -> placed log (u_ns u) (u_scope u);
  i_built : forall u ins bufs outs, In (LBuilt u ins bufs outs) log -> placed log (u_ns u) (u_scope u);
  i_slots : forall r s, In (LSlot r s) log -> lies log r (s_scope s);
  i_place : forall r t, f r = Some t -> place_ok log r t;
  i_pos : 1 < n /\ (forall i x, role_of log i x -> 1 < i) /\ exists o, In (LPut (named [] (d_start d)) o) log /\ o_id o = 1
}.

Lemma idinv_ext f f' log n us us' : (forall r, f' r = f r) -> (forall u, In u us' -> In u us) -> idinv f log n us -> idinv f' log n us'.
Proof.
  intros E U [a1 a2 a3 a4 a5 a6 a7 a8 a9 a10 a11 a12]. constructor; auto; try (intros r t; rewrite E; auto; fail).
  - intros r t i. rewrite E. apply a5.
  - intros o s X. destruct (a6 o s X) as (r & s0 & t & A & B & C). exists r, s0, t. rewrite E. auto.
Qed.

(** Entries without roles which connect nothing *)
Definition silent (e : entry) : Prop :=
  match e with LPut _ _ | LPass _ _ | LHand _ _ | LLost _ _ => True | _ => False end.

Lemma silent_role L i x : (forall e, In e L -> silent e) -> ~ role_of L i x.
Proof. intros H (e & A & B). specialize (H e A). destruct e; try destruct H; destruct B. Qed.

Lemma idinv_silent f log n us L : (forall e, In e L -> silent e) -> idinv f log n us -> idinv f (log ++ L) n us.
Proof.
  intros S [a1 a2 a3 a4 a5 a6 a7 a8 a9 a10 a11 a12].
  assert (M : forall e, In e log -> In e (log ++ L)) by (intros; apply in_app_iff; auto).
  assert (B : forall e, In e (log ++ L) -> ~ silent e -> In e log).
  { intros e X Y. apply in_app_iff in X as [X|X]; [auto|]. destruct (Y (S e X)). }
  assert (R : forall i x, role_of (log ++ L) i x -> role_of log i x).
  { intros i x X. apply role_app in X as [X|X]; [auto|]. destruct (silent_role _ _ _ S X). }
  assert (P : forall ns sc, placed (log ++ L) ns sc -> placed log ns sc).
  { intros ns sc X. destruct X as [|u ins bufs outs p cn X E|u sc en te ex X]; [constructor| |];
      (apply B in X; [econstructor; eauto|intros []]). }
  constructor.
  - intros i x X. eauto.
  - intros i x y X Y. eauto.
  - intros r s X. apply a3. apply B; [auto|intros []].
  - intros r t X. eapply conn_wf_mono; eauto.
  - exact a5.
  - intros o s X. apply B in X; [|intros []]. destruct (a6 o s X) as (r & s0 & t & A1 & A2 & A3). exists r, s0, t.
    split; [auto|]. split; [auto|]. destruct A3 as [(-> & k & i & er & A3 & A4)|[A3 [A4|(k & out & er & A4 & A5 & A6)]]].
    + left. split; [auto|]. eauto 8.
    + right. auto.
    + right. split; [auto|]. right. eauto 8.
  - intros ns sc X. apply a7. apply P. exact X.
  - intros u X. eapply placed_mono; eauto.
  - intros u ins bufs outs X. apply B in X; [|intros []]. eapply placed_mono; eauto.
  - intros r s X. apply B in X; [|intros []]. eapply lies_mono; eauto.
  - intros r t X. eapply place_mono; eauto.
  - destruct a12 as (P1 & P2 & o & P3 & P4). split; [auto|]. split; [eauto|]. exists o. auto.
Qed.

(** ** Steps of the build phase *)
Lemma idinv_build f f' log n n' us us' L :
  idinv f log n us -> n <= n' ->
  (forall r t, f r = Some t -> f' r = Some t) ->
  fresh_roles n n' L -> (forall i x y, role_of L i x -> role_of L i y -> x = y) ->
  (forall o s, ~ In (LConnect o s) L) ->
  (forall r s, In (LSlot r s) L -> (exists t, f' r = Some t /\ conn_slot (t_conn t) s) /\ lies (log ++ L) r (s_scope s)) ->
  (forall r t, f' r = Some t -> f r = Some t \/ (conn_cached (t_conn t) = [] /\ place_ok (log ++ L) r t)) ->
  (forall r t, f' r = Some t -> conn_wf d (log ++ L) r (t_conn t)) ->
  (forall u ins bufs outs, In (LBuilt u ins bufs outs) L -> placed (log ++ L) (u_ns u) (u_scope u) /\
     forall p cn, u_op u = OSection p cn -> exists t, f' (RTerminate (u_ns u ++ [u_id u])) = Some t /\ inner t = Some (u_scope u)) ->
  (forall u sc en te ex, In (LScope u sc en te ex) L -> exists t, f' (RTerminate (u_ns u ++ [u_id u])) = Some t /\ inner t = Some sc) ->
  (forall u, In u us' -> In u us \/ placed (log ++ L) (u_ns u) (u_scope u)) ->
  idinv f' (log ++ L) n' us'.
Proof.
  intros [a1 a2 a3 a4 a5 a6 a7 a8 a9 a10 a11 a12] Le Ef Fr Fu Nc Hs Hc Hw Hb Hsc Hu.
  assert (M : forall e, In e log -> In e (log ++ L)) by (intros; apply in_app_iff; auto).
  assert (Fr' : forall i x, role_of L i x -> n <= i < n') by (intros i x (e & A & B); eapply Fr; eauto).
  assert (Sp : forall e, In e (log ++ L) -> In e log \/ In e L) by (intros e; rewrite in_app_iff; auto).
  constructor.
  - intros i x X. apply role_app in X as [X|X]; [specialize (a1 _ _ X); lia|specialize (Fr' _ _ X); lia].
  - intros i x y X Y. apply role_app in X as [X|X]; apply role_app in Y as [Y|Y]; eauto.
    + specialize (a1 _ _ X). specialize (Fr' _ _ Y). lia.
    + specialize (a1 _ _ Y). specialize (Fr' _ _ X). lia.
  - intros r s X. apply Sp in X as [X|X]; [|apply Hs; exact X]. destruct (a3 r s X) as (t & A & B). exists t. auto.
  - exact Hw.
  - intros r t i X Y. destruct (Hc r t X) as [Z|[Z _]]; [eauto|]. rewrite Z in Y. destruct Y.
  - intros o s X. apply Sp in X as [X|X]; [|destruct (Nc _ _ X)].
    destruct (a6 o s X) as (r & s0 & t & A1 & A2 & A3). exists r, s0, t.
    split; [auto|]. split; [auto|]. destruct A3 as [(-> & k & i & er & A3 & A4)|[A3 [A4|(k & out & er & A4 & A5 & A6)]]].
    + left. split; [auto|]. eauto 8.
    + right. auto.
    + right. split; [auto|]. right. eauto 8.
  - assert (Ne : forall u : unf, u_ns u ++ [u_id u] <> []) by (intros u; destruct (u_ns u); discriminate).
    assert (Old : forall ns sc, placed log ns sc -> (ns = [] /\ sc = 0) \/ (ns <> [] /\ exists t, f' (RTerminate ns) = Some t /\ inner t = Some sc)).
    { intros ns sc X. destruct (a7 _ _ X) as [Y|(Y & t & Z1 & Z2)]; [auto|]. right. split; [auto|]. exists t. auto. }
    intros ns sc X. destruct X as [|u ins bufs outs p cn X E|u sc en te ex X].
    + left. auto.
    + apply Sp in X as [X|X]; [apply Old; econstructor; eauto|]. right. split; [apply Ne|]. destruct (Hb _ _ _ _ X) as [_ Y]. eapply Y; eauto.
    + apply Sp in X as [X|X]; [apply Old; econstructor; eauto|]. right. split; [apply Ne|]. eapply Hsc; eauto.
  - intros u X. destruct (Hu u X) as [Y|Y]; [|exact Y]. eapply placed_mono; eauto.
  - intros u ins bufs outs X. apply Sp in X as [X|X]; [|apply (Hb _ _ _ _ X)]. eapply placed_mono; [exact M|]. eauto.
  - intros r s X. apply Sp in X as [X|X]; [|apply Hs; exact X]. eapply lies_mono; eauto.
  - intros r t X. destruct (Hc r t X) as [Z|[_ Z]]; [|exact Z]. eapply place_mono; eauto.
  - destruct a12 as (P1 & P2 & o1 & P3 & P4). split; [lia|]. split; [|exists o1; auto]. intros i x X. apply role_app in X as [X|X]; [eauto|]. specialize (Fr' _ _ X). lia.
Qed.

(** ** Steps of the connect phase *)

Lemma cached_leads log r k i : conn_wf d log r k -> In i (conn_cached k) ->
  exists s0 kk out er, In (LSlot r s0) log /\ In (LConv kk i out er) log /\ In (LConnect out s0) log.
Proof.
  assert (C : forall kk s inc, cache kk log s inc -> In i (map snd inc) -> exists out er, In (LConv kk i out er) log /\ In (LConnect out s) log).
  { intros kk s inc H X. apply in_map_iff in X as ([ty i'] & <- & X). destruct (H _ _ X) as (_ & out & er & A & B). eauto. }
  assert (S : forall x, wired log r x -> In i (std_cached x) ->
    exists s0 kk out er, In (LSlot r s0) log /\ In (LConv kk i out er) log /\ In (LConnect out s0) log).
  { intros x [A B] X. exists (std_slot x). destruct x as [s inc|s [j|]|s]; cbn in *.
    - destruct B as [_ B]. destruct (C _ _ _ B X) as (out & er & B1 & B2). eauto 8.
    - destruct X as [->|[]]. destruct B as (_ & out & er & B1 & B2). eauto 8.
    - destruct X.
    - destruct X. }
  destruct k as [x| |q j t js ss ts|to seen|scid en start [x|]|scid term ex par nx [x|]|scid par to [x|]]; cbn [conn_wf conn_cached]; intros W X; try (destruct X; fail).
  - eauto.
  - destruct W as (-> & W1 & W2 & W3 & _ & _ & _ & W4 & W5 & W6). unfold cancel_cached in X. rewrite !in_app_iff in X.
    destruct X as [X|[X|X]]; [destruct (C _ _ _ W4 X) as (out & er & B1 & B2)|destruct (C _ _ _ W5 X) as (out & er & B1 & B2)|destruct (C _ _ _ W6 X) as (out & er & B1 & B2)]; eauto 10.
  - destruct W as (u & te & ex & st & ops & strs & nx & _ & _ & _ & _ & W & _). eauto.
  - destruct W as (u & en & st & ops & strs & nx' & _ & _ & _ & _ & _ & W & _). eauto.
  - destruct W as (u & en & te & ex & st & ops & strs & nx' & n & t & _ & _ & _ & _ & _ & _ & W & _). eauto.
Qed.

(** One connection into [s], which is a slot of [r] *)
Lemma idinv_links f log n us r sc k k' s o L n' cs' :
  idinv f log n us -> f r = Some {| t_conn := k; t_scope := sc |} -> In (LSlot r s) log -> In (LHand r o) log ->
  links sc imp s o n (conn_cached k) L n' cs' -> (forall x, In x (conn_cached k') -> In x cs') ->
  evolves k k' -> conn_wf d (log ++ L) r k' ->
  idinv (upd f r {| t_conn := k'; t_scope := sc |}) (log ++ L) n' us.
Proof.
  intros [a1 a2 a3 a4 a5 a6 a7 a8 a9 a10 a11 a12] Fr Hs Hh Hl Hk Ev Wk.
  set (t' := {| t_conn := k'; t_scope := sc |}).
  assert (M : forall e, In e log -> In e (log ++ L)) by (intros; apply in_app_iff; auto).
  assert (Sp : forall e, In e (log ++ L) -> In e log \/ In e L) by (intros e; rewrite in_app_iff; auto).
  assert (Shape : forall e, In e L -> match e with LConnect _ _ | LPass _ _ | LConv _ _ _ _ => True | _ => False end).
  { destruct Hl; intros e X; repeat (destruct X as [<-|X]; [exact I|]); destruct X. }
  assert (Ro : forall i x, role_of L i x -> n <= i < n').
  { destruct Hl; intros j x (e & A & B); repeat (destruct A as [<-|A]; [cbn in B; repeat (destruct B as [B|B]; [injection B as <- _; subst; cbn; lia|]); destruct B|]); destruct A. }
  assert (Fu : forall i x y, role_of L i x -> role_of L i y -> x = y).
  { assert (K : forall j x, role_of L j x -> exists kk i out er, In (LConv kk i out er) L /\ In (j, x) (roles (LConv kk i out er))).
    { intros j x (e & A & B). specialize (Shape e A). destruct e; try contradiction; try (destruct B; fail). eauto 10. }
    destruct Hl; intros j x y X Y; apply K in X as (k1 & i1 & o1 & e1 & X1 & X2); apply K in Y as (k2 & i2 & o2 & e2 & Y1 & Y2);
      cbn in X1, Y1; repeat (destruct X1 as [X1|X1]; [try discriminate|]); repeat (destruct Y1 as [Y1|Y1]; [try discriminate|]); try (destruct X1; fail); try (destruct Y1; fail);
      injection X1 as <- <- <- <-; injection Y1 as <- <- <- <-; subst; cbn in X2, Y2;
      repeat (destruct X2 as [X2|X2]; [|]); try (destruct X2; fail); repeat (destruct Y2 as [Y2|Y2]; [|]); try (destruct Y2; fail); try congruence;
      injection X2 as X2 <-; injection Y2 as Y2 <-; lia. }
  assert (Le : n <= n') by (destruct Hl; lia).
  assert (Bld : forall u ins bufs outs, In (LBuilt u ins bufs outs) (log ++ L) -> In (LBuilt u ins bufs outs) log).
  { intros u ins bufs outs X. apply Sp in X as [X|X]; [auto|]. destruct (Shape _ X). }
  assert (Bsc : forall u sc en te ex, In (LScope u sc en te ex) (log ++ L) -> In (LScope u sc en te ex) log).
  { intros u sc1 en te ex X. apply Sp in X as [X|X]; [auto|]. destruct (Shape _ X). }
  assert (Bsl : forall r s, In (LSlot r s) (log ++ L) -> In (LSlot r s) log).
  { intros r1 s1 X. apply Sp in X as [X|X]; [auto|]. destruct (Shape _ X). }
  constructor.
  - intros i x X. apply role_app in X as [X|X]; [specialize (a1 _ _ X); lia|specialize (Ro _ _ X); lia].
  - intros i x y X Y. apply role_app in X as [X|X]; apply role_app in Y as [Y|Y]; eauto.
    + specialize (a1 _ _ X). specialize (Ro _ _ Y). lia.
    + specialize (a1 _ _ Y). specialize (Ro _ _ X). lia.
  - intros r1 s1 X. apply Bsl in X. destruct (a3 _ _ X) as (t & A & B). destruct (opref_eq_dec r1 r) as [->|N].
    + exists t'. split; [apply upd_same|]. rewrite Fr in A. injection A as <-. eapply evolves_slot; [exact Ev|exact B].
    + exists t. rewrite upd_other by exact N. auto.
  - intros r1 t X. destruct (opref_eq_dec r1 r) as [->|N].
    + rewrite upd_same in X. injection X as <-. exact Wk.
    + rewrite upd_other in X by exact N. eapply conn_wf_mono; eauto.
  - intros r1 t i X Y. destruct (opref_eq_dec r1 r) as [->|N].
    + rewrite upd_same in X. injection X as <-. apply Hk in Y. cbn [t_scope t'].
      destruct Hl as [cs' Hc|j cs' Hj Hc|kk ti to cs' j ok er Hc|kk ti to cs' j out Hc]; apply Hc in Y; try destruct Y as [->|Y]; try reflexivity;
        exact (a5 _ _ _ Fr Y).
    + rewrite upd_other in X by exact N. eauto.
  - intros o1 s1 X. apply Sp in X as [X|X].
    + destruct (a6 o1 s1 X) as (r1 & s0 & t & A1 & A2 & A3).
      assert (T : exists t1, upd f r t' r1 = Some t1 /\ t_scope t1 = t_scope t).
      { destruct (opref_eq_dec r1 r) as [->|N]; [exists t'; rewrite upd_same; rewrite Fr in A2; injection A2 as <-; auto|].
        exists t. rewrite upd_other by exact N. auto. }
      destruct T as (t1 & T1 & T2). exists r1, s0, t1. rewrite T2. split; [auto|]. split; [auto|].
      destruct A3 as [(-> & kk & i & er & A3 & A4)|[A3 [A4|(kk & out & er & A4 & A5 & A6)]]].
      * left. split; [auto|]. eauto 8.
      * right. auto.
      * right. split; [auto|]. right. eauto 8.
    + destruct Hl as [cs' Hc|j cs' Hj Hc|kk ti to cs' j ok er Hc|kk ti to cs' j out Hc].
      * destruct X as [X|[]]. injection X as <- <-. exists r, s, t'. rewrite upd_same. split; [auto|]. split; [auto|]. right. auto.
      * destruct X as [X|[]]. injection X as <- <-. destruct (cached_leads _ _ _ _ (a4 _ _ Fr) Hj) as (s0 & kk & out & er & B1 & B2 & B3).
        exists r, s0, t'. rewrite upd_same. split; [auto|]. split; [auto|]. right. split; [auto|]. right. exists kk, out, er.
        split; [auto|]. split; [auto|]. exact (a5 _ _ _ Fr Hj).
      * exists r, s, t'. rewrite upd_same. split; [auto|]. split; [auto|].
        destruct X as [X|[X|[X|[X|[]]]]]; try discriminate; injection X as <- <-.
        -- left. split; [auto|]. exists kk, j, (Some er). split; [apply in_app_iff; right; left; reflexivity|reflexivity].
        -- right. split; [auto|]. right. exists kk, ok, (Some er). split; [apply in_app_iff; right; left; reflexivity|].
           split; [apply in_app_iff; right; right; left; reflexivity|reflexivity].
      * exists r, s, t'. rewrite upd_same. split; [auto|]. split; [auto|].
        destruct X as [X|[X|[X|[]]]]; try discriminate; injection X as <- <-.
        -- left. split; [auto|]. exists kk, j, None. split; [apply in_app_iff; right; left; reflexivity|reflexivity].
        -- right. split; [auto|]. right. exists kk, out, None. split; [apply in_app_iff; right; left; reflexivity|].
           split; [apply in_app_iff; right; right; left; reflexivity|reflexivity].
  - intros ns sc1 X.
    assert (Y : placed log ns sc1).
    { destruct X as [|u ins bufs outs p cn X E|u sc1 en te ex X]; [constructor|apply Bld in X; econstructor; eauto|apply Bsc in X; econstructor; eauto]. }
    destruct (a7 _ _ Y) as [Z|(Z & t & Z1 & Z2)]; [auto|]. right. split; [auto|].
    destruct (opref_eq_dec (RTerminate ns) r) as [E|N].
    + exists t'. subst r. split; [apply upd_same|]. rewrite Fr in Z1. injection Z1 as <-. rewrite <- Z2. symmetry. apply evolves_inner. exact Ev.
    + exists t. rewrite upd_other by exact N. auto.
  - intros u X. eapply placed_mono; eauto.
  - intros u ins bufs outs X. eapply placed_mono; eauto.
  - intros r1 s1 X. eapply lies_mono; eauto.
  - intros r1 t X. destruct (opref_eq_dec r1 r) as [->|N].
    + rewrite upd_same in X. injection X as <-. eapply evolves_place; [exact Ev|]. eapply place_mono; [exact M|]. apply a11. exact Fr.
    + rewrite upd_other in X by exact N. eapply place_mono; [exact M|]. auto.
  - destruct a12 as (P1 & P2 & o1 & P3 & P4). split; [lia|]. split; [|exists o1; auto]. intros i x X. apply role_app in X as [X|X]; [eauto|]. specialize (Ro _ _ X). lia.
Qed.

End Inv.
