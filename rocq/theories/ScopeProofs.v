(** Proofs about scopes: outcomes of sessions. *)
From Verif Require Import Base ScopeModel ScopeSpec.

(** * Tracking of notifications *)

Lemma c_get_remove m id : c_get (c_remove m id) id = None.
Proof.
  induction m as [|[k ns] m IH]; [reflexivity|]. cbn.
  destruct (Nat.eqb_spec k id) as [->|E]; cbn; [exact IH|].
  destruct (Nat.eqb_spec k id); [contradiction|exact IH].
Qed.

Lemma c_get_remove_neq m id id' : id' <> id -> c_get (c_remove m id) id' = c_get m id'.
Proof.
  intros H. induction m as [|[k ns] m IH]; [reflexivity|]. cbn.
  destruct (Nat.eqb_spec k id) as [->|E]; cbn.
  - destruct (Nat.eqb_spec id id') as [->|_]; [congruence|exact IH].
  - destruct (Nat.eqb_spec k id'); [reflexivity|exact IH].
Qed.

Lemma c_get_add m id ns : c_get (add_cleanup m id ns) id = Some ns.
Proof. unfold add_cleanup. cbn. now rewrite Nat.eqb_refl. Qed.

Lemma c_get_add_neq m id ns id' : id' <> id -> c_get (add_cleanup m id ns) id' = c_get m id'.
Proof.
  intros H. unfold add_cleanup. cbn. destruct (Nat.eqb_spec id id'); [congruence|].
  now apply c_get_remove_neq.
Qed.

Lemma notify_other m id n id' :
  id' <> id -> c_get (fst (notify_contents m id n)) id' = c_get m id'.
Proof.
  intros H. unfold notify_contents, register_cleanup. destruct (c_get m id) as [ns|]; [|reflexivity].
  destruct (filter _ ns); cbn [fst].
  - rewrite c_get_remove_neq by exact H. now apply c_get_add_neq.
  - now apply c_get_add_neq.
Qed.

Lemma notify_none m id n : c_get m id = None -> notify_contents m id n = (m, false).
Proof. intros H. unfold notify_contents, register_cleanup. now rewrite H. Qed.

Definition without (n : entity) (ns : list entity) := filter (fun x => negb (Nat.eqb x n)) ns.

Lemma in_without n x ns : In x (without n ns) <-> In x ns /\ x <> n.
Proof.
  unfold without. rewrite filter_In. split; intros [H1 H2]; split; auto.
  - intros ->. rewrite Nat.eqb_refl in H2. discriminate.
  - destruct (Nat.eqb_spec x n); [contradiction|reflexivity].
Qed.

Lemma notify_some m id n ns :
  c_get m id = Some ns ->
  (without n ns = [] /\ snd (notify_contents m id n) = true /\
   c_get (fst (notify_contents m id n)) id = None) \/
  (without n ns <> [] /\ snd (notify_contents m id n) = false /\
   c_get (fst (notify_contents m id n)) id = Some (without n ns)).
Proof.
  intros H. unfold notify_contents, register_cleanup. rewrite H. fold (without n ns).
  destruct (without n ns) as [|x r] eqn:E; cbn [fst snd].
  - left. repeat split. apply c_get_remove.
  - right. repeat split; [discriminate|]. apply c_get_add.
Qed.

Lemma reported_none m id l :
  c_get m id = None -> not_added id l -> reported id (snd (note_run m l)) = 0.
Proof.
  revert m. induction l as [|[i ns|i n] l IH]; intros m Hm Hn; [reflexivity| |]; cbn.
  - apply IH.
    + destruct (Nat.eq_dec i id) as [->|E].
      * exfalso. apply (Hn ns). now left.
      * rewrite c_get_add_neq; auto.
    + intros k H. apply (Hn k). now right.
  - assert (Hn' : not_added id l) by (intros k H; apply (Hn k); now right).
    destruct (Nat.eq_dec i id) as [->|E].
    + rewrite notify_none by exact Hm.
      destruct (note_run m l) as [m'' r] eqn:R. cbn. specialize (IH m Hm Hn'). now rewrite R in IH.
    + pose proof (notify_other m i n id (not_eq_sym E)) as Ho.
      destruct (notify_contents m i n) as [m' done] eqn:N. cbn [fst] in Ho.
      specialize (IH m'). destruct (note_run m' l) as [m'' r] eqn:R. cbn [snd] in *.
      rewrite Ho in IH. specialize (IH Hm Hn').
      destruct done; [|exact IH]. unfold reported in *. cbn.
      destruct (Nat.eqb_spec id i); [congruence|exact IH].
Qed.

Lemma reported_once m id ns l :
  c_get m id = Some ns -> ns <> [] -> not_added id l ->
  (all_done id ns l -> reported id (snd (note_run m l)) = 1) /\
  (~ all_done id ns l -> reported id (snd (note_run m l)) = 0).
Proof.
  revert m ns. induction l as [|[i ks|i n] l IH]; intros m ns Hm Hne Hn.
  - split; intros H; [|reflexivity].
    destruct ns as [|x ns]; [congruence|]. exfalso. apply (H x). now left.
  - assert (Hn' : not_added id l) by (intros k H; apply (Hn k); now right).
    assert (E : i <> id) by (intros ->; apply (Hn ks); now left).
    assert (A : all_done id ns (NAdd i ks :: l) <-> all_done id ns l).
    { unfold all_done. split; intros H x Hx; specialize (H x Hx).
      - destruct H as [H|H]; [discriminate|exact H].
      - now right. }
    rewrite A. cbn. apply IH; auto. rewrite c_get_add_neq; auto.
  - assert (Hn' : not_added id l) by (intros k H; apply (Hn k); now right).
    cbn [note_run]. destruct (Nat.eq_dec i id) as [->|E].
    + assert (A : all_done id ns (NDone id n :: l) <-> all_done id (without n ns) l).
      { unfold all_done. split; intros H x Hx.
        - apply in_without in Hx as [Hx Hne']. destruct (H x Hx) as [H'|H']; [congruence|exact H'].
        - destruct (Nat.eq_dec x n) as [->|Hne']; [now left|]. right. apply H. now apply in_without. }
      rewrite A. clear A.
      destruct (notify_some m id n ns Hm) as [(Hw & Hd & Hg)|(Hw & Hd & Hg)];
        destruct (notify_contents m id n) as [m' done] eqn:N; cbn [fst snd] in *; subst done.
      * pose proof (reported_none m' id l Hg Hn') as R0.
        destruct (note_run m' l) as [m'' r] eqn:R. cbn [snd] in *. unfold reported in *. cbn.
        rewrite Nat.eqb_refl. cbn. rewrite R0. rewrite Hw. split; [reflexivity|].
        intros H. exfalso. apply H. intros x [].
      * destruct (IH m' (without n ns) Hg Hw Hn') as [I1 I2].
        destruct (note_run m' l) as [m'' r] eqn:R. cbn [snd] in *. split; assumption.
    + assert (A : all_done id ns (NDone i n :: l) <-> all_done id ns l).
      { unfold all_done. split; intros H x Hx; specialize (H x Hx).
        - destruct H as [H|H]; [congruence|exact H].
        - now right. }
      rewrite A. clear A. pose proof (notify_other m i n id (not_eq_sym E)) as Ho.
      destruct (notify_contents m i n) as [m' done] eqn:N. cbn [fst] in Ho.
      rewrite Hm in Ho. destruct (IH m' ns Ho Hne Hn') as [I1 I2].
      destruct (note_run m' l) as [m'' r] eqn:R. cbn [snd] in *.
      unfold reported in *. destruct done; cbn; [|split; assumption].
      destruct (Nat.eqb_spec id i); [congruence|split; assumption].
Qed.

(** * Logs *)

Section Logs.
  Context {V : Type}.
  Implicit Types (e : event V) (l : list (event V)).

  Lemma decided_app p s l l' :
    decided p s (l ++ l') = match decided p s l with Some f => Some f | None => decided p s l' end.
  Proof.
    induction l as [|e l IH]; [reflexivity|]. cbn. destruct (decides p s e); [reflexivity|exact IH].
  Qed.

  Definition has_start s l := existsb (starts s) l.

  Lemma has_start_in s l : has_start s l = true <-> exists p, In (EBegin p s) l.
  Proof.
    unfold has_start. rewrite existsb_exists. split.
    - intros (e & Hin & H). destruct e; try discriminate. cbn in H. apply Nat.eqb_eq in H. subst.
      eauto.
    - intros [p H]. exists (EBegin p s). split; [exact H|]. cbn. apply Nat.eqb_refl.
  Qed.

  Lemma verdict_app p s l l' :
    verdict p s (l ++ l') =
    if has_start s l
    then match verdict p s l with Some f => Some f | None => decided p s l' end
    else verdict p s l'.
  Proof.
    induction l as [|e l IH]; [reflexivity|]. cbn. destruct (starts s e); cbn.
    - apply decided_app.
    - exact IH.
  Qed.

  Lemma verdict_no_start p s l : has_start s l = false -> verdict p s l = None.
  Proof.
    induction l as [|e l IH]; [reflexivity|]. cbn. destruct (starts s e); [discriminate|exact IH].
  Qed.

  Lemma verdict_keep p s l l' f : verdict p s l = Some f -> verdict p s (l ++ l') = Some f.
  Proof.
    intros H. rewrite verdict_app. destruct (has_start s l) eqn:E; [now rewrite H|].
    rewrite (verdict_no_start p s l E) in H. discriminate.
  Qed.

  Lemma verdict_snoc p s l e :
    In (EBegin p s) l ->
    verdict p s (l ++ [e]) = match verdict p s l with Some f => Some f | None => decides p s e end.
  Proof.
    intros H. rewrite verdict_app. rewrite (proj2 (has_start_in s l)); [|eauto].
    cbn. destruct (verdict p s l); [reflexivity|]. destruct (decides p s e); reflexivity.
  Qed.

  Lemma outcomes_app s l l' : outcomes s (l ++ l') = outcomes s l + outcomes s l'.
  Proof. unfold outcomes. rewrite filter_app, app_length. reflexivity. Qed.

  Lemma outcomes_none s l : (forall e, In e l -> is_outcome s e = false) -> outcomes s l = 0.
  Proof.
    intros H. unfold outcomes. induction l as [|e l IH]; [reflexivity|]. cbn.
    rewrite H by now left. apply IH. intros e' H'. apply H. now right.
  Qed.

  Definition neutral e : Prop :=
    match e with
    | ENode _ _ _ | EFlowEnd _ | EClean _ _ | ECleaned _ | EFlow _ _ | ENotify _ | EEnd _ => True
    | _ => False
    end.

  (** ** What is known about one session *)

  Record good (s : entity) (ps : list pair) (rs : list await) (st : option V)
      (par : option entity) (fresh : Prop) l : Prop := {
    g_fresh : fresh -> ps = [] /\ rs = [] /\ st = None /\ par = None /\
                       has_start s l = false /\ outcomes s l = 0;
    g_one : length ps <= 1;
    g_tail : forall a, In a (tl rs) -> a_status a = FEarly /\ a_flows a = None;
    g_ppairs : forall q, In q ps -> In (EBegin (p_parent q) s) l;
    g_precs : forall a, In a rs -> In (EBegin (a_parent a) s) l;
    g_ppar : forall p, par = Some p -> In (EBegin p s) l;
    g_single : forall p p', In (EBegin p s) l -> In (EBegin p' s) l -> p = p';
    g_defer : forall q, In q ps -> p_status q <> DeferredCleanup;
    g_ongoing : forall q, In q ps -> p_status q = Ongoing ->
        rs = [] /\ st = None /\ outcomes s l = 0 /\ verdict (p_parent q) s l = None;
    g_head : forall a r, rs = a :: r -> is_early (a_status a) = false -> outcomes s l = 0 /\
        match a_status a with
        | FTerminated => exists v, st = Some v /\ verdict (a_parent a) s l = Some (ByValue v)
        | FCancelled c _ => verdict (a_parent a) s l = Some (ByCancel c)
        | FEarly => True
        end;
    g_outs : outcomes s l <= 1;
    g_right : forall e, In e l -> is_outcome s e = true -> outcome_right l e }.

  Lemma outcome_right_app l l' e : outcome_right l e -> outcome_right (l ++ l') e.
  Proof.
    destruct e; cbn; auto; intros [H1 H2]; (split; [apply in_or_app; now left|now apply verdict_keep]).
  Qed.

  Lemma has_start_app s l l' : has_start s (l ++ l') = (has_start s l || has_start s l')%bool.
  Proof. unfold has_start. apply existsb_app. Qed.

  (** An event which is neither a start nor an outcome of [s], and does not decide
      [s] while [s] is ongoing. *)
  Lemma good_say s ps rs st par fr l e :
    good s ps rs st par fr l ->
    starts s e = false -> is_outcome s e = false ->
    (forall q, In q ps -> p_status q = Ongoing -> decides (p_parent q) s e = None) ->
    good s ps rs st par fr (l ++ [e]).
  Proof.
    intros [F O T P1 P2 P3 S D G Hh U R] Hs Ho Hd.
    assert (Eo : outcomes s (l ++ [e]) = outcomes s l).
    { rewrite outcomes_app. unfold outcomes at 2. cbn. rewrite Ho. cbn. lia. }
    assert (Hin : forall p, In (EBegin p s) (l ++ [e]) -> In (EBegin p s) l).
    { intros p H. apply in_app_or in H as [H|[->|[]]]; [exact H|]. cbn in Hs.
      rewrite Nat.eqb_refl in Hs. discriminate. }
    constructor; auto.
    - intros Hf. destruct (F Hf) as (?&?&?&?&H5&?). repeat split; auto; [|congruence].
      rewrite has_start_app, H5. cbn. now rewrite Hs.
    - intros q H. apply in_or_app. left. auto.
    - intros q H. apply in_or_app. left. auto.
    - intros q H. apply in_or_app. left. auto.
    - intros q Hq Hon. destruct (G q Hq Hon) as (H1&H2&H3&H4). repeat split; auto; [congruence|].
      rewrite verdict_snoc by auto. rewrite H4. auto.
    - intros a r E Ha. destruct (Hh a r E Ha) as [H1 H2]. split; [congruence|].
      destruct (a_status a); auto.
      + destruct H2 as (v & ? & ?). exists v. split; [assumption|]. now apply verdict_keep.
      + now apply verdict_keep.
    - rewrite Eo. exact U.
    - intros e' H Ho'. apply in_app_or in H as [H|[->|[]]]; [|congruence].
      apply outcome_right_app. auto.
  Qed.

  Lemma neutral_ok s e : neutral e -> starts s e = false /\ is_outcome s e = false /\ forall p, decides p s e = None.
  Proof. destruct e; cbn; intros H; try contradiction; auto. Qed.

  Lemma good_neutral s ps rs st par fr l evs :
    good s ps rs st par fr l -> Forall neutral evs -> good s ps rs st par fr (l ++ evs).
  Proof.
    intros H N. revert l H. induction N as [|e evs He N IH]; intros l H; [now rewrite app_nil_r|].
    change (e :: evs) with ([e] ++ evs). rewrite app_assoc. apply IH.
    destruct (neutral_ok s e He) as (?&?&?). apply good_say; auto.
  Qed.

  (** Forgetting pairs. *)
  Lemma good_no_pairs s ps rs st par fr l : good s ps rs st par fr l -> good s [] rs st par fr l.
  Proof.
    intros [F O T P1 P2 P3 S D G Hh U R]. constructor; auto; try (intros q []).
    intros Hf. destruct (F Hf) as (?&?&?&?&?&?). auto 10.
  Qed.

  (** Forgetting that the session entity exists. *)
  Lemma good_no_parent s ps rs st par fr l : good s ps rs st par fr l -> good s ps rs st None fr l.
  Proof.
    intros [F O T P1 P2 P3 S D G Hh U R]. constructor; auto.
    - intros Hf. destruct (F Hf) as (?&?&?&?&?&?). auto 10.
    - discriminate.
  Qed.

  (** Changing the status of the pair of [s] to one which is not ongoing. *)
  Lemma good_status s ps ps' rs st par fr l :
    good s ps rs st par fr l ->
    map p_parent ps' = map p_parent ps ->
    (forall q, In q ps' -> p_status q <> DeferredCleanup /\ p_status q <> Ongoing) ->
    good s ps' rs st par fr l.
  Proof.
    intros [F O T P1 P2 P3 S D G Hh U R] Hm Hs. constructor; auto.
    - intros Hf. destruct (F Hf) as (E&?&?&?&?&?). repeat split; auto. subst ps.
      destruct ps'; [reflexivity|discriminate].
    - rewrite <- (map_length p_parent), Hm, map_length. exact O.
    - intros q Hq. apply (in_map p_parent) in Hq. rewrite Hm in Hq. apply in_map_iff in Hq as (q' & <- & Hq').
      auto.
    - intros q Hq. apply Hs. exact Hq.
    - intros q Hq Hon. exfalso. now apply (Hs q Hq).
  Qed.

  Lemma good_stage s ps rs st st' par (fr : Prop) l :
    good s ps rs st par fr l -> ~ fr ->
    (forall q, In q ps -> p_status q <> Ongoing) ->
    (forall a r, rs = a :: r -> a_status a <> FTerminated) ->
    good s ps rs st' par fr l.
  Proof.
    intros [F O T P1 P2 P3 S D G Hh U R] Hf Hq Ha. constructor; auto.
    - intros; contradiction.
    - intros q Hin Hon. exfalso. now apply (Hq q).
    - intros a r E Hb. destruct (Hh a r E Hb) as [H1 H2]. split; [exact H1|].
      specialize (Ha a r E). destruct (a_status a); congruence.
  Qed.

  Lemma in_tl {A} (x : A) (r : list A) : In x (tl r) -> In x r.
  Proof. destruct r; [intros []|now right]. Qed.

  Lemma good_filter s ps rs st par fr l (f : await -> bool) :
    good s ps rs st par fr l -> good s ps (filter f rs) st par fr l.
  Proof.
    intros [F O T P1 P2 P3 S D G Hh U R].
    assert (Sub : forall a, In a (tl (filter f rs)) -> In a (tl rs)).
    { destruct rs as [|b rs]; [intros a []|]. cbn [filter tl]. intros a H. destruct (f b).
      - now apply filter_In in H.
      - apply in_tl in H. now apply filter_In in H. }
    constructor; auto.
    - intros Hf. destruct (F Hf) as (?&->&?&?&?&?). auto 10.
    - intros a H. apply P2. now apply filter_In in H.
    - intros q Hq Hon. destruct (G q Hq Hon) as (->&?&?&?). auto 10.
    - intros a r E Ha. destruct rs as [|b rs]; [discriminate|]. cbn in E. destruct (f b).
      + injection E as -> _. apply (Hh a rs eq_refl Ha).
      + exfalso. assert (In a (filter f rs)) by (rewrite E; now left). apply filter_In in H as [H _].
        destruct (T a H) as [H' _]. rewrite H' in Ha. discriminate.
  Qed.

  Lemma good_drop_head s ps a rs st par fr l :
    good s ps (a :: rs) st par fr l -> good s ps rs st par fr l.
  Proof.
    intros [F O T P1 P2 P3 S D G Hh U R]. cbn in T. constructor; auto.
    - intros Hf. destruct (F Hf) as (?&?&?). discriminate.
    - intros b H. apply T. destruct rs; [destruct H|now right].
    - intros b H. apply P2. now right.
    - intros q Hq Hon. destruct (G q Hq Hon) as (?&?). discriminate.
    - intros b r -> Hb. destruct (T b (or_introl eq_refl)) as [H _]. rewrite H in Hb. discriminate.
  Qed.

  Lemma good_outcome s ps rs st par (fr : Prop) l e :
    good s ps rs st par fr l -> ~ fr ->
    (forall q, In q ps -> p_status q <> Ongoing) ->
    (forall a, In a rs -> is_early (a_status a) = true) ->
    is_outcome s e = true -> outcome_right l e -> outcomes s l = 0 ->
    good s ps rs st par fr (l ++ [e]).
  Proof.
    intros [F O T P1 P2 P3 S D G Hh U R] Hf Hq Hr Ho Hright H0.
    assert (Hin : forall p, In (EBegin p s) (l ++ [e]) -> In (EBegin p s) l).
    { intros p H. apply in_app_or in H as [H|[->|[]]]; [exact H|]. discriminate. }
    constructor; auto.
    - intros; contradiction.
    - intros q H. apply in_or_app. left. auto.
    - intros q H. apply in_or_app. left. auto.
    - intros q H. apply in_or_app. left. auto.
    - intros q Hin' Hon. exfalso. now apply (Hq q).
    - intros a r -> Ha. rewrite (Hr a (or_introl eq_refl)) in Ha. discriminate.
    - rewrite outcomes_app, H0. unfold outcomes. cbn. rewrite Ho. cbn. lia.
    - intros e' H Ho'. apply in_app_or in H as [H|[<-|[]]]; apply outcome_right_app; auto.
  Qed.

  (** The record at the head is replaced by one with other workflows or with more
      inner cancellations. *)
  Lemma good_head_flows s ps a a' rs st par fr l :
    good s ps (a :: rs) st par fr l ->
    a_parent a' = a_parent a ->
    match a_status a with
    | FCancelled c _ => exists i, a_status a' = FCancelled c i
    | _ => a_status a' = a_status a
    end ->
    good s ps (a' :: rs) st par fr l.
  Proof.
    intros [F O T P1 P2 P3 S D G Hh U R] Hp Hs. constructor; auto.
    - intros Hf. destruct (F Hf) as (?&?&?). discriminate.
    - intros b [<-|H]; [rewrite Hp; apply P2; now left|apply P2; now right].
    - intros q Hq Hon. destruct (G q Hq Hon) as (?&?). discriminate.
    - intros b r E Hb. injection E as <- <-. specialize (Hh a rs eq_refl).
      rewrite Hp. destruct (a_status a) as [| |c i]; cbn in *.
      + rewrite Hs in *. auto.
      + rewrite Hs in Hb. discriminate.
      + destruct Hs as [i' ->]. auto.
  Qed.

  Lemma good_add_early s ps rs st par fr l a :
    good s ps rs st par fr l -> ~ fr -> (forall q, In q ps -> p_status q <> Ongoing) ->
    a_status a = FEarly -> a_flows a = None -> In (EBegin (a_parent a) s) l ->
    good s ps (rs ++ [a]) st par fr l.
  Proof.
    intros [F O T P1 P2 P3 S D G Hh U R] Hf Hq Hs Hn Hb. constructor; auto.
    - intros; contradiction.
    - intros b H. destruct rs as [|c rs]; [destruct H|]. cbn in H.
      apply in_app_or in H as [H|[<-|[]]]; [apply T; exact H|auto].
    - intros b H. apply in_app_or in H as [H|[<-|[]]]; auto.
    - intros q Hin Hon. exfalso. now apply (Hq q).
    - intros b r E Hb'. destruct rs as [|c rs].
      + injection E as <- <-. rewrite Hs in Hb'. discriminate.
      + injection E as <- <-. apply (Hh c rs eq_refl Hb').
  Qed.

  Lemma good_add_first s ps st par (fr : Prop) l a :
    good s ps [] st par fr l -> ~ fr -> (forall q, In q ps -> p_status q <> Ongoing) ->
    In (EBegin (a_parent a) s) l -> outcomes s l = 0 ->
    match a_status a with
    | FTerminated => exists v, st = Some v /\ verdict (a_parent a) s l = Some (ByValue v)
    | FCancelled c _ => verdict (a_parent a) s l = Some (ByCancel c)
    | FEarly => True
    end ->
    good s ps [a] st par fr l.
  Proof.
    intros [F O T P1 P2 P3 S D G Hh U R] Hf Hq Hb H0 Hm. constructor; auto.
    - intros; contradiction.
    - intros b [<-|[]]; auto.
    - intros q Hin Hon. exfalso. now apply (Hq q).
    - intros b r E _. injection E as <- <-. auto.
  Qed.
End Logs.

(** * List facts *)

Lemma filter_map_commute {A B} (f : A -> A) (p : A -> B -> bool) (b : B) l :
  (forall x, p (f x) b = p x b) -> filter (fun x => p x b) (map f l) = map f (filter (fun x => p x b) l).
Proof.
  intros H. induction l as [|x l IH]; [reflexivity|]. cbn. rewrite H, IH. destruct (p x b); reflexivity.
Qed.

Lemma find_hd {A} (f : A -> bool) l : find f l = hd_error (filter f l).
Proof. induction l as [|x l IH]; [reflexivity|]. cbn. destruct (f x); [reflexivity|exact IH]. Qed.

Definition of_pair (s : entity) (q : pair) := Nat.eqb (p_scoped q) s.
Definition of_await (s : entity) (a : await) := Nat.eqb (a_scoped a) s.

Lemma nodup_of_filter (l : list pair) :
  (forall s, length (filter (of_pair s) l) <= 1) -> NoDup (map p_scoped l).
Proof.
  induction l as [|q l IH]; intros H; [constructor|]. cbn. constructor.
  - intros Hin. apply in_map_iff in Hin as (q' & E & Hin).
    specialize (H (p_scoped q)). cbn in H. unfold of_pair in H at 1. rewrite Nat.eqb_refl in H. cbn in H.
    assert (In q' (filter (of_pair (p_scoped q)) l)).
    { apply filter_In. split; [exact Hin|]. unfold of_pair. now apply Nat.eqb_eq. }
    destruct (filter (of_pair (p_scoped q)) l); [destruct H0|cbn in H; lia].
  - apply IH. intros s. specialize (H s). cbn in H. destruct (of_pair s q); cbn in H; lia.
Qed.

Definition turn (sel : pair -> bool) (f : sstatus -> sstatus * bool) (q : pair) : pair :=
  if sel q then {| p_parent := p_parent q; p_scoped := p_scoped q; p_status := fst (f (p_status q)) |} else q.

Definition turned (sel : pair -> bool) (f : sstatus -> sstatus * bool) (q : pair) : bool :=
  (sel q && snd (f (p_status q)))%bool.

Lemma switch_eq sel f l :
  switch sel f l = (map (turn sel f) l, map p_scoped (filter (turned sel f) l)).
Proof.
  induction l as [|q l IH]; [reflexivity|]. cbn. rewrite IH.
  assert (E1 : turn sel f q = if sel q then {| p_parent := p_parent q; p_scoped := p_scoped q;
                                               p_status := fst (f (p_status q)) |} else q) by reflexivity.
  assert (E2 : turned sel f q = (sel q && snd (f (p_status q)))%bool) by reflexivity.
  rewrite E1, E2. destruct (sel q); cbn [andb]; [|reflexivity].
  destruct (f (p_status q)) as [st hit]. cbn. destruct hit; reflexivity.
Qed.

Lemma turn_scoped sel f q : p_scoped (turn sel f q) = p_scoped q.
Proof. unfold turn. destruct (sel q); reflexivity. Qed.

Lemma turn_parent sel f q : p_parent (turn sel f q) = p_parent q.
Proof. unfold turn. destruct (sel q); reflexivity. Qed.

Lemma filter_turn s sel f l :
  filter (of_pair s) (map (turn sel f) l) = map (turn sel f) (filter (of_pair s) l).
Proof.
  unfold of_pair. apply (filter_map_commute (turn sel f) (fun q b => Nat.eqb (p_scoped q) b) s).
  intros q. now rewrite turn_scoped.
Qed.

Lemma set_first_other s s' st l :
  s' <> s -> filter (of_pair s') (set_first s st l) = filter (of_pair s') l.
Proof.
  intros H. induction l as [|q l IH]; [reflexivity|]. cbn. destruct (Nat.eqb_spec (p_scoped q) s) as [E|E]; cbn.
  - unfold of_pair at 1 3. cbn. rewrite E. destruct (Nat.eqb_spec s s'); [congruence|reflexivity].
  - rewrite IH. reflexivity.
Qed.

Lemma set_first_same s st l :
  filter (of_pair s) (set_first s st l) =
  match filter (of_pair s) l with
  | [] => []
  | q :: r => {| p_parent := p_parent q; p_scoped := p_scoped q; p_status := st |} :: r
  end.
Proof.
  induction l as [|q l IH]; [reflexivity|]. cbn. unfold of_pair at 2.
  destruct (Nat.eqb_spec (p_scoped q) s) as [E|E]; cbn; unfold of_pair at 1; cbn.
  - rewrite E, Nat.eqb_refl. reflexivity.
  - destruct (Nat.eqb_spec (p_scoped q) s); [contradiction|]. exact IH.
Qed.

Lemma filter_filter_other {A} (f g : A -> bool) l :
  (forall x, f x = true -> g x = true) -> filter f (filter g l) = filter f l.
Proof.
  intros H. induction l as [|x l IH]; [reflexivity|]. cbn. destruct (g x) eqn:G; cbn.
  - now rewrite IH.
  - destruct (f x) eqn:F; [rewrite H in G by exact F; discriminate|exact IH].
Qed.

Lemma filter_comm {A} (f g : A -> bool) l : filter f (filter g l) = filter g (filter f l).
Proof.
  induction l as [|x l IH]; [reflexivity|]. cbn. destruct (g x) eqn:G, (f x) eqn:F; cbn; rewrite ?G, ?F, ?IH; reflexivity.
Qed.

Lemma nth_error_cut {A} (l : list A) i a :
  nth_error l i = Some a -> exists l1 l2, l = l1 ++ a :: l2 /\ length l1 = i.
Proof. intros H. apply nth_error_split in H as (l1 & l2 & -> & <-). eauto. Qed.

Lemma update_nth_cut {A} (l1 l2 : list A) a f : update_nth (length l1) f (l1 ++ a :: l2) = l1 ++ f a :: l2.
Proof. induction l1 as [|x l1 IH]; [reflexivity|]. cbn. now rewrite IH. Qed.

Lemma remove_nth_cut {A} (l1 l2 : list A) a : remove_nth (length l1) (l1 ++ a :: l2) = Some (a, l1 ++ l2).
Proof. induction l1 as [|x l1 IH]; [reflexivity|]. cbn. now rewrite IH. Qed.

Lemma nth_error_mid {A} (l1 l2 : list A) a : nth_error (l1 ++ a :: l2) (length l1) = Some a.
Proof. induction l1; [reflexivity|assumption]. Qed.

Lemma position_cut {A} (f : A -> bool) l i :
  position f l = Some i ->
  exists l1 a l2, l = l1 ++ a :: l2 /\ length l1 = i /\ f a = true /\ forallb (fun x => negb (f x)) l1 = true.
Proof.
  revert i. induction l as [|x l IH]; intros i H; [discriminate|]. cbn in H. destruct (f x) eqn:F.
  - injection H as <-. exists [], x, l. repeat split; auto.
  - destruct (position f l) as [j|] eqn:P; [|discriminate]. injection H as <-.
    destruct (IH j eq_refl) as (l1 & a & l2 & -> & <- & Fa & Fl). exists (x :: l1), a, l2.
    repeat split; auto. cbn. rewrite F. exact Fl.
Qed.

Lemma filter_none {A} (f : A -> bool) l : forallb (fun x => negb (f x)) l = true -> filter f l = [].
Proof.
  induction l as [|x l IH]; [reflexivity|]. cbn. intros H. apply andb_prop in H as [H1 H2].
  destruct (f x); [discriminate|]. apply IH; exact H2.
Qed.

Section Staging.
  Context {V : Type}.
  Lemma st_get_remove (m : list (entity * V)) s : st_get (st_remove m s) s = None.
  Proof.
    induction m as [|[k v] m IH]; [reflexivity|]. cbn. destruct (Nat.eqb_spec k s) as [->|E]; cbn; [exact IH|].
    destruct (Nat.eqb_spec k s); [contradiction|exact IH].
  Qed.
  Lemma st_get_remove_neq (m : list (entity * V)) s s' : s' <> s -> st_get (st_remove m s) s' = st_get m s'.
  Proof.
    intros H. induction m as [|[k v] m IH]; [reflexivity|]. cbn. destruct (Nat.eqb_spec k s) as [->|E]; cbn.
    - destruct (Nat.eqb_spec s s'); [congruence|exact IH].
    - destruct (Nat.eqb_spec k s'); [reflexivity|exact IH].
  Qed.
End Staging.

(** * The invariant *)

Local Arguments st_remove : simpl never.

Section Invariant.
  Context {V : Type}.
  Implicit Types (w : sstate V) (g : config).

  Definition vp (s : entity) w := filter (of_pair s) (s_pairs w).
  Definition vr (s : entity) w := filter (of_await s) (s_awaiting w).

  Definition good_at w (s : entity) : Prop :=
    good s (vp s w) (vr s w) (st_get (s_staging w) s) (s_parent w s) (s_next w <= s) (s_log w).

  Record Inv w : Prop := {
    i_good : forall s, good_at w s;
    i_inputs : forall s v, In (s, v) (s_inputs w) -> s < s_next w;
    i_active : forall s, s_active w s = true -> s < s_next w }.

  Lemma inv_neutral w e : Inv w -> neutral e -> Inv (say w e).
  Proof.
    intros [G I A] N. constructor; auto. intros s. unfold good_at.
    apply (good_neutral s _ _ _ _ _ _ [e]); [apply G|]. now constructor.
  Qed.

  (** Changes which the invariant does not notice. *)
  Lemma inv_node_cleaned w cl : Inv w -> Inv (node_cleaned w cl).
  Proof.
    intros H. unfold node_cleaned. set (w1 := say w _).
    assert (Inv w1) as [G I A] by (apply inv_neutral; [exact H|exact Logic.I]).
    destruct (notify_contents _ _ _) as [m d]. destruct d; constructor; auto.
  Qed.

  Lemma inv_notify_cleaned g w cl : Inv w -> Inv (notify_cleaned g w cl).
  Proof.
    intros H. unfold notify_cleaned. destruct (Nat.eqb _ _).
    - destruct (notify_contents _ _ _) as [m d]. destruct H as [G I A]. destruct d; constructor; auto.
    - now apply inv_neutral.
  Qed.

  Lemma inv_clean_nodes g sync s id nodes w : Inv w -> Inv (fold_left (clean_node g sync s id) nodes w).
  Proof.
    revert w. induction nodes as [|n nodes IH]; intros w H; [exact H|]. cbn. apply IH.
    unfold clean_node. destruct (sync n s); [now apply inv_node_cleaned|].
    destruct H as [G I A]. constructor; auto.
  Qed.

  (** The parts of the state which cleaning nodes leaves alone. *)
  Record calm w w' : Prop := {
    c_pairs : s_pairs w' = s_pairs w;
    c_await : s_awaiting w' = s_awaiting w;
    c_stage : s_staging w' = s_staging w;
    c_inputs : s_inputs w' = s_inputs w;
    c_parent : s_parent w' = s_parent w;
    c_active : s_active w' = s_active w;
    c_next : s_next w' = s_next w;
    c_flows : s_flows w' = s_flows w;
    c_cancels : s_cancels w' = s_cancels w;
    c_log : exists evs, s_log w' = s_log w ++ evs /\ Forall neutral evs }.

  Lemma calm_refl w : calm w w.
  Proof. constructor; auto. exists []. rewrite app_nil_r. auto. Qed.

  Lemma calm_trans w1 w2 w3 : calm w1 w2 -> calm w2 w3 -> calm w1 w3.
  Proof.
    intros [? ? ? ? ? ? ? ? ? (e1 & E1 & N1)] [? ? ? ? ? ? ? ? ? (e2 & E2 & N2)]. constructor; try congruence.
    exists (e1 ++ e2). rewrite E2, E1, app_assoc. split; [reflexivity|]. apply Forall_app. auto.
  Qed.

  Lemma calm_say w e : neutral e -> calm w (say w e).
  Proof. intros H. constructor; auto. exists [e]. split; [reflexivity|]. now constructor. Qed.

  Lemma calm_node_cleaned w cl : calm w (node_cleaned w cl).
  Proof.
    unfold node_cleaned. eapply calm_trans; [apply (calm_say w (ENode (cl_node cl) (cl_session cl) (cl_id cl))); exact I|].
    destruct (notify_contents _ _ _) as [m d]. destruct d; constructor; auto; exists []; rewrite app_nil_r; auto.
  Qed.

  Lemma calm_clean_nodes g sync s id nodes w : calm w (fold_left (clean_node g sync s id) nodes w).
  Proof.
    revert w. induction nodes as [|n nodes IH]; intros w; [apply calm_refl|]. cbn.
    eapply calm_trans; [|apply IH]. unfold clean_node. destruct (sync n s); [apply calm_node_cleaned|].
    constructor; auto. exists []. rewrite app_nil_r. auto.
  Qed.

  (** ** Starting the cleanup of a session *)

  Definition ready (st : finish) (s : entity) w : Prop :=
    (forall q, In q (vp s w) -> p_status q <> Ongoing) /\
    (is_early st = false -> vr s w = [] /\ outcomes s (s_log w) = 0 /\
       forall p, In (EBegin p s) (s_log w) ->
         match st with
         | FTerminated => exists v, st_get (s_staging w) s = Some v /\ verdict p s (s_log w) = Some (ByValue v)
         | FCancelled c _ => verdict p s (s_log w) = Some (ByCancel c)
         | FEarly => True
         end).

  Definition new_record (s p : entity) (cl : cleanup) (st : finish) : await :=
    {| a_scoped := s; a_parent := p; a_cleanup := cl; a_status := st; a_flows := None |}.

  (** The effect of [cleanup_session], up to contents, asked nodes and finished
      cleanups. *)
  Lemma cleanup_session_effect g sync cl st s w p :
    s_parent w s = Some p ->
    let w' := fst (cleanup_session g sync cl st s w) in
    snd (cleanup_session g sync cl st s w) = false /\
    s_pairs w' = s_pairs w /\ s_awaiting w' = s_awaiting w ++ [new_record s p cl st] /\
    s_staging w' = s_staging w /\ s_inputs w' = s_inputs w /\ s_parent w' = s_parent w /\
    s_next w' = s_next w /\ (forall e, s_active w' e = true -> s_active w e = true) /\
    s_flows w' = s_flows w /\ s_cancels w' = s_cancels w /\
    exists evs, s_log w' = s_log w ++ evs /\ Forall neutral evs.
  Proof.
    intros Hp. unfold cleanup_session. rewrite Hp. cbn [fst snd].
    set (w1 := say _ (EClean s (cl_id cl))).
    match goal with |- context [set_active ?x _] => set (w2 := x) end.
    assert (C : calm w1 w2).
    { unfold w2. destruct (g_nodes g) as [|n ns].
      - constructor; auto. exists []. rewrite app_nil_r. auto.
      - eapply calm_trans; [|apply calm_clean_nodes].
        constructor; auto. exists []. rewrite app_nil_r. auto. }
    clearbody w2.
    destruct C as [? ? ? ? ? ? ? ? ? (evs & El & N)].
    cbn [set_active s_pairs s_awaiting s_staging s_inputs s_parent s_active s_next s_flows s_cancels s_log] in *.
    split; [reflexivity|]. split; [assumption|]. split; [assumption|]. split; [assumption|].
    split; [assumption|]. split; [assumption|]. split; [assumption|].
    split.
    { intros e. destruct (Nat.eqb e s); [discriminate|]. intros He.
      match goal with H : s_active w2 = _ |- _ => rewrite H in He end. exact He. }
    split; [assumption|]. split; [assumption|].
    exists (EClean s (cl_id cl) :: evs). split.
    - rewrite El. cbn. rewrite <- app_assoc. reflexivity.
    - constructor; [exact I|exact N].
  Qed.

  Lemma cleanup_session_broken g sync cl st s w :
    s_parent w s = None -> cleanup_session g sync cl st s w = (w, true).
  Proof. intros H. unfold cleanup_session. now rewrite H. Qed.

  Lemma vr_snoc s w w' a :
    s_awaiting w' = s_awaiting w ++ [a] ->
    vr s w' = vr s w ++ (if Nat.eqb (a_scoped a) s then [a] else []).
  Proof. intros H. unfold vr. rewrite H, filter_app. cbn. unfold of_await at 2. now destruct (Nat.eqb _ _). Qed.

  Lemma inv_cleanup_session g sync cl st s w :
    Inv w -> ready st s w ->
    Inv (fst (cleanup_session g sync cl st s w)) /\
    forall st' s', s' <> s -> ready st' s' w -> ready st' s' (fst (cleanup_session g sync cl st s w)).
  Proof.
    intros [G II A] [R1 R2]. destruct (s_parent w s) as [p|] eqn:Hp.
    2:{ rewrite cleanup_session_broken by exact Hp. split; [constructor; auto|auto]. }
    destruct (cleanup_session_effect g sync cl st s w p Hp) as (_ & E1 & E2 & E3 & E4 & E5 & E6 & E7 & E8 & E9 & evs & El & N).
    set (w' := fst (cleanup_session g sync cl st s w)) in *. clearbody w'.
    split.
    - constructor.
      + intros s'. unfold good_at. rewrite (vr_snoc s' w w' _ E2). unfold vp. rewrite E1, E3, E5, E6, El.
        fold (vp s' w). apply good_neutral; [|exact N]. cbn [a_scoped new_record].
        destruct (Nat.eqb_spec s s') as [<-|Ne].
        * pose proof (G s) as Gs. unfold good_at in Gs.
          assert (Hnf : ~ s_next w <= s).
          { intros H. destruct (g_fresh _ _ _ _ _ _ _ Gs H) as (_ & _ & _ & H' & _). congruence. }
          assert (Hb : In (EBegin p s) (s_log w)) by (apply (g_ppar _ _ _ _ _ _ _ Gs); exact Hp).
          destruct (is_early st) eqn:Es.
          -- destruct st; try discriminate. apply good_add_early; auto.
          -- destruct (R2 eq_refl) as (Hr & H0 & Hv). unfold good_at in Gs. rewrite Hr in Gs |- *. cbn [app].
             apply good_add_first; auto. cbn [a_status new_record a_parent].
             specialize (Hv p Hb). destruct st; auto.
        * rewrite app_nil_r. apply G.
      + intros s' v. rewrite E4, E6. apply II.
      + intros s'. rewrite E6. intros H. apply A. now apply E7.
    - intros st' s' Ne [Q1 Q2]. split.
      + unfold vp. rewrite E1. exact Q1.
      + intros He. destruct (Q2 He) as (H1 & H2 & H3).
        rewrite (vr_snoc s' w w' _ E2). cbn [a_scoped new_record].
        destruct (Nat.eqb_spec s s'); [congruence|]. rewrite app_nil_r, El.
        assert (Hn : forall e, In e evs -> is_outcome s' e = false /\ starts s' e = false /\ forall p, decides p s' e = None).
        { intros e Hin. rewrite Forall_forall in N. destruct (neutral_ok s' e (N e Hin)) as (?&?&?). auto. }
        split; [exact H1|]. split.
        * rewrite outcomes_app, H2, (outcomes_none s' evs); [reflexivity|]. intros e Hin. now apply Hn.
        * intros q Hq. apply in_app_or in Hq as [Hq|Hq].
          2:{ destruct (Hn _ Hq) as (_ & Hs & _). cbn in Hs. rewrite Nat.eqb_refl in Hs. discriminate. }
          specialize (H3 q Hq). rewrite E3. destruct st'; auto.
          -- destruct H3 as (v & ? & ?). exists v. split; [assumption|]. now apply verdict_keep.
          -- now apply verdict_keep.
  Qed.

  Lemma inv_cleanup_entire g sync cl st ss w :
    Inv w -> NoDup ss -> (forall s, In s ss -> ready st s w) ->
    Inv (fst (cleanup_entire_scope g sync cl st ss w)).
  Proof.
    revert w. induction ss as [|s ss IH]; intros w H N R; [exact H|]. cbn.
    destruct (inv_cleanup_session g sync cl st s w H (R s (or_introl eq_refl))) as [H1 H2].
    destruct (cleanup_session g sync cl st s w) as [w' b]. cbn [fst] in *. destruct b; [exact H1|].
    apply NoDup_cons_iff in N as [N1 N2]. apply IH; auto. intros s' Hs'. apply H2; [intros ->; contradiction|].
    apply R. now right.
  Qed.

  Lemma good_switch s ps rs st par fr (l : list (event V)) sel f e :
    good s ps rs st par fr l ->
    (forall x, fst (f x) <> Ongoing) ->
    (forall x, x <> DeferredCleanup -> fst (f x) <> DeferredCleanup) ->
    starts s e = false -> is_outcome s e = false ->
    (forall q, In q ps -> sel q = false -> decides (p_parent q) s e = None) ->
    good s (map (turn sel f) ps) rs st par fr (l ++ [e]).
  Proof.
    intros H Fo Fd Hs Ho Hd. pose proof (g_one _ _ _ _ _ _ _ H) as O.
    destruct ps as [|q [|q' r]]; [|clear O|cbn in O; lia].
    - apply good_say; auto. intros q [].
    - cbn [map]. unfold turn. destruct (sel q) eqn:Sq.
      + apply good_say; auto.
        * apply (good_status s [q]); [exact H|reflexivity|].
          intros x [<-|[]]. cbn. split; [|apply Fo]. apply Fd.
          apply (g_defer _ _ _ _ _ _ _ H). now left.
        * intros x [<-|[]] Hx. exfalso. now apply (Fo _ Hx).
      + apply good_say; auto. intros x [<-|[]] _. apply Hd; auto. now left.
  Qed.

  Lemma single_view w s q : Inv w -> In q (s_pairs w) -> p_scoped q = s -> vp s w = [q].
  Proof.
    intros H Hq Es. pose proof (g_one _ _ _ _ _ _ _ (i_good _ H s)) as O.
    assert (Hin : In q (vp s w)).
    { apply filter_In. split; [exact Hq|]. unfold of_pair. now apply Nat.eqb_eq. }
    destruct (vp s w) as [|x [|y r]]; [destruct Hin| |cbn in O; lia].
    destruct Hin as [->|[]]. reflexivity.
  Qed.

  Lemma nodup_pairs w : Inv w -> NoDup (map p_scoped (s_pairs w)).
  Proof. intros H. apply nodup_of_filter. intros s. apply (g_one _ _ _ _ _ _ _ (i_good _ H s)). Qed.

  Lemma nodup_map_filter {A B} (h : A -> B) (f : A -> bool) l : NoDup (map h l) -> NoDup (map h (filter f l)).
  Proof.
    induction l as [|x l IH]; intros H; [constructor|]. cbn in *. apply NoDup_cons_iff in H as [H1 H2].
    destruct (f x); cbn; [|now apply IH]. constructor; [|now apply IH].
    intros Hin. apply H1. apply in_map_iff in Hin as (y & <- & Hy). apply filter_In in Hy as [Hy _]. now apply in_map.
  Qed.

  Lemma inv_switch w sel f e :
    Inv w ->
    (forall x, fst (f x) <> Ongoing) ->
    (forall x, x <> DeferredCleanup -> fst (f x) <> DeferredCleanup) ->
    (forall s, starts s e = false) -> (forall s, is_outcome s e = false) ->
    (forall q, In q (s_pairs w) -> sel q = false -> decides (p_parent q) (p_scoped q) e = None) ->
    Inv (set_pairs (say w e) (map (turn sel f) (s_pairs w))).
  Proof.
    intros H Fo Fd Hs Ho Hd. constructor; [|apply (i_inputs w H)|apply (i_active w H)].
    intros s. unfold good_at, vp. cbn [set_pairs say set_log s_pairs s_staging s_parent s_next s_log].
    rewrite filter_turn. apply good_switch; auto; [apply (i_good w H s)|].
    intros q Hq. apply filter_In in Hq as [Hq Es]. unfold of_pair in Es. apply Nat.eqb_eq in Es. subst s. auto.
  Qed.

  Lemma inv_dyn_cleanup g sync cl w :
    g_unint g = false -> Inv w -> Inv (fst (dyn_cleanup g sync cl w)).
  Proof.
    intros Hu H. unfold dyn_cleanup. rewrite switch_eq. rewrite Hu.
    set (sel := fun p => Nat.eqb (p_parent p) (cl_session cl)).
    cbn [say set_log s_pairs]. fold (say w (ERequest cl)).
    assert (H1 : Inv (set_pairs (say w (ERequest cl)) (map (turn sel (to_cleanup false)) (s_pairs w)))).
    { apply inv_switch; auto; try (intros []; cbn; discriminate).
      intros q Hq Hsel. cbn. unfold sel in Hsel. rewrite Nat.eqb_sym, Hsel. reflexivity. }
    set (w1 := set_pairs _ _) in *.
    destruct (map p_scoped (filter (turned sel (to_cleanup false)) (s_pairs w))) as [|s0 ss] eqn:Ess.
    - now apply inv_notify_cleaned.
    - rewrite <- Ess. apply inv_cleanup_entire; [exact H1| |].
      + apply nodup_map_filter. now apply nodup_pairs.
      + intros s Hin. split; [|discriminate]. intros q' Hq' Hon.
        apply in_map_iff in Hin as (q & <- & Hq). apply filter_In in Hq as [Hq Ht].
        unfold vp in Hq'. cbn in Hq'. rewrite filter_turn in Hq'.
        pose proof (single_view w _ q H Hq eq_refl) as Hv. unfold vp in Hv. rewrite Hv in Hq'.
        destruct Hq' as [<-|[]]. unfold turned in Ht. apply andb_prop in Ht as [Hsel _].
        unfold turn in Hon. rewrite Hsel in Hon. cbn in Hon. destruct (p_status q); discriminate.
  Qed.

  Lemma inv_cancel_one g sync t c w : Inv w -> Inv (fst (cancel_one g sync t c w)).
  Proof.
    intros H. unfold cancel_one. rewrite switch_eq.
    set (sel := fun p => (Nat.eqb (p_scoped p) t || Nat.eqb (p_parent p) t)%bool).
    cbn [say set_log s_pairs]. fold (say w (ECancel t c)).
    assert (H1 : Inv (set_pairs (say w (ECancel t c)) (map (turn sel to_cancelled) (s_pairs w)))).
    { apply inv_switch; auto; try (intros []; cbn; discriminate).
      intros q Hq Hsel. unfold sel in Hsel. cbn.
        rewrite (Nat.eqb_sym t (p_scoped q)), (Nat.eqb_sym t (p_parent q)), Hsel. reflexivity. }
    apply inv_cleanup_entire; [exact H1| |].
    - apply nodup_map_filter. now apply nodup_pairs.
    - intros s Hin. apply in_map_iff in Hin as (q & Es & Hq). apply filter_In in Hq as [Hq Ht].
      unfold turned in Ht. apply andb_prop in Ht as [Hsel Hhit].
      pose proof (single_view w s q H Hq Es) as Hv.
      pose proof (i_good w H s) as Gs. unfold good_at in Gs. rewrite Hv in Gs.
      assert (Hon : p_status q = Ongoing).
      { pose proof (g_defer _ _ _ _ _ _ _ Gs q (or_introl eq_refl)) as Hd.
        destruct (p_status q); cbn in Hhit; congruence. }
      destruct (g_ongoing _ _ _ _ _ _ _ Gs q (or_introl eq_refl) Hon) as (Hr & Hst & Ho & Hver).
      split.
      + intros q' Hq' Hon'. unfold vp in Hq', Hv. cbn in Hq'. rewrite filter_turn, Hv in Hq'.
        destruct Hq' as [<-|[]]. unfold turn in Hon'. rewrite Hsel, Hon in Hon'. discriminate.
      + intros _. split; [exact Hr|]. cbn [set_pairs say set_log s_log s_staging]. split.
        * rewrite outcomes_app, Ho. reflexivity.
        * intros p Hp.
          assert (Hb : In (EBegin (p_parent q) s) (s_log w)) by (apply (g_ppairs _ _ _ _ _ _ _ Gs); now left).
          assert (Ep : p = p_parent q).
          { apply in_app_or in Hp as [Hp|[Hp|[]]]; [|discriminate]. apply (g_single _ _ _ _ _ _ _ Gs); assumption. }
          subst p. rewrite verdict_snoc by exact Hb. rewrite Hver. cbn.
          unfold sel in Hsel. rewrite <- Es, (Nat.eqb_sym t (p_scoped q)), (Nat.eqb_sym t (p_parent q)), Hsel.
          reflexivity.
  Qed.

  Lemma inv_cancel_each g sync ss c w : Inv w -> Inv (cancel_each g sync ss c w).
  Proof. revert w. induction ss as [|s ss IH]; intros w H; [exact H|]. cbn. apply IH. now apply inv_cancel_one. Qed.

  Lemma inv_receive_cancel g sync t c w : Inv w -> Inv (receive_cancel g sync t c w).
  Proof. intros H. destruct t; cbn; [now apply inv_cancel_one|now apply inv_cancel_each]. Qed.

  (** The status of the pair of [s] changes together with an event about [s]. *)
  Lemma vp_find w s : find (fun p => Nat.eqb (p_scoped p) s) (s_pairs w) = hd_error (vp s w).
  Proof. apply find_hd. Qed.

  Lemma good_other_say w s e :
    Inv w -> (forall p, decides p s e = None) -> starts s e = false -> is_outcome s e = false ->
    good s (vp s w) (vr s w) (st_get (s_staging w) s) (s_parent w s) (s_next w <= s) (s_log w ++ [e]).
  Proof. intros H Hd Hs Ho. apply good_say; auto. apply (i_good w H s). Qed.

  Lemma inv_validate g sync s c w : Inv w -> Inv (fst (validate_unreachable g sync s c w)).
  Proof.
    intros H. unfold validate_unreachable. cbn [say set_log s_pairs]. rewrite vp_find.
    fold (say w (EUnreach s c)).
    destruct (vp s w) as [|q r] eqn:Hv; cbn [hd_error].
    - constructor; [|apply (i_inputs w H)|apply (i_active w H)].
      intros s'. apply good_say; [apply (i_good w H s')| | |]; auto. cbn.
      destruct (Nat.eqb_spec s s') as [<-|]; [|auto]. unfold vp in *. cbn. rewrite Hv. intros q [].
    - assert (Hq : In q (s_pairs w) /\ p_scoped q = s).
      { assert (In q (vp s w)) by (rewrite Hv; now left). apply filter_In in H0 as [? E].
        unfold of_pair in E. apply Nat.eqb_eq in E. auto. }
      destruct Hq as [Hq Es]. rewrite (single_view w s q H Hq Es) in Hv. injection Hv as <-.
      pose proof (single_view w s q H Hq Es) as Hv.
      pose proof (i_good w H s) as Gs. unfold good_at in Gs. rewrite Hv in Gs.
      destruct (to_cancelled (p_status q)) as [st hit] eqn:Et. destruct hit.
      + assert (Hon : p_status q = Ongoing /\ st = Cancelled).
        { pose proof (g_defer _ _ _ _ _ _ _ Gs q (or_introl eq_refl)) as Hd.
          destruct (p_status q); cbn in Et; try discriminate; try congruence. injection Et as <-. auto. }
        destruct Hon as [Hon ->].
        destruct (g_ongoing _ _ _ _ _ _ _ Gs q (or_introl eq_refl) Hon) as (Hr & Hst & Ho & Hver).
        apply inv_cleanup_entire; [|constructor; [intros []|constructor]|].
        * constructor; [|apply (i_inputs w H)|apply (i_active w H)].
          intros s'. unfold good_at, vp. cbn [set_pairs say set_log s_pairs s_staging s_parent s_next s_log].
          destruct (Nat.eq_dec s' s) as [->|Ne].
          -- rewrite set_first_same. fold (vp s w). rewrite Hv. apply good_say; [|reflexivity|reflexivity|].
             ++ apply (good_status s [q]); [exact Gs|reflexivity|]. intros x [<-|[]]. cbn. split; discriminate.
             ++ intros x [<-|[]]. cbn. discriminate.
          -- rewrite set_first_other by exact Ne. apply (good_other_say w); auto. intros p. cbn.
             destruct (Nat.eqb_spec s s'); [congruence|reflexivity].
        * intros s' [<-|[]]. split.
          -- unfold vp. cbn. rewrite set_first_same. fold (vp s w). rewrite Hv.
             intros x [<-|[]]. cbn. discriminate.
          -- intros _. split; [exact Hr|]. cbn [set_pairs say set_log s_log s_staging]. split.
             ++ rewrite outcomes_app, Ho. reflexivity.
             ++ intros p Hp. assert (Hb : In (EBegin (p_parent q) s) (s_log w)) by (apply (g_ppairs _ _ _ _ _ _ _ Gs); now left).
                assert (Ep : p = p_parent q).
                { apply in_app_or in Hp as [Hp|[Hp|[]]]; [|discriminate]. apply (g_single _ _ _ _ _ _ _ Gs); assumption. }
                subst p. rewrite verdict_snoc by exact Hb. rewrite Hver. cbn. now rewrite Nat.eqb_refl.
      + constructor; [|apply (i_inputs w H)|apply (i_active w H)].
        intros s'. apply good_say; [apply (i_good w H s')| | |]; auto. cbn.
        destruct (Nat.eqb_spec s s') as [<-|]; [|auto]. unfold vp in *. cbn. rewrite Hv.
        intros x [<-|[]] Hon. rewrite Hon in Et. discriminate.
  Qed.

  Lemma inv_begin g sync p st w : Inv w -> Inv (begin_scope g sync p st w).
  Proof.
    intros H. unfold begin_scope. set (s := s_next w).
    match goal with |- Inv (match st with SOk => ?x | _ => _ end) => assert (H1 : Inv x); [|set (w1 := x) in *] end.
    { constructor.
      - intros s'. unfold good_at, vp, vr. cbn.
        pose proof (i_good w H s') as G. unfold good_at in G.
        destruct (Nat.eq_dec s' s) as [->|Ne].
        + destruct (g_fresh _ _ _ _ _ _ _ G (le_n _)) as (Hp & Hr & Hst & Hpar & Hs & Ho).
          rewrite filter_app. fold (vp s w). rewrite Hp, Hst. fold (vr s w). rewrite Hr. cbn.
          unfold of_pair. cbn. rewrite Nat.eqb_refl. cbn. rewrite emap_set_eq.
          assert (Ho' : outcomes s (s_log w ++ [EBegin p s]) = 0) by (rewrite outcomes_app, Ho; reflexivity).
          assert (Hb : forall p', In (EBegin p' s) (s_log w ++ [EBegin p s]) -> p' = p).
          { intros p' Hin. apply in_app_or in Hin as [Hin|[Hin|[]]]; [|congruence].
            assert (has_start s (s_log w) = true) by (apply has_start_in; eauto). congruence. }
          assert (Hlast : In (EBegin p s) (s_log w ++ [EBegin p s])) by (apply in_or_app; right; now left).
          constructor; auto; cbn.
          * intros; lia.
          * intros a [].
          * intros q [<-|[]]. exact Hlast.
          * intros a [].
          * intros p' E. injection E as <-. exact Hlast.
          * intros p1 p2 A1 A2. rewrite (Hb p1 A1), (Hb p2 A2). reflexivity.
          * intros q [<-|[]]. discriminate.
          * intros q [<-|[]] _. cbn. repeat split; auto. rewrite verdict_app, Hs. cbn. now rewrite Nat.eqb_refl.
          * discriminate.
          * lia.
          * intros e Hin He. exfalso.
            assert (In e (filter (is_outcome s) (s_log w ++ [EBegin p s]))) by (apply filter_In; auto).
            unfold outcomes in Ho'. destruct (filter _ _); [destruct H0|discriminate].
        + rewrite filter_app. cbn [filter].
          replace (of_pair s' _) with false by (symmetry; unfold of_pair; cbn; apply Nat.eqb_neq; congruence).
          rewrite app_nil_r. fold (vp s' w). fold (vr s' w). rewrite emap_set_neq by exact Ne.
          assert (G' : good s' (vp s' w) (vr s' w) (st_get (s_staging w) s') (s_parent w s') (S s <= s') (s_log w)).
          { destruct G as [F O T P1 P2 P3 S' D G Hh U R]. constructor; auto.
            intros Hf. apply F. unfold s in Hf. lia. }
          apply good_say; auto. cbn. destruct (Nat.eqb_spec s s'); [congruence|reflexivity].
      - intros s' v Hin. cbn in *. apply (i_inputs w H) in Hin. unfold s. lia.
      - intros s'. cbn. destruct (Nat.eqb_spec s' s) as [->|]; [intros _; lia|]. intros Ha.
        apply (i_active w H) in Ha. unfold s. lia. }
    destruct st.
    - exact H1.
    - now apply inv_cancel_one.
    - now apply inv_validate.
  Qed.

  Lemma inv_arrive s v w : Inv w -> Inv (arrive s v w).
  Proof.
    intros H. unfold arrive. destruct (s_active w s) eqn:A; [|exact H].
    constructor; [apply (i_good w H)| |apply (i_active w H)].
    intros s' v' Hin. cbn in *. apply in_app_or in Hin as [Hin|[Hin|[]]]; [now apply (i_inputs w H) in Hin|].
    injection Hin as <- <-. now apply (i_active w H).
  Qed.

  Lemma not_fresh_input w s v rest : Inv w -> s_inputs w = (s, v) :: rest -> ~ s_next w <= s.
  Proof. intros H E Hf. assert (s < s_next w) by (apply (i_inputs w H s v); rewrite E; now left). lia. Qed.

  Lemma inv_terminate g sync w : Inv w -> Inv (fst (terminate_execute g sync w)).
  Proof.
    intros H. unfold terminate_execute. destruct (s_inputs w) as [|[s v] rest] eqn:Ei; [exact H|].
    pose proof (not_fresh_input w s v rest H Ei) as Hnf.
    assert (Hin : forall s' v', In (s', v') rest -> s' < s_next w).
    { intros s' v' Hin. apply (i_inputs w H s' v'). rewrite Ei. now right. }
    cbn [say set_inputs set_log s_staging].
    pose proof (i_good w H s) as Gs. unfold good_at in Gs.
    assert (Hoth : forall s', s' <> s ->
      good s' (vp s' w) (vr s' w) (st_get (s_staging w) s') (s_parent w s') (s_next w <= s') (s_log w ++ [EValue s v])).
    { intros s' Ne. apply good_other_say; auto. intros p. cbn. destruct (Nat.eqb_spec s s'); [congruence|reflexivity]. }
    destruct (st_get (s_staging w) s) as [v0|] eqn:Est.
    - cbn [fst]. constructor; [|exact Hin|apply (i_active w H)].
      intros s'. destruct (Nat.eq_dec s' s) as [->|Ne]; [|apply Hoth; exact Ne].
      unfold good_at, vp, vr. cbn. rewrite Est. apply good_say; auto.
      intros q Hq Hon. destruct (g_ongoing _ _ _ _ _ _ _ Gs q Hq Hon) as (_ & Hc & _). discriminate.
    - cbn [set_staging set_inputs set_log s_pairs]. rewrite vp_find.
      change (vp s (say (set_inputs w rest) (EValue s v))) with (vp s w).
      destruct (vp s w) as [|q r] eqn:Hv; cbn [hd_error fst].
      + constructor; [|exact Hin|apply (i_active w H)].
        intros s'. unfold good_at, vp, vr. cbn.
        destruct (Nat.eqb_spec s s') as [<-|Ne]; [|apply Hoth; congruence].
        fold (vp s w) (vr s w). rewrite Hv. apply good_say; auto.
        * apply (good_stage _ _ _ None); auto.
          intros a r E Hs. destruct (g_head _ _ _ _ _ _ _ Gs a r E) as [_ Hh]; [now rewrite Hs|].
          rewrite Hs in Hh. destruct Hh as (? & ? & _). discriminate.
        * intros q [].
      + assert (Hq : In q (s_pairs w) /\ p_scoped q = s).
        { assert (In q (vp s w)) by (rewrite Hv; now left). apply filter_In in H0 as [? E].
          unfold of_pair in E. apply Nat.eqb_eq in E. auto. }
        destruct Hq as [Hq Es]. rewrite (single_view w s q H Hq Es) in Hv. injection Hv as <-.
        pose proof (single_view w s q H Hq Es) as Hv.
        assert (Hnt : forall a r, vr s w = a :: r -> a_status a <> FTerminated).
        { intros a r E Hs. destruct (g_head _ _ _ _ _ _ _ Gs a r E) as [_ Hh]; [now rewrite Hs|].
          rewrite Hs in Hh. destruct Hh as (? & ? & _). discriminate. }
        destruct (to_finished (p_status q)) as [st hit] eqn:Et. destruct hit.
        * assert (Hon : p_status q = Ongoing /\ st = Terminated).
          { pose proof (g_defer _ _ _ _ _ _ _ Gs q (or_introl eq_refl)) as Hd.
            destruct (p_status q); cbn in Et; try discriminate; try congruence. injection Et as <-. auto. }
          destruct Hon as [Hon ->].
          destruct (g_ongoing _ _ _ _ _ _ _ Gs q (or_introl eq_refl) Hon) as (Hr & _ & Ho & Hver).
          apply inv_cleanup_entire; [|constructor; [intros []|constructor]|].
          -- constructor; [|exact Hin|apply (i_active w H)].
             intros s'. unfold good_at, vp. cbn [set_pairs set_staging set_inputs say set_log s_pairs s_staging s_parent s_next s_log st_get].
             destruct (Nat.eqb_spec s s') as [<-|Ne].
             ++ rewrite set_first_same. fold (vp s w). rewrite Hv. apply good_say; [|reflexivity|reflexivity|].
                ** apply (good_stage _ _ _ None); [apply (good_status s [q]); [exact Gs|reflexivity|] |exact Hnf| |exact Hnt];
                     intros x [<-|[]]; cbn; try split; discriminate.
                ** intros x [<-|[]]. cbn. discriminate.
             ++ rewrite set_first_other by congruence. apply Hoth. congruence.
          -- intros s' [<-|[]]. split.
             ++ unfold vp. cbn. rewrite set_first_same. fold (vp s w). rewrite Hv.
                intros x [<-|[]]. cbn. discriminate.
             ++ intros _. split; [exact Hr|]. cbn [set_pairs set_staging set_inputs say set_log s_log s_staging st_get]. split.
                ** rewrite outcomes_app, Ho. reflexivity.
                ** rewrite Nat.eqb_refl. intros p Hp.
                   assert (Hb : In (EBegin (p_parent q) s) (s_log w)) by (apply (g_ppairs _ _ _ _ _ _ _ Gs); now left).
                   assert (Ep : p = p_parent q).
                   { apply in_app_or in Hp as [Hp|[Hp|[]]]; [|discriminate]. apply (g_single _ _ _ _ _ _ _ Gs); assumption. }
                   subst p. exists v. split; [reflexivity|]. rewrite verdict_snoc by exact Hb. rewrite Hver. cbn.
                   now rewrite Nat.eqb_refl.
        * cbn [fst]. constructor; [|exact Hin|apply (i_active w H)].
          intros s'. unfold good_at, vp, vr. cbn.
          destruct (Nat.eqb_spec s s') as [<-|Ne]; [|apply Hoth; congruence].
          fold (vp s w) (vr s w). rewrite Hv.
          assert (Hno : forall x, In x [q] -> p_status x <> Ongoing).
          { intros x [<-|[]] Hx. rewrite Hx in Et. discriminate. }
          apply good_say; auto.
          -- apply (good_stage _ _ _ None); auto.
          -- intros x Hx Hx'. exfalso. now apply (Hno x).
  Qed.

  Lemma inv_terminal g sync w : Inv w -> Inv (terminal g sync w).
  Proof.
    intros H. unfold terminal. apply (inv_terminate g sync) in H.
    destruct (terminate_execute g sync w) as [w' b]. cbn [fst] in H. destruct b; [|exact H].
    destruct H as [G I A]. constructor; auto.
  Qed.

  (** ** Ending a session *)

  Lemma of_await_refl a : of_await (a_scoped a) a = true.
  Proof. apply Nat.eqb_refl. Qed.

  Lemma of_await_neq s a : a_scoped a <> s -> of_await s a = false.
  Proof. apply Nat.eqb_neq. Qed.

  (** A record which is first of its session in the storage. *)
  Definition leads (l1 : list await) (a : await) (l2 : list await) w : Prop :=
    s_awaiting w = l1 ++ a :: l2 /\ filter (of_await (a_scoped a)) l1 = [].

  Lemma leads_vr l1 a l2 w : leads l1 a l2 w -> vr (a_scoped a) w = a :: filter (of_await (a_scoped a)) l2.
  Proof. intros [E F]. unfold vr. rewrite E, filter_app, F. cbn. now rewrite of_await_refl. Qed.

  Lemma leads_other l1 a l2 w s (f : await -> await) :
    leads l1 a l2 w -> a_scoped a <> s -> vr s w = filter (of_await s) (l1 ++ l2).
  Proof.
    intros [E F] Ne. unfold vr. rewrite E, !filter_app. cbn. now rewrite of_await_neq.
  Qed.

  Lemma leads_of_flows w l1 a l2 :
    Inv w -> s_awaiting w = l1 ++ a :: l2 -> a_flows a <> None -> leads l1 a l2 w.
  Proof.
    intros H E Hf. split; [exact E|].
    destruct (filter (of_await (a_scoped a)) l1) as [|b r] eqn:F; [reflexivity|]. exfalso.
    pose proof (g_tail _ _ _ _ _ _ _ (i_good w H (a_scoped a)) a) as T. unfold vr in T.
    rewrite E, filter_app, F in T. cbn in T. rewrite of_await_refl in T. apply Hf. apply T.
    apply in_or_app. right. now left.
  Qed.

  Lemma inv_set_awaiting w l :
    Inv w ->
    (forall s, good s (vp s w) (filter (of_await s) l) (st_get (s_staging w) s) (s_parent w s) (s_next w <= s) (s_log w)) ->
    Inv (set_awaiting w l).
  Proof. intros H G. constructor; [exact G|apply (i_inputs w H)|apply (i_active w H)]. Qed.

  Lemma inv_notify_step g (b : bool) f cl w :
    Inv w ->
    Inv (if b then notify_cleaned g (set_awaiting w (filter f (s_awaiting w))) cl else w).
  Proof.
    intros H. destruct b; [|exact H]. apply inv_notify_cleaned. apply inv_set_awaiting; [exact H|].
    intros s. rewrite filter_comm. apply good_filter. apply (i_good w H s).
  Qed.

  Lemma notify_cleaned_fields g w cl :
    s_staging (notify_cleaned g w cl) = s_staging w /\ s_pairs (notify_cleaned g w cl) = s_pairs w /\
    s_awaiting (notify_cleaned g w cl) = s_awaiting w /\
    s_next (notify_cleaned g w cl) = s_next w /\ s_inputs (notify_cleaned g w cl) = s_inputs w /\
    s_parent (notify_cleaned g w cl) = s_parent w /\
    exists evs, s_log (notify_cleaned g w cl) = s_log w ++ evs /\ Forall neutral evs.
  Proof.
    unfold notify_cleaned. destruct (Nat.eqb _ _).
    - destruct (notify_contents _ _ _) as [m d]. destruct d; cbn; repeat split; exists []; rewrite app_nil_r; auto.
    - cbn. repeat split. exists [ENotify cl]. split; [reflexivity|]. constructor; [exact I|constructor].
  Qed.

  Lemma inv_despawn w s : Inv w -> Inv (say (set_parent w (emap_set (s_parent w) s None)) (EEnd s)).
  Proof.
    intros H. apply inv_neutral; [|exact I]. constructor; [|apply (i_inputs w H)|apply (i_active w H)].
    intros s'. unfold good_at. cbn. destruct (Nat.eq_dec s' s) as [->|Ne].
    - rewrite emap_set_eq. eapply good_no_parent. apply (i_good w H s).
    - rewrite emap_set_neq by exact Ne. apply (i_good w H s').
  Qed.

  Lemma inv_finalize g w l1 a l2 :
    Inv w -> leads l1 a l2 w -> Inv (fst (finalize_scoped_session g (length l1) w)).
  Proof.
    intros H L. pose proof (leads_vr _ _ _ _ L) as Hvr. destruct L as [E F].
    pose proof (conj E F : leads l1 a l2 w) as L.
    unfold finalize_scoped_session. rewrite E, nth_error_mid.
    set (s := a_scoped a) in *. set (p := a_parent a).
    pose proof (i_good w H s) as Gs. unfold good_at in Gs. rewrite Hvr in Gs.
    assert (Hno : forall q, In q (vp s w) -> p_status q <> Ongoing).
    { intros q Hq Hon. destruct (g_ongoing _ _ _ _ _ _ _ Gs q Hq Hon) as (Hc & _). discriminate. }
    assert (Hnf : ~ s_next w <= s).
    { intros Hf. destruct (g_fresh _ _ _ _ _ _ _ Gs Hf) as (_ & Hc & _). discriminate. }
    assert (Hb : In (EBegin p s) (s_log w)) by (apply (g_precs _ _ _ _ _ _ _ Gs); now left).
    assert (Hearly : forall b, In b (filter (of_await s) l2) -> is_early (a_status b) = true).
    { intros b Hin. destruct (g_tail _ _ _ _ _ _ _ Gs b Hin) as [-> _]. reflexivity. }
    destruct (is_early (a_status a)) eqn:Ea.
    - (* early cleanup: the record stays *)
      set (w2 := if _ : bool then _ else w).
      assert (H2 : Inv w2) by (apply inv_notify_step; exact H).
      destruct (a_status a) eqn:Sa; try discriminate. cbn [is_terminated].
      assert (Hst2 : forall b, In b (vr s w2) -> a_status b <> FTerminated).
      { assert (Hsub : forall b, In b (vr s w2) -> In b (vr s w)).
        { unfold w2. match goal with |- context [if ?x then _ else _] => destruct x end; [|auto].
          intros b. unfold vr.
          match goal with |- context [notify_cleaned ?a ?b ?c] => destruct (notify_cleaned_fields a b c) as (_ & _ & -> & _) end.
          cbn. rewrite filter_comm. intros Hin. apply filter_In in Hin as [Hin _].
          rewrite ?E in *. exact Hin. }
        intros b Hin. apply Hsub in Hin. rewrite Hvr in Hin. destruct Hin as [<-|Hin]; [congruence|].
        specialize (Hearly b Hin). intros Hc. rewrite Hc in Hearly. discriminate. }
      assert (Hn2 : s_next w2 = s_next w /\ vp s w2 = vp s w).
      { unfold w2, vp. match goal with |- context [if ?x then _ else _] => destruct x end; [|auto].
        match goal with |- context [notify_cleaned ?a ?b ?c] => destruct (notify_cleaned_fields a b c) as (_ & -> & _ & -> & _) end.
        auto. }
      destruct Hn2 as [Hn2 Hp2].
      apply inv_despawn. constructor.
      + intros s'. unfold good_at, vp, vr. cbn. fold (vp s' w2) (vr s' w2).
        destruct (Nat.eq_dec s' s) as [->|Ne].
        * rewrite st_get_remove. apply (good_stage _ _ _ (st_get (s_staging w2) s)); auto; [apply (i_good w2 H2 s)| | |].
          -- rewrite Hn2. exact Hnf.
          -- rewrite Hp2. exact Hno.
          -- intros b r Eb. apply Hst2. rewrite Eb. now left.
        * rewrite st_get_remove_neq by exact Ne. apply (i_good w2 H2 s').
      + intros s' v Hin. cbn in Hin. unfold st_remove in Hin. apply filter_In in Hin as [Hin _].
        apply (i_inputs w2 H2 _ _ Hin).
      + apply (i_active w2 H2).
    - rewrite remove_nth_cut.
      destruct (g_head _ _ _ _ _ _ _ Gs a _ eq_refl Ea) as [Ho Hh].
      (* the record is removed *)
      assert (H1 : Inv (set_awaiting w (l1 ++ l2))).
      { apply inv_set_awaiting; [exact H|]. intros s'. destruct (Nat.eq_dec s s') as [<-|Ne].
        - rewrite filter_app, F. cbn. eapply good_drop_head. exact Gs.
        - rewrite <- (leads_other l1 a l2 w s' (fun x => x) L Ne). apply (i_good w H s'). }
      destruct (a_status a) as [| |c inner] eqn:Sa; [|discriminate|]; cbn [is_terminated].
      + (* terminated *)
        destruct Hh as (v & Hst & Hver).
        set (w2 := if _ : bool then _ else set_awaiting w (l1 ++ l2)).
        assert (H2 : Inv w2) by (apply inv_notify_step; exact H1).
        assert (F2 : s_staging w2 = s_staging w /\ vp s w2 = vp s w /\ s_next w2 = s_next w /\
                     (forall b, In b (vr s w2) -> In b (filter (of_await s) l2)) /\
                     exists evs, s_log w2 = s_log w ++ evs /\ Forall neutral evs).
        { unfold w2, vp, vr. match goal with |- context [if ?x then _ else _] => destruct x end.
          - match goal with |- context [notify_cleaned ?a ?b ?c] => destruct (notify_cleaned_fields a b c) as (-> & -> & -> & -> & _ & _ & evs & -> & N) end.
            cbn. repeat split; auto; [|exists evs; auto].
            intros b Hin. rewrite filter_comm in Hin. apply filter_In in Hin as [Hin _].
            rewrite filter_app, F in Hin. exact Hin.
          - cbn. repeat split; auto.
            + intros b Hin. rewrite filter_app, F in Hin. exact Hin.
            + exists []. rewrite app_nil_r. auto. }
        destruct F2 as (Fst & Fp & Fn & Fr & evs & Fl & N). rewrite Fst, Hst. cbn [fst].
        apply inv_despawn. constructor; [|apply (i_inputs w2 H2)|apply (i_active w2 H2)].
        intros s'. unfold good_at, vp, vr. cbn. fold (vp s' w2) (vr s' w2).
        pose proof (i_good w2 H2 s') as G'. unfold good_at in G'.
        destruct (Nat.eq_dec s' s) as [->|Ne].
        * rewrite st_get_remove.
          apply good_outcome; auto.
          -- apply (good_stage _ _ _ (st_get (s_staging w2) s)); auto.
             ++ rewrite Fn. exact Hnf.
             ++ rewrite Fp. exact Hno.
             ++ intros b r Eb. assert (In b (vr s w2)) by (rewrite Eb; now left).
                apply Fr in H0. apply Hearly in H0. intros Hc. rewrite Hc in H0. discriminate.
          -- rewrite Fn. exact Hnf.
          -- rewrite Fp. exact Hno.
          -- cbn. now rewrite Nat.eqb_refl.
          -- cbn. rewrite Fl. split; [apply in_or_app; now left|]. now apply verdict_keep.
          -- rewrite Fl, outcomes_app, Ho. rewrite outcomes_none; [reflexivity|].
             intros e Hin. rewrite Forall_forall in N. destruct (neutral_ok s e (N e Hin)) as (_ & ? & _). assumption.
        * rewrite st_get_remove_neq by exact Ne. rewrite <- Fst.
          apply good_say; auto. cbn. destruct (Nat.eqb_spec s s'); [congruence|reflexivity].
      + (* cancelled *)
        assert (H1' : Inv (say (set_awaiting w (l1 ++ l2)) (ECancelOut p s c inner))).
        { constructor; [|apply (i_inputs w H)|apply (i_active w H)].
          intros s'. pose proof (i_good _ H1 s') as G'. unfold good_at in *. cbn in *.
          unfold vp, vr in *. cbn in *.
          destruct (Nat.eq_dec s' s) as [->|Ne].
          - apply good_outcome; auto.
            + intros b. rewrite filter_app, F. apply Hearly.
            + cbn. now rewrite Nat.eqb_refl.
            + cbn. auto.
          - apply good_say; auto. cbn. destruct (Nat.eqb_spec s s'); [congruence|reflexivity]. }
        set (w1 := say _ _) in *.
        set (w2 := if _ : bool then _ else w1).
        assert (H2 : Inv w2) by (apply inv_notify_step; exact H1').
        assert (F2 : vp s w2 = vp s w /\ s_next w2 = s_next w /\
                     (forall b, In b (vr s w2) -> In b (filter (of_await s) l2))).
        { unfold w2, vp, vr. match goal with |- context [if ?x then _ else _] => destruct x end.
          - match goal with |- context [notify_cleaned ?a ?b ?c] => destruct (notify_cleaned_fields a b c) as (_ & -> & -> & -> & _) end.
            cbn. repeat split; auto.
            intros b Hin. rewrite filter_comm in Hin. apply filter_In in Hin as [Hin _].
            rewrite filter_app, F in Hin. exact Hin.
          - cbn. repeat split; auto. intros b Hin. rewrite filter_app, F in Hin. exact Hin. }
        destruct F2 as (Fp & Fn & Fr).
        apply inv_despawn. constructor.
        * intros s'. unfold good_at, vp, vr. cbn. fold (vp s' w2) (vr s' w2).
          pose proof (i_good w2 H2 s') as G'. unfold good_at in G'.
          destruct (Nat.eq_dec s' s) as [->|Ne].
          -- rewrite st_get_remove. apply (good_stage _ _ _ (st_get (s_staging w2) s)); auto.
             ++ rewrite Fn. exact Hnf.
             ++ rewrite Fp. exact Hno.
             ++ intros b r Eb. assert (In b (vr s w2)) by (rewrite Eb; now left).
                apply Fr in H0. apply Hearly in H0. intros Hc. rewrite Hc in H0. discriminate.
          -- rewrite st_get_remove_neq by exact Ne. exact G'.
        * intros s' v Hin. cbn in Hin. unfold st_remove in Hin. apply filter_In in Hin as [Hin _].
          apply (i_inputs w2 H2 _ _ Hin).
        * apply (i_active w2 H2).
  Qed.

  Lemma good_fresh_weak s ps rs st par (fr fr' : Prop) (l : list (event V)) :
    good s ps rs st par fr l -> (fr' -> fr) -> good s ps rs st par fr' l.
  Proof. intros [F O T P1 P2 P3 S D G Hh U R] H. constructor; auto. Qed.

  Lemma inv_record l1 a a' l2 w :
    Inv w -> leads l1 a l2 w -> a_scoped a' = a_scoped a -> a_parent a' = a_parent a ->
    match a_status a with
    | FCancelled c _ => exists i, a_status a' = FCancelled c i
    | _ => a_status a' = a_status a
    end ->
    Inv (set_awaiting w (l1 ++ a' :: l2)) /\ leads l1 a' l2 (set_awaiting w (l1 ++ a' :: l2)).
  Proof.
    intros H L Es Ep Est. pose proof (leads_vr _ _ _ _ L) as Hvr. split.
    - apply inv_set_awaiting; [exact H|]. intros s. destruct (Nat.eq_dec (a_scoped a) s) as [<-|Ne].
      + destruct L as [E F]. rewrite filter_app, F. cbn [app filter].
        replace (of_await (a_scoped a) a') with true by (symmetry; apply Nat.eqb_eq; exact Es).
        eapply good_head_flows; eauto. rewrite <- Hvr. apply (i_good w H).
      + rewrite filter_app. cbn [filter]. rewrite (of_await_neq s a') by congruence. rewrite <- filter_app.
        rewrite <- (leads_other l1 a l2 w s (fun x => x) L Ne). apply (i_good w H s).
    - split; [reflexivity|]. rewrite Es. apply L.
  Qed.

  Lemma inv_begin_flow l1 a l2 s w :
    Inv w -> leads l1 a l2 w ->
    Inv (begin_flow (length l1) s w) /\
    exists a', leads l1 a' l2 (begin_flow (length l1) s w) /\ a_scoped a' = a_scoped a /\
      a_status a' = a_status a /\ a_parent a' = a_parent a /\ a_cleanup a' = a_cleanup a /\
      a_flows a' = option_map (fun l => l ++ [s_next w]) (a_flows a).
  Proof.
    intros H L.
    set (w1 := say (set_flows (set_next w (S (s_next w))) (s_flows w ++ [s_next w])) (EFlow s (s_next w))).
    assert (H1 : Inv w1).
    { apply inv_neutral; [|exact I]. constructor.
      - intros s'. eapply good_fresh_weak; [apply (i_good w H s')|]. cbn. lia.
      - intros s' v Hin. apply (i_inputs w H) in Hin. cbn. lia.
      - intros s' Ha. apply (i_active w H) in Ha. cbn. lia. }
    assert (L1 : leads l1 a l2 w1) by exact L.
    assert (Eb : begin_flow (length l1) s w =
      set_awaiting w1 (l1 ++ set_a_flows (option_map (fun l => l ++ [s_next w]) (a_flows a)) a :: l2)).
    { unfold begin_flow. destruct L as [E F]. cbn. rewrite E, update_nth_cut. reflexivity. }
    rewrite Eb.
    destruct (inv_record l1 a (set_a_flows (option_map (fun l => l ++ [s_next w]) (a_flows a)) a) l2 w1 H1 L1 eq_refl eq_refl)
      as [I1 I2].
    { destruct a as [? ? ? [] ?]; cbn; eauto. }
    split; [exact I1|]. eexists. split; [exact I2|]. cbn. auto.
  Qed.

  Lemma inv_begin_flows g l1 a l2 s b w :
    Inv w -> leads l1 a l2 w ->
    Inv (begin_flows g (length l1) s b w) /\
    exists a', leads l1 a' l2 (begin_flows g (length l1) s b w) /\ a_scoped a' = a_scoped a /\
      a_status a' = a_status a /\ a_parent a' = a_parent a /\ a_cleanup a' = a_cleanup a.
  Proof.
    unfold begin_flows. revert w a. induction (g_begins g) as [|x xs IH]; intros w a H L.
    - split; [exact H|]. exists a. auto.
    - cbn. destruct (if b then fst x else snd x).
      + destruct (inv_begin_flow l1 a l2 s w H L) as [H1 (a1 & L1 & E1 & E2 & E3 & E4 & _)].
        destruct (IH _ a1 H1 L1) as [H2 (a2 & L2 & ? & ? & ? & ?)]. split; [exact H2|].
        exists a2. split; [exact L2|]. repeat split; congruence.
      + apply IH; auto.
  Qed.

  Lemma leads_position w s i :
    position (fun a => Nat.eqb (a_scoped a) s) (s_awaiting w) = Some i ->
    exists l1 a l2, leads l1 a l2 w /\ length l1 = i /\ a_scoped a = s.
  Proof.
    intros P. apply position_cut in P as (l1 & a & l2 & E & El & Fa & Fl). exists l1, a, l2.
    apply Nat.eqb_eq in Fa. repeat split; auto. rewrite Fa. apply filter_none. exact Fl.
  Qed.

  Lemma position_leads w l1 a l2 :
    leads l1 a l2 w ->
    position (fun b => Nat.eqb (a_scoped b) (a_scoped a)) (s_awaiting w) = Some (length l1).
  Proof.
    intros [E F]. rewrite E. clear E. induction l1 as [|b l1 IH]; cbn.
    - now rewrite Nat.eqb_refl.
    - cbn in F. unfold of_await in F at 1. destruct (Nat.eqb (a_scoped b) (a_scoped a)); [discriminate|].
      rewrite IH by exact F. reflexivity.
  Qed.

  Lemma inv_check g s w : Inv w -> Inv (fst (check_awaiting_session g s w)).
  Proof.
    intros H. unfold check_awaiting_session.
    destruct (position _ _) as [i|] eqn:P; [|exact H].
    apply leads_position in P as (l1 & a & l2 & L & <- & Es).
    pose proof L as [E F]. rewrite E, nth_error_mid. destruct (flows_done (a_flows a)); [|exact H].
    eapply inv_finalize; eauto.
  Qed.

  Lemma inv_begin_cleanup g cl w : Inv w -> Inv (fst (begin_cleanup_workflows g cl w)).
  Proof.
    intros H. unfold begin_cleanup_workflows. set (s := cl_session cl).
    set (w1 := set_pairs w _).
    assert (H1 : Inv w1).
    { constructor; [|apply (i_inputs w H)|apply (i_active w H)].
      intros s'. unfold good_at, vp. cbn. destruct (Nat.eq_dec s' s) as [->|Ne].
      - rewrite filter_comm. fold (vp s w).
        assert (filter (fun p => negb (Nat.eqb (p_scoped p) s)) (vp s w) = []) as ->.
        { unfold vp. induction (s_pairs w) as [|q l IH]; [reflexivity|]. cbn. unfold of_pair at 1.
          destruct (Nat.eqb (p_scoped q) s) eqn:Eq; cbn; rewrite ?Eq; cbn; exact IH. }
        eapply good_no_pairs. apply (i_good w H s).
      - rewrite filter_filter_other; [apply (i_good w H s')|]. intros q Hq. unfold of_pair in Hq.
        apply Nat.eqb_eq in Hq. apply Bool.negb_true_iff, Nat.eqb_neq. congruence. }
    destruct (position _ _) as [i|] eqn:P; [|exact H1].
    apply leads_position in P as (l1 & a & l2 & L & <- & Es).
    pose proof L as [E F]. rewrite E, update_nth_cut.
    destruct (inv_record l1 a (set_a_flows (Some []) a) l2 w1 H1 L eq_refl eq_refl) as [H2 L2].
    { destruct a as [? ? ? [] ?]; cbn; eauto. }
    set (w2 := set_awaiting w1 _) in *.
    match goal with |- context [begin_flows g (length l1) s ?b w2] =>
      destruct (inv_begin_flows g l1 _ l2 s b w2 H2 L2) as [H3 _] end.
    now apply inv_check.
  Qed.

  Lemma inv_trigger g w : Inv w -> Inv (trigger g w).
  Proof.
    intros H. unfold trigger. destruct (pop_last (s_finished w)) as [rest [cl|]]; [|exact H].
    apply inv_begin_cleanup. apply inv_neutral; [|exact I]. destruct H as [G II A]. constructor; auto.
  Qed.

  Lemma inv_deduct g f inner w : Inv w -> Inv (fst (deduct g f inner w)).
  Proof.
    intros H. unfold deduct. destruct (position _ _) as [i|] eqn:P; [|exact H].
    apply position_cut in P as (l1 & a & l2 & E & <- & Fa & _).
    assert (Hf : a_flows a <> None) by (destruct (a_flows a); [discriminate|discriminate]).
    pose proof (leads_of_flows w l1 a l2 H E Hf) as L.
    rewrite E, update_nth_cut.
    set (a1 := match a_status a with FTerminated => a | _ => _ end).
    assert (E1 : a_scoped a1 = a_scoped a /\ a_parent a1 = a_parent a /\
      match a_status a with
      | FCancelled c _ => exists i, a_status a1 = FCancelled c i
      | _ => a_status a1 = a_status a
      end).
    { unfold a1. destruct a as [? ? ? [] ?]; cbn; auto. destruct inner; cbn; eauto. }
    destruct E1 as (Es & Ep & Est).
    destruct (inv_record l1 a a1 l2 w H L Es Ep Est) as [H1 L1].
    set (w1 := set_awaiting w (l1 ++ a1 :: l2)) in *.
    change (s_awaiting w1) with (l1 ++ a1 :: l2). rewrite update_nth_cut.
    match goal with |- context [l1 ++ ?x :: l2] =>
      match x with set_a_flows _ _ => set (a2 := x) end end.
    destruct (inv_record l1 a1 a2 l2 w1 H1 L1 eq_refl eq_refl) as [H2 L2].
    { unfold a2. destruct a1 as [? ? ? [] ?]; cbn; eauto. }
    set (w2 := set_awaiting w1 (l1 ++ a2 :: l2)) in *.
    change (s_awaiting w2) with (l1 ++ a2 :: l2). rewrite nth_error_mid.
    destruct (flows_done (a_flows a2)); [|exact H2].
    eapply inv_finalize; eauto.
  Qed.

  Lemma inv_step g w a : Inv w -> allowed g a -> Inv (step g w a).
  Proof.
    intros H Ha. destruct a; cbn [step].
    - now apply inv_begin.
    - now apply inv_arrive.
    - now apply inv_terminal.
    - destruct H as [G II A]. constructor; auto.
    - unfold trigger_cancel. destruct (s_cancels w) as [|[t c] rest]; [exact H|].
      apply inv_receive_cancel. destruct H as [G II A]. constructor; auto.
    - now apply inv_validate.
    - now apply inv_dyn_cleanup.
    - destruct (take_asked _ _); [|exact H]. apply inv_node_cleaned. destruct H as [G II A]. constructor; auto.
    - now apply inv_trigger.
    - destruct (existsb _ _); [|exact H]. apply inv_deduct. apply inv_neutral; [|exact I].
      destruct H as [G II A]. constructor; auto.
  Qed.

  Lemma inv_fresh base : Inv (fresh_scope (V := V) base).
  Proof.
    constructor; cbn; [|intros ? ? []|discriminate]. intros s. unfold good_at, vp, vr. cbn.
    constructor; cbn; auto 10; try contradiction; try discriminate; try (intros; contradiction).
  Qed.

  Lemma inv_run g base (acts : list (action V)) : Forall (allowed g) acts -> Inv (run g base acts).
  Proof.
    intros H. unfold run. assert (I0 := inv_fresh base). revert I0.
    generalize (fresh_scope (V := V) base). induction H as [|a acts Ha H IH]; intros w Hw; [exact Hw|].
    cbn. apply IH. now apply inv_step.
  Qed.

  Lemma outcome_once g base (acts : list (action V)) s :
    Forall (allowed g) acts -> outcomes s (s_log (run g base acts)) <= 1.
  Proof. intros H. apply (g_outs _ _ _ _ _ _ _ (i_good _ (inv_run g base acts H) s)). Qed.

  Lemma outcome_first g base (acts : list (action V)) e :
    Forall (allowed g) acts -> In e (s_log (run g base acts)) -> outcome_right (s_log (run g base acts)) e.
  Proof.
    intros H Hin. pose proof (inv_run g base acts H) as Hi.
    destruct e; try exact I.
    - apply (g_right _ _ _ _ _ _ _ (i_good _ Hi s)); [exact Hin|]. cbn. apply Nat.eqb_refl.
    - apply (g_right _ _ _ _ _ _ _ (i_good _ Hi s)); [exact Hin|]. cbn. apply Nat.eqb_refl.
  Qed.
End Invariant.
