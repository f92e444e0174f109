(** Lemmas about scopes whose parent does not interfere: sessions are released
    only when they are clean, and every session which was decided is released. *)
From Verif Require Import Base ScopeModel ScopeSpec ScopeProofs.

Local Arguments st_remove : simpl never.
Local Arguments filter : simpl never.

Section Inside.
  Context {V : Type}.
  Implicit Types (w : sstate V) (l : list (event V)).

  Definition no_flow (s : entity) l := forall f, ~ In (EFlow s f) l.
  Definition reported_all (nodes : list entity) (s : entity) l :=
    forall n, In n nodes -> exists id, In (ENode n s id) l.
  Definition over (st : sstatus) := st = Terminated \/ st = Cancelled.

  (** What can be known about a session: the pairs, the records, the nodes still to
      report, the entries of the roster and the log.  [post] are nodes which are
      still to be asked. *)
  Inductive phase (nodes post : list entity) (s : entity) (ps : list pair) (rs : list await)
      (cg : option (list entity)) (fin : list cleanup) (par : option entity)
      (asked : list (entity * entity * entity)) (flows : list entity) l : Prop :=
  | ph_none : ps = [] -> rs = [] -> cg = None -> fin = [] -> has_start s l = false ->
      no_flow s l -> outcomes s l = 0 -> phase nodes post s ps rs cg fin par asked flows l
  | ph_ongoing q : ps = [q] -> p_status q = Ongoing -> rs = [] -> cg = None -> fin = [] ->
      par = Some (p_parent q) -> no_flow s l -> phase nodes post s ps rs cg fin par asked flows l
  | ph_wait q a ns : ps = [q] -> over (p_status q) -> rs = [a] -> a_flows a = None ->
      cg = Some ns -> ns <> [] -> fin = [] ->
      (forall n, In n ns -> In n post \/ In (n, s, s) asked) ->
      (forall n, In n nodes -> In n ns \/ exists id, In (ENode n s id) l) ->
      no_flow s l -> phase nodes post s ps rs cg fin par asked flows l
  | ph_ready q a c : ps = [q] -> over (p_status q) -> rs = [a] -> a_flows a = None ->
      cg = None -> fin = [c] -> reported_all nodes s l ->
      no_flow s l -> phase nodes post s ps rs cg fin par asked flows l
  | ph_flows a fl : ps = [] -> rs = [a] -> a_flows a = Some fl -> fl <> [] ->
      cg = None -> fin = [] -> reported_all nodes s l ->
      (forall f, In f fl -> In f flows /\ In (EFlow s f) l) ->
      (forall f, In (EFlow s f) l -> In f fl \/ In (EFlowEnd f) l) ->
      phase nodes post s ps rs cg fin par asked flows l
  | ph_over : ps = [] -> rs = [] -> cg = None -> fin = [] -> outcomes s l = 1 ->
      phase nodes post s ps rs cg fin par asked flows l.

  Definition of_fin (s : entity) (c : cleanup) := Nat.eqb (cl_session c) s.
  Definition fin (s : entity) w := filter (of_fin s) (s_finished w).

  Definition ph g post w (s : entity) : Prop :=
    phase (g_nodes g) post s (vp s w) (vr s w) (c_get (s_contents w) s) (fin s w) (s_parent w s)
      (s_asked w) (s_flows w) (s_log w).

  (** Events which are not about session [s], or harmless. *)
  Definition foreign (s : entity) (e : event V) : Prop :=
    starts s e = false /\ is_outcome s e = false /\ forall f, e <> EFlow s f.

  Record frame (s : entity) w w' : Prop := {
    f_vp : vp s w' = vp s w; f_vr : vr s w' = vr s w;
    f_cg : c_get (s_contents w') s = c_get (s_contents w) s;
    f_fin : fin s w' = fin s w; f_par : s_parent w' s = s_parent w s;
    f_asked : forall n, In (n, s, s) (s_asked w) -> In (n, s, s) (s_asked w');
    f_flows : forall f, In (EFlow s f) (s_log w) -> In f (s_flows w) -> In f (s_flows w');
    f_log : exists evs, s_log w' = s_log w ++ evs /\ Forall (foreign s) evs }.

  Lemma frame_refl s w : frame s w w.
  Proof. constructor; auto. exists []. now rewrite app_nil_r. Qed.

  Lemma foreign_flow s f l evs :
    Forall (foreign s) evs -> In (EFlow s f) (l ++ evs) -> In (EFlow s f) l.
  Proof.
    intros F H. apply in_app_or in H as [H|H]; [exact H|]. rewrite Forall_forall in F.
    apply F in H as (_ & _ & H). now destruct (H f).
  Qed.

  Lemma foreign_start s l evs : Forall (foreign s) evs -> has_start s (l ++ evs) = has_start s l.
  Proof.
    intros F. rewrite has_start_app. replace (has_start s evs) with false; [apply Bool.orb_false_r|].
    symmetry. induction F as [|e evs [He _] F IH]; cbn; [reflexivity|]. now rewrite He.
  Qed.

  Lemma foreign_outcomes s l evs : Forall (foreign s) evs -> outcomes s (l ++ evs) = outcomes s l.
  Proof.
    intros F. rewrite outcomes_app, (outcomes_none s evs), Nat.add_0_r; [reflexivity|].
    intros e He. rewrite Forall_forall in F. apply F in He. apply He.
  Qed.

  Lemma frame_trans s w1 w2 w3 : frame s w1 w2 -> frame s w2 w3 -> frame s w1 w3.
  Proof.
    intros [A1 A2 A3 A4 A5 A6 A7 (x & A8 & A9)] [B1 B2 B3 B4 B5 B6 B7 (y & B8 & B9)].
    constructor; try congruence; auto.
    - intros f Hf Hi. apply B7; [rewrite A8; apply in_or_app; now left|auto].
    - exists (x ++ y). rewrite B8, A8, app_assoc. split; [reflexivity|]. apply Forall_app; auto.
  Qed.

  Lemma ph_frame g post w w' s : frame s w w' -> ph g post w s -> ph g post w' s.
  Proof.
    intros [A1 A2 A3 A4 A5 A6 A7 (x & A8 & A9)] P. unfold ph. rewrite A1, A2, A3, A4, A5, A8.
    assert (NF : no_flow s (s_log w) -> no_flow s (s_log w ++ x)).
    { intros H f Hf. apply (H f). eapply foreign_flow; eauto. }
    assert (RA : reported_all (g_nodes g) s (s_log w) -> reported_all (g_nodes g) s (s_log w ++ x)).
    { intros H n Hn. destruct (H n Hn) as [id Hid]. exists id. apply in_or_app. now left. }
    destruct P.
    - apply ph_none; auto; [rewrite foreign_start|rewrite foreign_outcomes]; auto.
    - eapply ph_ongoing; eauto.
    - eapply ph_wait; eauto.
      + intros n Hn. edestruct H6; eauto.
      + intros n Hn. destruct (H7 n Hn) as [?|[id Hid]]; auto. right. exists id. apply in_or_app. now left.
    - eapply ph_ready; eauto.
    - eapply ph_flows; eauto.
      + intros f Hf. destruct (H6 f Hf) as [H8 H9]. split; [auto|]. apply in_or_app. now left.
      + intros f Hf. apply foreign_flow in Hf; auto. destruct (H7 f Hf) as [?|?]; auto. right. apply in_or_app. now left.
    - apply ph_over; auto. rewrite foreign_outcomes; auto.
  Qed.

  (** What is known about the whole scope. *)
  Record glob (base : entity) g w : Prop := {
    j_next : base <= s_next w;
    j_pairs : forall q, In q (s_pairs w) -> p_parent q < base;
    j_await : forall a, In a (s_awaiting w) -> is_early (a_status a) = false;
    j_asked : forall x, In x (s_asked w) -> snd x = snd (fst x);
    j_fin : forall c, In c (s_finished w) -> cl_id c = cl_session c;
    j_cancels : forall t c, In (Some t, c) (s_cancels w) -> base <= t;
    j_fresh : forall s f, In (EFlow s f) (s_log w) -> f < s_next w;
    j_fun : forall s s' f, In (EFlow s f) (s_log w) -> In (EFlow s' f) (s_log w) -> s = s';
    j_begin : forall p s, In (EBegin p s) (s_log w) -> base <= s;
    j_clean : released_clean (g_nodes g) (s_log w) }.

  Definition plain (e : event V) : Prop :=
    match e with
    | EBegin _ _ | EFlow _ _ | EOut _ _ _ | ECancelOut _ _ _ _ => False
    | _ => True
    end.

  Lemma plain_spec e : plain e ->
    (forall s, is_outcome s e = false) /\ (forall s f, e <> EFlow s f) /\
    (forall p s, e <> EBegin p s) /\ forall s, starts s e = false.
  Proof. destruct e; intros []; repeat split; discriminate. Qed.

  Lemma released_snoc nodes l e :
    released_clean nodes l ->
    (forall s, is_outcome s e = true -> is_clean nodes s l) -> released_clean nodes (l ++ [e]).
  Proof.
    intros H He l1 e' l2 s El Ho.
    destruct (rev_case l2) as [->|(l3 & x & ->)].
    - apply app_inj_tail in El as [-> ->]. now apply He.
    - change (l1 ++ e' :: l3 ++ [x]) with (l1 ++ (e' :: l3) ++ [x]) in El. rewrite app_assoc in El.
      apply app_inj_tail in El as [-> ->]. now apply (H l1 e' l3 s).
  Qed.

  Lemma glob_say base g w e : glob base g w -> plain e -> glob base g (say w e).
  Proof.
    intros [A B C D E F G H J I] P. apply plain_spec in P as (P1 & P2 & P3 & _). constructor; auto; cbn.
    - intros s f Hi. apply in_app_or in Hi as [Hi|[Hi|[]]]; [eauto|]. now destruct (P2 s f).
    - intros s s' f Hi Hi'. apply in_app_or in Hi as [Hi|[Hi|[]]]; [|now destruct (P2 s f)].
      apply in_app_or in Hi' as [Hi'|[Hi'|[]]]; [eauto|now destruct (P2 s' f)].
    - intros p s Hi. apply in_app_or in Hi as [Hi|[Hi|[]]]; [eauto|]. now destruct (P3 p s).
    - apply released_snoc; auto. intros s Hs. rewrite P1 in Hs. discriminate.
  Qed.

  Lemma frame_say s w e : foreign s e -> frame s w (say w e).
  Proof. intros F. constructor; auto. exists [e]. split; [reflexivity|auto]. Qed.

  (** A transition which concerns session [s] only. *)
  Definition only base g (s : entity) w w' : Prop :=
    glob base g w' /\ forall s', s' <> s -> frame s' w w'.

  Lemma only_trans base g s w1 w2 w3 :
    only base g s w1 w2 -> only base g s w2 w3 -> only base g s w1 w3.
  Proof. intros [_ A] [B C]. split; [exact B|]. intros s' Hs. eapply frame_trans; eauto. Qed.

  Lemma neq_neqb (a b : nat) : a <> b -> Nat.eqb a b = false.
  Proof. apply Nat.eqb_neq. Qed.

  Lemma filter_snoc {A} (f : A -> bool) (l : list A) x : filter f (l ++ [x]) = filter f l ++ (if f x then [x] else []).
  Proof. rewrite filter_app. reflexivity. Qed.

  Lemma node_cleaned_only base g w cl :
    glob base g w -> cl_id cl = cl_session cl -> only base g (cl_session cl) w (node_cleaned w cl).
  Proof.
    intros G Ecl. unfold node_cleaned.
    set (w1 := say w _).
    assert (G1 : glob base g w1) by (apply glob_say; [exact G|exact I]).
    assert (F1 : forall s', frame s' w w1).
    { intros s'. apply frame_say. repeat split; discriminate. }
    destruct (notify_contents (s_contents w1) (cl_id cl) (cl_node cl)) as [m done] eqn:En.
    assert (Hm : forall s', s' <> cl_session cl -> c_get m s' = c_get (s_contents w1) s').
    { intros s' Hs. rewrite <- Ecl in Hs. pose proof (notify_other (s_contents w1) (cl_id cl) (cl_node cl) s' Hs) as N.
      rewrite En in N. exact N. }
    destruct done.
    - split.
      + destruct G1. constructor; auto. cbn. intros c Hc. apply in_app_or in Hc as [Hc|[<-|[]]]; auto.
      + intros s' Hs. eapply frame_trans; [apply F1|]. constructor; auto.
        * unfold fin. cbn. rewrite filter_snoc. unfold of_fin at 2. rewrite neq_neqb by congruence. apply app_nil_r.
        * exists []. now rewrite app_nil_r.
    - split.
      + destruct G1. constructor; auto.
      + intros s' Hs. eapply frame_trans; [apply F1|]. constructor; auto.
        * exists []. now rewrite app_nil_r.
  Qed.

  Lemma no_flow_snoc s l e : no_flow s l -> (forall f, e <> EFlow s f) -> no_flow s (l ++ [e]).
  Proof. intros H He f Hf. apply in_app_or in Hf as [Hf|[Hf|[]]]; [now apply (H f)|now apply (He f)]. Qed.

  Lemma node_cleaned_ph g post w cl :
    cl_id cl = cl_session cl ->
    ph g (cl_node cl :: post) w (cl_session cl) -> ph g post (node_cleaned w cl) (cl_session cl).
  Proof.
    intros Ecl P. unfold node_cleaned. set (s := cl_session cl) in *. set (n := cl_node cl) in *.
    set (w1 := say w _).
    assert (F1 : frame s w w1) by (apply frame_say; repeat split; discriminate).
    apply (ph_frame g (n :: post) w w1 s F1) in P.
    assert (Hlog : In (ENode n s (cl_id cl)) (s_log w1)) by (apply in_or_app; right; now left).
    rewrite Ecl in *. clearbody w1. clear F1. unfold ph in P.
    assert (Hn : c_get (s_contents w1) s = None -> ph g post w1 s ->
      ph g post (let '(m, done) := notify_contents (s_contents w1) s n in
                 if done then set_finished (set_contents w1 m) (s_finished (set_contents w1 m) ++ [cl])
                 else set_contents w1 m) s).
    { intros E Q. rewrite notify_none by exact E. exact Q. }
    assert (Hn' : c_get (s_contents w1) s = None -> ph g post w1 s).
    { intros E. unfold ph. destruct P.
      - now apply ph_none.
      - eapply ph_ongoing; eauto.
      - congruence.
      - eapply ph_ready; eauto.
      - eapply ph_flows; eauto.
      - now apply ph_over. }
    destruct (c_get (s_contents w1) s) as [ns|] eqn:Ec; [|auto].
    destruct P; try discriminate. injection H3 as <-.
    pose proof (notify_some (s_contents w1) s n ns Ec) as N.
    destruct (notify_contents (s_contents w1) s n) as [m done].
    cbn [fst snd] in N. destruct N as [(Ew & -> & N)|(Ew & -> & N)].
    - eapply ph_ready; eauto; cbn.
      + unfold fin. cbn. rewrite filter_snoc. fold (fin s w1). rewrite H5. unfold of_fin, s. rewrite Nat.eqb_refl. reflexivity.
      + intros k Hk. destruct (H7 k Hk) as [Hin|Hin]; [|exact Hin].
        destruct (Nat.eq_dec k n) as [->|Ne]; [eauto|].
        exfalso. assert (In k (without n ns)) as Hw by (apply in_without; auto). rewrite Ew in Hw. destruct Hw.
    - eapply ph_wait with (ns := without n ns); eauto; cbn.
      + intros k Hk. apply in_without in Hk as [Hw Ne].
        destruct (H6 k Hw) as [[<-|Hp]|Ha]; auto. congruence.
      + intros k Hk. destruct (H7 k Hk) as [Hin|Hin]; [|now right].
        destruct (Nat.eq_dec k n) as [->|Ne]; [right; eauto|]. left.
        apply in_without; auto.
  Qed.

  Lemma clean_node_only base g sync s w n :
    glob base g w -> only base g s w (clean_node g sync s s w n).
  Proof.
    intros G. unfold clean_node. destruct (sync n s).
    - now apply (node_cleaned_only base g w {| cl_cleaner := g_self g; cl_node := n; cl_session := s; cl_id := s |}).
    - split.
      + destruct G. constructor; auto. cbn. intros x Hx. apply in_app_or in Hx as [Hx|[<-|[]]]; auto.
      + intros s' Hs. constructor; auto.
        * cbn. intros k Hk. apply in_or_app. now left.
        * exists []. now rewrite app_nil_r.
  Qed.

  Lemma clean_node_ph g sync post s w n : ph g (n :: post) w s -> ph g post (clean_node g sync s s w n) s.
  Proof.
    intros P. unfold clean_node. destruct (sync n s).
    - now apply (node_cleaned_ph g post w {| cl_cleaner := g_self g; cl_node := n; cl_session := s; cl_id := s |}).
    - unfold ph in *. cbn. destruct P.
      + now apply ph_none.
      + eapply ph_ongoing; eauto.
      + eapply ph_wait; eauto. intros k Hk.
        destruct (H6 k Hk) as [[->|Hp]|Ha]; [right; apply in_or_app; right; now left|now left|right; apply in_or_app; now left].
      + eapply ph_ready; eauto.
      + eapply ph_flows; eauto.
      + now apply ph_over.
  Qed.

  Lemma clean_nodes_ok base g sync s nodes w :
    glob base g w -> ph g nodes w s ->
    only base g s w (fold_left (clean_node g sync s s) nodes w) /\
    ph g [] (fold_left (clean_node g sync s s) nodes w) s.
  Proof.
    revert w. induction nodes as [|n nodes IH]; intros w G P; cbn.
    - split; [split; [exact G|intros; apply frame_refl]|exact P].
    - pose proof (clean_node_only base g sync s w n G) as O.
      destruct (IH (clean_node g sync s s w n)) as [A B]; [apply O|now apply clean_node_ph|].
      split; [eapply only_trans; eauto|exact B].
  Qed.

  Definition own g (s : entity) : cleanup :=
    {| cl_cleaner := g_self g; cl_node := g_self g; cl_session := s; cl_id := s |}.

  (** A session which is about to be cleaned. *)
  Record start_clean (s : entity) w : Prop := {
    c_pair : exists q, vp s w = [q] /\ over (p_status q);
    c_rec : vr s w = []; c_cg : c_get (s_contents w) s = None; c_fin : fin s w = [];
    c_par : s_parent w s <> None; c_flow : no_flow s (s_log w) }.

  Lemma cleanup_session_ok base g sync st s w :
    glob base g w -> start_clean s w -> is_early st = false ->
    let w' := cleanup_session g sync (own g s) st s w in
    snd w' = false /\ only base g s w (fst w') /\ ph g [] (fst w') s.
  Proof.
    intros G [(q & Eq & Oq) Er Ec Ef Ep Fl] Es. unfold cleanup_session.
    destruct (s_parent w s) as [p|] eqn:Epar; [|congruence].
    set (a := {| a_scoped := s; a_parent := p; a_cleanup := own g s; a_status := st; a_flows := None |}).
    set (w1 := set_awaiting w _). cbv zeta.
    assert (G1 : glob base g w1).
    { destruct G. constructor; auto. cbn. intros b Hb. apply in_app_or in Hb as [Hb|[<-|[]]]; auto. }
    assert (R1 : vr s w1 = [a]).
    { unfold vr, w1. cbn. rewrite filter_snoc. fold (vr s w). rewrite Er. cbn. unfold of_await. cbn. now rewrite Nat.eqb_refl. }
    assert (O1 : forall s', s' <> s -> frame s' w w1).
    { intros s' Hs. constructor; auto.
      - unfold vr, w1. cbn. rewrite filter_snoc. unfold of_await at 2. cbn. rewrite neq_neqb by congruence. apply app_nil_r.
      - exists []. now rewrite app_nil_r. }
    set (w2 := say w1 _).
    assert (G2 : glob base g w2) by (apply glob_say; [exact G1|exact I]).
    assert (O2 : only base g s w w2).
    { split; [exact G2|]. intros s' Hs. eapply frame_trans; [now apply O1|]. apply frame_say. repeat split; discriminate. }
    assert (NF : no_flow s (s_log w2)) by (apply no_flow_snoc; [exact Fl|discriminate]).
    assert (Hset : forall w3, only base g s w w3 /\ ph g [] w3 s ->
      only base g s w (set_active w3 (fun e => if Nat.eqb e s then false else s_active w3 e)) /\
      ph g [] (set_active w3 (fun e => if Nat.eqb e s then false else s_active w3 e)) s).
    { intros w3 [[G3 F3] P3]. split; [split|exact P3].
      - destruct G3. constructor; auto.
      - intros s' Hs. destruct (F3 s' Hs). constructor; auto. }
    destruct (g_nodes g) as [|n ns] eqn:En; cbn [fst snd].
    - split; [reflexivity|]. apply Hset. split; [split|].
      + destruct G2. constructor; auto. cbn. intros c Hc. apply in_app_or in Hc as [Hc|[<-|[]]]; auto.
      + intros s' Hs. eapply frame_trans; [now apply O2|]. constructor; auto.
        * unfold fin. cbn. rewrite filter_snoc. unfold of_fin at 2. cbn. rewrite neq_neqb by congruence. apply app_nil_r.
        * exists []. now rewrite app_nil_r.
      + eapply ph_ready with (q := q) (a := a); auto.
        * unfold fin. cbn. rewrite filter_snoc. fold (fin s w). rewrite Ef. cbn. unfold of_fin. cbn. rewrite Nat.eqb_refl. reflexivity.
        * rewrite En. intros ? [].
    - split; [reflexivity|]. apply Hset. rewrite <- En.
      set (w3 := set_contents w2 _).
      assert (O3 : only base g s w w3).
      { split.
        - destruct G2. constructor; auto.
        - intros s' Hs. eapply frame_trans; [now apply O2|]. constructor; auto.
          + apply c_get_add_neq. auto.
          + exists []. now rewrite app_nil_r. }
      destruct (clean_nodes_ok base g sync s (g_nodes g) w3) as [A B].
      + apply O3.
      + eapply ph_wait with (q := q) (a := a) (ns := g_nodes g); auto.
        * apply c_get_add.
        * rewrite En. discriminate.
      + split; [eapply only_trans; eauto|exact B].
  Qed.

  (** ** Whole steps *)

  Definition Inv2 base g w : Prop := Inv w /\ glob base g w /\ forall s, ph g [] w s.

  Lemma all_of_only base g s w w' :
    (forall s', ph g [] w s') -> only base g s w w' -> ph g [] w' s -> forall s', ph g [] w' s'.
  Proof.
    intros A [_ F] P s'. destruct (Nat.eq_dec s' s) as [->|Ne]; [exact P|].
    eapply ph_frame; [now apply F|apply A].
  Qed.

  Lemma cleanup_one_ok base g sync st s w w0 :
    (forall s', s' <> s -> frame s' w0 w) -> (forall s', ph g [] w0 s') ->
    glob base g w -> start_clean s w -> is_early st = false ->
    let w' := cleanup_entire_scope g sync (own g s) st [s] w in
    snd w' = false /\ glob base g (fst w') /\ forall s', ph g [] (fst w') s'.
  Proof.
    intros F A G S Es. cbn. destruct (cleanup_session_ok base g sync st s w G S Es) as (E & O & P).
    destruct (cleanup_session g sync (own g s) st s w) as [w' b]. cbn in *. subst b. cbn.
    split; [reflexivity|]. split; [apply O|]. intros s'. destruct (Nat.eq_dec s' s) as [->|Ne]; [exact P|].
    eapply ph_frame; [|apply A]. eapply frame_trans; [now apply F|now apply O].
  Qed.

  (** The pairs of one session change their status. *)
  Lemma frame_pairs s w (l : list pair) : filter (of_pair s) l = vp s w -> frame s w (set_pairs w l).
  Proof. intros E. constructor; auto. exists []. now rewrite app_nil_r. Qed.

  Lemma switch_none sel f (l : list pair) : (forall q, In q l -> sel q = false) -> switch sel f l = (l, []).
  Proof.
    intros H. induction l as [|q l IH]; [reflexivity|]. cbn. rewrite IH by (intros; apply H; now right).
    now rewrite H by now left.
  Qed.

  Lemma nodup_view (l : list pair) s q :
    NoDup (map p_scoped l) -> In q l -> p_scoped q = s -> filter (of_pair s) l = [q].
  Proof.
    induction l as [|p l IH]; [intros _ []|]. cbn [map]. intros N Hin E. inversion N as [|x y Nx Nl]; subst x y.
    change (filter (of_pair s) (p :: l)) with (if of_pair s p then p :: filter (of_pair s) l else filter (of_pair s) l).
    destruct Hin as [->|Hin].
    - unfold of_pair at 1. rewrite E, Nat.eqb_refl.
      replace (filter (of_pair s) l) with (@nil pair); [reflexivity|]. symmetry.
      apply filter_none. apply forallb_forall. intros x Hx. unfold of_pair. apply Bool.negb_true_iff, Nat.eqb_neq.
      intros Ex. apply Nx. rewrite E, <- Ex. now apply in_map.
    - unfold of_pair at 1. destruct (Nat.eqb_spec (p_scoped p) s) as [Ep|Ep]; [|now apply IH].
      exfalso. apply Nx. rewrite Ep, <- E. now apply in_map.
  Qed.

  (** Changing the status of the pairs of session [s] alone. *)
  Lemma switch_single sel f (l : list pair) s q :
    NoDup (map p_scoped l) -> In q l -> p_scoped q = s ->
    (forall x, In x l -> sel x = Nat.eqb (p_scoped x) s) ->
    switch sel f l = (map (turn sel f) l, if snd (f (p_status q)) then [s] else []).
  Proof.
    intros N Hin E Hsel. rewrite switch_eq. f_equal.
    revert N Hin Hsel. induction l as [|p l IH]; [intros _ []|]. cbn [map]. intros N Hin Hsel.
    inversion N as [|x y Nx Nl]; subst x y.
    assert (Hp : filter (turned sel f) (p :: l) = if turned sel f p then p :: filter (turned sel f) l else filter (turned sel f) l) by reflexivity.
    rewrite Hp. destruct Hin as [->|Hin].
    - assert (Hr : filter (turned sel f) l = []).
      { apply filter_none. apply forallb_forall. intros x Hx. unfold turned. rewrite Hsel by now right.
        rewrite neq_neqb; [reflexivity|]. intros Ex. apply Nx. rewrite E, <- Ex. now apply in_map. }
      rewrite Hr. unfold turned. rewrite Hsel by now left. rewrite E, Nat.eqb_refl. cbn.
      destruct (snd (f (p_status q))); cbn; congruence.
    - unfold turned at 1. rewrite Hsel by now left. rewrite neq_neqb.
      + cbn. apply IH; auto. intros x Hx. apply Hsel. now right.
      + intros Ep. apply Nx. rewrite Ep, <- E. now apply in_map.
  Qed.

  Definition Ok base g w : Prop := glob base g w /\ forall s, ph g [] w s.

  Lemma ok_say base g w e :
    Ok base g w -> plain e -> Ok base g (say w e).
  Proof.
    intros [G A] P. split; [now apply glob_say|]. intros s. eapply ph_frame; [|apply A].
    apply frame_say. apply plain_spec in P as (P1 & P2 & _ & P3). repeat split; auto.
  Qed.

  (** A change which no view notices. *)
  Lemma ok_same base g w w' :
    Ok base g w -> glob base g w' -> (forall s, frame s w w') -> Ok base g w'.
  Proof. intros [_ A] G F. split; [exact G|]. intros s. eapply ph_frame; [apply F|apply A]. Qed.

  Lemma glob_pairs base g w (l : list pair) :
    glob base g w -> (forall q, In q l -> p_parent q < base) -> glob base g (set_pairs w l).
  Proof. intros [] H. constructor; auto. Qed.

  Lemma pair_same (q : pair) : {| p_parent := p_parent q; p_scoped := p_scoped q; p_status := p_status q |} = q.
  Proof. now destruct q. Qed.

  Lemma cancelled_over st : over st -> to_cancelled st = (st, false).
  Proof. intros [->| ->]; reflexivity. Qed.

  Lemma finished_over st : over st -> to_finished st = (st, false).
  Proof. intros [->| ->]; reflexivity. Qed.

  (** The phase of a session which has a pair. *)
  Lemma ph_pair g w s q : ph g [] w s -> vp s w = [q] ->
    over (p_status q) \/
    (p_status q = Ongoing /\ vr s w = [] /\ c_get (s_contents w) s = None /\ fin s w = [] /\
     s_parent w s = Some (p_parent q) /\ no_flow s (s_log w)).
  Proof.
    intros P E. destruct P; rewrite E in *; try discriminate;
      match goal with H : [_] = [_] |- _ => injection H as <- end; auto 10.
  Qed.

  Lemma ok_cancel_one base g sync t c w :
    Inv w -> Ok base g w -> base <= t -> Ok base g (fst (cancel_one g sync t c w)).
  Proof.
    intros H O Ht. unfold cancel_one. set (w1 := say w _).
    assert (O1 : Ok base g w1) by (apply ok_say; [auto|exact I]).
    assert (N1 : NoDup (map p_scoped (s_pairs w1))) by apply (nodup_pairs w H).
    assert (F1 : forall s, vp s w1 = vp s w) by reflexivity.
    clearbody w1. destruct O1 as [G1 A1].
    set (sel := fun p => (Nat.eqb (p_scoped p) t || Nat.eqb (p_parent p) t)%bool).
    assert (Hsel : forall x, In x (s_pairs w1) -> sel x = Nat.eqb (p_scoped x) t).
    { intros x Hx. unfold sel. pose proof (j_pairs _ _ _ G1 x Hx). rewrite (neq_neqb (p_parent x) t) by lia. apply Bool.orb_false_r. }
    destruct (existsb (fun x => Nat.eqb (p_scoped x) t) (s_pairs w1)) eqn:Ex.
    - apply existsb_exists in Ex as (q & Hq & Eq). apply Nat.eqb_eq in Eq.
      pose proof (nodup_view (s_pairs w1) t q N1 Hq Eq) as Vq.
      rewrite (switch_single sel to_cancelled (s_pairs w1) t q N1 Hq Eq Hsel).
      set (w2 := set_pairs w1 _).
      assert (Hv : forall s, s <> t -> frame s w1 w2).
      { intros s Hs. apply frame_pairs. rewrite filter_turn.
        change (filter (of_pair s) (s_pairs w1)) with (vp s w1).
        rewrite <- (map_id (vp s w1)) at 2. apply map_ext_in. intros x Hx. unfold vp in Hx. apply filter_In in Hx as [Hx Hy].
        unfold turn. rewrite Hsel by exact Hx. unfold of_pair in Hy. apply Nat.eqb_eq in Hy. rewrite neq_neqb by congruence. reflexivity. }
      assert (Hvt : vp t w2 = [{| p_parent := p_parent q; p_scoped := p_scoped q; p_status := fst (to_cancelled (p_status q)) |}]).
      { unfold vp, w2. cbn. rewrite filter_turn, Vq. cbn. unfold turn. rewrite Hsel, Eq, Nat.eqb_refl by exact Hq. reflexivity. }
      assert (G2 : glob base g w2).
      { apply glob_pairs; [exact G1|]. intros x Hx. apply in_map_iff in Hx as (y & <- & Hy). rewrite turn_parent. now apply (j_pairs _ _ _ G1). }
      destruct (ph_pair g w1 t q (A1 t) Vq) as [Ov|(Eo & Er & Ec & Ef & Ep & Nf)].
      + rewrite cancelled_over by exact Ov. cbn. split; [exact G2|]. intros s.
        eapply ph_frame; [|apply A1]. destruct (Nat.eq_dec s t) as [->|Ne]; [|now apply Hv].
        apply frame_pairs. change (vp t w2 = vp t w1). rewrite Hvt, cancelled_over, pair_same by exact Ov. symmetry. exact Vq.
      + rewrite Eo. cbn [to_cancelled snd].
        destruct (cleanup_one_ok base g sync (FCancelled c []) t w2 w1 Hv A1 G2) as (_ & G3 & A3); auto.
        * constructor; auto.
          -- eexists. split; [exact Hvt|]. rewrite Eo. cbn. now right.
          -- cbn. rewrite Ep. discriminate.
        * split; assumption.
    - rewrite switch_none.
      + cbn. apply (ok_same base g w1); [split; assumption| |intros s; now apply frame_pairs].
        apply glob_pairs; [exact G1|apply G1].
      + intros q Hq. rewrite Hsel by exact Hq. destruct (Nat.eqb (p_scoped q) t) eqn:E; [|reflexivity].
        rewrite <- Ex. symmetry. apply existsb_exists. eauto.
  Qed.

  Lemma ok_cancel_each base g sync ss c w :
    Inv w -> Ok base g w -> Forall (fun s => base <= s) ss -> Ok base g (cancel_each g sync ss c w).
  Proof.
    revert w. induction ss as [|s ss IH]; intros w H O F; [exact O|]. inversion F; subst. cbn.
    apply IH; auto; [now apply inv_cancel_one|now apply ok_cancel_one].
  Qed.

  (** Begun sessions are at or above [base]. *)
  Lemma ok_receive_cancel base g sync t c w :
    Inv w -> Ok base g w -> (forall q, In q (s_pairs w) -> base <= p_scoped q) ->
    (forall e, t = Some e -> base <= e) ->
    Ok base g (receive_cancel g sync t c w).
  Proof.
    intros H O Hp Ht. destruct t as [e|]; cbn.
    - apply ok_cancel_one; auto.
    - apply ok_cancel_each; auto. apply Forall_forall. intros s Hs. apply in_map_iff in Hs as (q & <- & Hq). auto.
  Qed.

  Lemma glob_set_first base g w s st :
    glob base g w -> glob base g (set_pairs w (set_first s st (s_pairs w))).
  Proof.
    intros G. apply glob_pairs; [exact G|]. intros q Hq.
    assert (exists q', In q' (s_pairs w) /\ p_parent q' = p_parent q) as (q' & Hq' & <-).
    { clear G. induction (s_pairs w) as [|x l IH]; [destruct Hq|]. cbn in Hq. destruct (Nat.eqb (p_scoped x) s).
      - destruct Hq as [<-|Hq]; [exists x; split; [now left|reflexivity]|exists q; split; [now right|reflexivity]].
      - destruct Hq as [<-|Hq]; [exists x; split; [now left|reflexivity]|].
        destruct (IH Hq) as (y & Hy & E). exists y. split; [now right|exact E]. }
    now apply G.
  Qed.

  Lemma frame_set_first w s s' st : s' <> s -> frame s' w (set_pairs w (set_first s st (s_pairs w))).
  Proof. intros Hs. apply frame_pairs. now apply set_first_other. Qed.

  (** The end of the first-pair searches: an ongoing session starts to be cleaned. *)
  Lemma ok_first base g sync s q st fs w :
    Ok base g w -> vp s w = [q] -> p_status q = Ongoing -> over st -> is_early fs = false ->
    Ok base g (fst (cleanup_entire_scope g sync (own g s) fs [s]
                 (set_pairs w (set_first s st (s_pairs w))))).
  Proof.
    intros [G A] Vq Eq Hst Hfs. set (w2 := set_pairs w _).
    assert (Hv : forall s', s' <> s -> frame s' w w2) by (intros; now apply frame_set_first).
    destruct (ph_pair g w s q (A s) Vq) as [[Ov|Ov]|(Eo & Er & Ec & Ef & Ep & Nf)]; [congruence|congruence|].
    destruct (cleanup_one_ok base g sync fs s w2 w Hv A) as (_ & G3 & A3); auto.
    - now apply glob_set_first.
    - constructor; auto.
      + eexists. split; [unfold vp, w2; cbn; rewrite set_first_same; fold (vp s w); rewrite Vq; reflexivity|exact Hst].
      + cbn. rewrite Ep. discriminate.
    - split; assumption.
  Qed.

  Lemma ok_validate base g sync s c w :
    Inv w -> Ok base g w -> Ok base g (fst (validate_unreachable g sync s c w)).
  Proof.
    intros H O. unfold validate_unreachable. set (w1 := say w _).
    assert (O1 : Ok base g w1) by (apply ok_say; [auto|exact I]).
    assert (L1 : length (vp s w1) <= 1) by apply (g_one _ _ _ _ _ _ _ (i_good w H s)).
    clearbody w1. rewrite vp_find. destruct (vp s w1) as [|q r] eqn:Vq; cbn [hd_error]; [exact O1|].
    destruct r as [|q' r]; [|cbn in L1; lia].
    destruct (ph_pair g w1 s q) as [Ov|(Eo & _)]; [apply O1|exact Vq| |].
    - rewrite cancelled_over by exact Ov. exact O1.
    - rewrite Eo. cbn [to_cancelled]. eapply (ok_first base g sync s q Cancelled (FCancelled c [])); eauto. now right.
  Qed.

  Lemma ok_terminal base g sync w : Inv w -> Ok base g w -> Ok base g (terminal g sync w).
  Proof.
    intros H O.
    assert (Hc : forall w', Ok base g w' -> Ok base g (set_cancels w' (s_cancels w' ++ [(None, broken_cause)]))).
    { intros w' O'. apply (ok_same base g w' _ O').
      - destruct O' as [[] _]. constructor; auto. cbn. intros t c Hi. apply in_app_or in Hi as [Hi|[[=]|[]]]; eauto.
      - intros s. constructor; auto. exists []. now rewrite app_nil_r. }
    unfold terminal, terminate_execute. destruct (s_inputs w) as [|[s v] rest] eqn:Ei; [exact O|].
    set (w1 := say (set_inputs w rest) _).
    assert (O1 : Ok base g w1).
    { apply ok_say; [|exact I]. apply (ok_same base g w _ O).
      - destruct O as [[] _]. constructor; auto.
      - intros s'. constructor; auto. exists []. now rewrite app_nil_r. }
    assert (L1 : length (vp s w1) <= 1) by apply (g_one _ _ _ _ _ _ _ (i_good w H s)).
    clearbody w1. destruct (st_get (s_staging w1) s); [exact O1|].
    set (w2 := set_staging w1 _).
    assert (O2 : Ok base g w2).
    { apply (ok_same base g w1 _ O1).
      - destruct O1 as [[] _]. constructor; auto.
      - intros s'. constructor; auto. exists []. now rewrite app_nil_r. }
    change (vp s w1) with (vp s w2) in L1. clearbody w2.
    rewrite vp_find. destruct (vp s w2) as [|q r] eqn:Vq; cbn [hd_error]; [now apply Hc|].
    destruct r as [|q' r]; [|cbn in L1; lia].
    destruct (ph_pair g w2 s q) as [Ov|(Eo & _)]; [apply O2|exact Vq| |].
    - rewrite finished_over by exact Ov. exact O2.
    - rewrite Eo. cbn [to_finished].
      pose proof (ok_first base g sync s q Terminated FTerminated w2 O2 Vq Eo (or_introl eq_refl) eq_refl) as O3.
      change {| cl_cleaner := g_self g; cl_node := g_self g; cl_session := s; cl_id := s |} with (own g s).
      destruct (cleanup_entire_scope g sync (own g s) FTerminated [s] _) as [w3 []]; [now apply Hc|exact O3].
  Qed.

  Lemma fresh_phase g w :
    Inv w -> ph g [] w (s_next w) ->
    vp (s_next w) w = [] /\ vr (s_next w) w = [] /\ c_get (s_contents w) (s_next w) = None /\
    fin (s_next w) w = [] /\ no_flow (s_next w) (s_log w).
  Proof.
    intros H P. destruct (g_fresh _ _ _ _ _ _ _ (i_good w H (s_next w)) (le_n _)) as (A & B & _ & _ & _ & C).
    destruct P; auto; rewrite ?A, ?B in *; try discriminate. rewrite C in *. discriminate.
  Qed.

  Lemma ok_begin base g sync p st w :
    Inv w -> Ok base g w -> p < base -> Ok base g (begin_scope g sync p st w).
  Proof.
    intros H O Hp. set (w5 := begin_scope g sync p SOk w).
    assert (H5 : Inv w5) by now apply inv_begin.
    assert (O5 : Ok base g w5).
    { destruct O as [G A]. destruct (fresh_phase g w H (A _)) as (E1 & E2 & E3 & E4 & E5). split.
      - destruct G as [J1 J2 J3 J4 J5 J6 J7 J8 J0 J9]. constructor; auto; cbn.
        + lia.
        + intros q Hq. apply in_app_or in Hq as [Hq|[<-|[]]]; auto.
        + intros s f Hf. apply in_app_or in Hf as [Hf|[[=]|[]]]. apply J7 in Hf. lia.
        + intros s s' f Hf Hf'. apply in_app_or in Hf as [Hf|[[=]|[]]]. apply in_app_or in Hf' as [Hf'|[[=]|[]]]. eauto.
        + intros p' s Hi. apply in_app_or in Hi as [Hi|[[= <- <-]|[]]]; eauto.
        + apply released_snoc; [exact J9|]. discriminate.
      - intros s. destruct (Nat.eq_dec s (s_next w)) as [->|Ne].
        + eapply ph_ongoing with (q := {| p_parent := p; p_scoped := s_next w; p_status := Ongoing |}); auto.
          * unfold vp. cbn. rewrite filter_snoc. fold (vp (s_next w) w). rewrite E1. unfold of_pair. cbn. now rewrite Nat.eqb_refl.
          * cbn. unfold emap_set. now rewrite Nat.eqb_refl.
          * apply no_flow_snoc; [exact E5|discriminate].
        + eapply ph_frame; [|apply A]. constructor; auto.
          * unfold vp. cbn. rewrite filter_snoc. unfold of_pair at 2. cbn. rewrite neq_neqb by congruence. apply app_nil_r.
          * cbn. now apply emap_set_neq.
          * exists [EBegin p (s_next w)]. split; [reflexivity|]. repeat constructor; cbn; try discriminate. apply neq_neqb. auto. }
    destruct st; [exact O5| |].
    - change (Ok base g (fst (cancel_one g sync (s_next w) c w5))). apply ok_cancel_one; auto. apply O.
    - change (Ok base g (fst (validate_unreachable g sync (s_next w) c w5))). now apply ok_validate.
  Qed.

  (** ** Cleanup workflows and the release of the outcome *)


  Record flowing g (s : entity) (a : await) (fl : list entity) w : Prop := {
    w_vp : vp s w = []; w_vr : vr s w = [a]; w_fl : a_flows a = Some fl;
    w_cg : c_get (s_contents w) s = None; w_fin : fin s w = [];
    w_rep : reported_all (g_nodes g) s (s_log w);
    w_in : forall f, In f fl -> In f (s_flows w) /\ In (EFlow s f) (s_log w);
    w_all : forall f, In (EFlow s f) (s_log w) -> In f fl \/ In (EFlowEnd f) (s_log w) }.

  Lemma flowing_ph g s a fl w : flowing g s a fl w -> fl <> [] -> ph g [] w s.
  Proof. intros [] Hf. eapply ph_flows; eauto. Qed.

  Lemma frame_awaiting (l1 : list await) a (l2 : list await) a' w s :
    leads l1 a l2 w -> a_scoped a' = a_scoped a -> s <> a_scoped a ->
    frame s w (set_awaiting w (l1 ++ a' :: l2)).
  Proof.
    intros L E Ne. constructor; auto.
    - rewrite (leads_other l1 a l2 w s (fun x => x) L) by congruence.
      unfold vr. cbn. rewrite !filter_app. f_equal.
      change (filter (of_await s) (a' :: l2)) with (if of_await s a' then a' :: filter (of_await s) l2 else filter (of_await s) l2).
      now rewrite of_await_neq by congruence.
    - exists []. now rewrite app_nil_r.
  Qed.

  Lemma glob_awaiting base g w (l : list await) :
    glob base g w -> (forall a, In a l -> is_early (a_status a) = false) -> glob base g (set_awaiting w l).
  Proof. intros [] H. constructor; auto. Qed.

  Lemma is_outcome_neq s s' : s <> s' -> forall e : event V, is_outcome s e = true -> is_outcome s' e = false.
  Proof.
    intros Ne e He. destruct e; try discriminate; cbn in *; apply Nat.eqb_eq in He; apply neq_neqb; congruence.
  Qed.

  Lemma release_ok base g s w1 w0 e :
    glob base g w0 -> only base g s w0 w1 -> is_clean (g_nodes g) s (s_log w1) ->
    vp s w1 = [] -> vr s w1 = [] -> c_get (s_contents w1) s = None -> fin s w1 = [] ->
    outcomes s (s_log w1) = 0 -> is_outcome s e = true ->
    only base g s w0 (say w1 e) /\ ph g [] (say w1 e) s.
  Proof.
    intros G0 [G1 F1] Cl Ep Er Ec Ef Eo He.
    assert (Hst : forall s', starts s' e = false) by (intros; destruct e; try discriminate; reflexivity).
    assert (Hfl : forall s' f, e <> EFlow s' f) by (intros s' f ->; discriminate).
    assert (Hoth : forall s', s' <> s -> is_outcome s' e = false) by (intros; eapply is_outcome_neq; eauto).
    split; [split|].
    - destruct G1 as [J1 J2 J3 J4 J5 J6 J7 J8 J0 J9]. constructor; auto; cbn.
      + intros s' f Hi. apply in_app_or in Hi as [Hi|[Hi|[]]]; [eauto|]. now destruct (Hfl s' f).
      + intros s1 s2 f Hi Hi'. apply in_app_or in Hi as [Hi|[Hi|[]]]; [|now destruct (Hfl s1 f)].
        apply in_app_or in Hi' as [Hi'|[Hi'|[]]]; [eauto|now destruct (Hfl s2 f)].
      + intros p' s' Hi. apply in_app_or in Hi as [Hi|[->|[]]]; [eauto|discriminate].
      + apply released_snoc; auto. intros s' Hs'. destruct (Nat.eq_dec s' s) as [->|Ne]; [exact Cl|].
        rewrite Hoth in Hs' by exact Ne. discriminate.
    - intros s' Hs. eapply frame_trans; [now apply F1|]. apply frame_say. repeat split; auto.
    - apply ph_over; auto. cbn. rewrite outcomes_app, Eo. unfold outcomes.
      change (filter (is_outcome s) [e]) with (if is_outcome s e then [e] else []). now rewrite He.
  Qed.

  (** Changes of the parts which no phase looks at. *)
  Lemma only_hidden base g s w0 w w' :
    only base g s w0 w -> ph g [] w s ->
    s_pairs w' = s_pairs w -> s_awaiting w' = s_awaiting w -> s_contents w' = s_contents w ->
    s_asked w' = s_asked w -> s_flows w' = s_flows w -> s_finished w' = s_finished w ->
    s_cancels w' = s_cancels w -> s_next w' = s_next w -> s_log w' = s_log w ->
    (forall s', s' <> s -> s_parent w' s' = s_parent w s') ->
    vp s w = [] -> vr s w = [] ->
    only base g s w0 w' /\ ph g [] w' s.
  Proof.
    intros [G F] P E1 E2 E3 E4 E5 E6 E7 E8 E9 E10 Vp Vr. split; [split|].
    - destruct G. constructor; rewrite ?E1, ?E2, ?E3, ?E4, ?E5, ?E6, ?E7, ?E8, ?E9; auto.
    - intros s' Hs. eapply frame_trans; [now apply F|]. constructor; unfold vp, vr, fin;
        rewrite ?E1, ?E2, ?E3, ?E4, ?E5, ?E6, ?E7, ?E8, ?E9, ?E10; auto.
      exists []. now rewrite app_nil_r.
    - unfold ph, vp, vr, fin in *. rewrite ?E1, ?E2, ?E3, ?E4, ?E5, ?E6, ?E7, ?E8, ?E9.
      destruct P; rewrite ?Vp, ?Vr in *; try discriminate.
      + now apply ph_none.
      + now apply ph_over.
  Qed.

  Lemma finalize_ok base g w (l1 : list await) a (l2 : list await) :
    Inv w -> glob base g w -> leads l1 a l2 w -> flowing g (a_scoped a) a [] w ->
    only base g (a_scoped a) w (fst (finalize_scoped_session g (length l1) w)) /\
    ph g [] (fst (finalize_scoped_session g (length l1) w)) (a_scoped a).
  Proof.
    intros H G L W. pose proof L as [E F].
    assert (Ha : is_early (a_status a) = false) by (apply (j_await _ _ _ G); rewrite E; apply in_or_app; right; now left).
    pose proof (i_good w H (a_scoped a)) as Gs. unfold good_at in Gs. rewrite (w_vr _ _ _ _ _ W) in Gs.
    destruct (g_head _ _ _ _ _ _ _ Gs a [] eq_refl Ha) as [Eo Est].
    assert (Cl : is_clean (g_nodes g) (a_scoped a) (s_log w)).
    { split; [apply (w_rep _ _ _ _ _ W)|]. intros f Hf. destruct (w_all _ _ _ _ _ W f Hf) as [[]|Hf']; exact Hf'. }
    unfold finalize_scoped_session. rewrite E, nth_error_mid, Ha, remove_nth_cut.
    set (s := a_scoped a) in *. set (p := a_parent a).
    set (w1 := set_awaiting w (l1 ++ l2)).
    assert (Hl2 : filter (of_await s) l2 = []).
    { pose proof (leads_vr _ _ _ _ L) as Hvr. fold s in Hvr. rewrite (w_vr _ _ _ _ _ W) in Hvr. now injection Hvr. }
    assert (O1 : only base g s w w1).
    { split.
      - apply glob_awaiting; [exact G|]. intros b Hb. apply (j_await _ _ _ G). rewrite E.
        apply in_app_or in Hb as [Hb|Hb]; apply in_or_app; [now left|right; now right].
      - intros s' Hs. constructor; auto.
        + rewrite (leads_other l1 a l2 w s' (fun x => x) L); [reflexivity|]. intros X. apply Hs. rewrite <- X. reflexivity.
        + exists []. now rewrite app_nil_r. }
    assert (V1 : vr s w1 = []) by (unfold vr, w1; cbn; rewrite filter_app, F, Hl2; reflexivity).
    assert (Hearly : forall w', s_awaiting w' = l1 ++ l2 ->
      existsb (fun b => is_early (a_status b))
        (filter (fun b => Nat.eqb (cl_id (a_cleanup b)) (cl_id (a_cleanup a))) (s_awaiting w')) = false).
    { intros w' ->. apply Bool.not_true_iff_false. intros X. apply existsb_exists in X as (b & Hb & Eb).
      apply filter_In in Hb as [Hb _]. rewrite (j_await _ _ _ (proj1 O1) b Hb) in Eb. discriminate. }
    destruct (a_status a) as [| |c inner] eqn:Ea; [|discriminate|]; cbn [is_terminated].
    - rewrite (Hearly w1 eq_refl). cbn [andb].
      destruct Est as (v & Ev & _). change (s_staging w1) with (s_staging w). rewrite Ev. cbn [fst].
      set (w2 := set_staging w1 _).
      assert (O2 : only base g s w w2).
      { destruct O1 as [J K]. split; [destruct J; constructor; auto|]. intros s' Hs. destruct (K s' Hs). constructor; auto. }
      destruct (release_ok base g s w2 w (EOut p s v) G O2 Cl (w_vp _ _ _ _ _ W) V1 (w_cg _ _ _ _ _ W) (w_fin _ _ _ _ _ W) Eo)
        as [O3 P3]; [apply Nat.eqb_refl|].
      set (w3 := say w2 _) in *.
      destruct (only_hidden base g s w w3 (set_parent w3 (emap_set (s_parent w3) s None)) O3 P3) as [O4 P4];
        try reflexivity; [intros; now apply emap_set_neq|exact (w_vp _ _ _ _ _ W)|exact V1|].
      split.
      + eapply only_trans; [exact O4|]. split; [apply glob_say; [apply O4|exact I]|].
        intros s' Hs. apply frame_say. repeat split; discriminate.
      + eapply ph_frame; [|exact P4]. apply frame_say. repeat split; discriminate.
    - set (w2 := say w1 _). rewrite (Hearly w2 eq_refl). cbn [andb fst].
      destruct (release_ok base g s w1 w (ECancelOut p s c inner) G O1 Cl (w_vp _ _ _ _ _ W) V1 (w_cg _ _ _ _ _ W) (w_fin _ _ _ _ _ W) Eo)
        as [O3 P3]; [apply Nat.eqb_refl|]. fold w2 in O3, P3.
      set (w3 := set_inputs w2 _). set (w4 := set_staging w3 _).
      destruct (only_hidden base g s w w2 (set_parent w4 (emap_set (s_parent w4) s None)) O3 P3) as [O4 P4];
        try reflexivity; [intros; now apply emap_set_neq|exact (w_vp _ _ _ _ _ W)|exact V1|].
      split.
      + eapply only_trans; [exact O4|]. split; [apply glob_say; [apply O4|exact I]|].
        intros s' Hs. apply frame_say. repeat split; discriminate.
      + eapply ph_frame; [|exact P4]. apply frame_say. repeat split; discriminate.
  Qed.

  Lemma begin_flow_ok base g (l1 : list await) a (l2 : list await) fl w :
    glob base g w -> leads l1 a l2 w -> flowing g (a_scoped a) a fl w ->
    let w' := begin_flow (length l1) (a_scoped a) w in
    let a' := set_a_flows (Some (fl ++ [s_next w])) a in
    only base g (a_scoped a) w w' /\ leads l1 a' l2 w' /\ flowing g (a_scoped a) a' (fl ++ [s_next w]) w'.
  Proof.
    intros G L W w' a'. set (s := a_scoped a) in *.
    set (w1 := say (set_flows (set_next w (S (s_next w))) (s_flows w ++ [s_next w])) (EFlow s (s_next w))).
    assert (Eb : w' = set_awaiting w1 (l1 ++ a' :: l2)).
    { unfold w', begin_flow. destruct L as [E _]. cbn. rewrite E, update_nth_cut. rewrite (w_fl _ _ _ _ _ W). reflexivity. }
    assert (G1 : glob base g w1).
    { destruct G as [J1 J2 J3 J4 J5 J6 J7 J8 J0 J9]. constructor; auto; cbn.
      - lia.
      - intros s1 f Hi. apply in_app_or in Hi as [Hi|[Hi|[]]]; [apply J7 in Hi; lia|]. injection Hi as <- <-. lia.
      - intros s1 s2 f Hi Hi'. apply in_app_or in Hi as [Hi|[Hi|[]]]; apply in_app_or in Hi' as [Hi'|[Hi'|[]]].
        + eauto.
        + injection Hi' as <- <-. apply J7 in Hi. lia.
        + injection Hi as <- <-. apply J7 in Hi'. lia.
        + congruence.
      - intros p' s' Hi. apply in_app_or in Hi as [Hi|[[=]|[]]]; eauto.
      - apply released_snoc; auto. intros ? [=]. }
    assert (L1 : leads l1 a l2 w1) by exact L.
    rewrite Eb. split; [split|split].
    - apply glob_awaiting; [exact G1|]. intros b Hb.
      assert (Hx : forall c, In c (l1 ++ a :: l2) -> is_early (a_status c) = false).
      { destruct L as [E _]. rewrite <- E. apply G. }
      apply in_app_or in Hb as [Hb|[<-|Hb]].
      + apply Hx. apply in_or_app. now left.
      + apply (Hx a). apply in_or_app. right. now left.
      + apply Hx. apply in_or_app. right. now right.
    - intros s' Hs. apply frame_trans with w1; [|now apply (frame_awaiting l1 a l2 a' w1 s' L1)].
      constructor; auto.
      + cbn. intros f Hf Hi. apply in_or_app. now left.
      + exists [EFlow s (s_next w)]. split; [reflexivity|]. repeat constructor; cbn; try congruence.
    - split; [reflexivity|]. apply L.
    - destruct W as [W1 W2 W3 W4 W5 W6 W7 W8]. constructor; auto.
      + unfold vr. cbn. rewrite filter_app. destruct L as [E F]. fold s in F. rewrite F.
        pose proof (leads_vr l1 a l2 w (conj E F)) as Hv. fold s in Hv. rewrite W2 in Hv. injection Hv as Hv.
        change (filter (of_await s) (a' :: l2)) with (if of_await s a' then a' :: filter (of_await s) l2 else filter (of_await s) l2).
        change (of_await s a') with (of_await (a_scoped a) a). rewrite of_await_refl, <- Hv. reflexivity.
      + intros n Hn. destruct (W6 n Hn) as [id Hid]. exists id. apply in_or_app. now left.
      + cbn. intros f Hf. apply in_app_or in Hf as [Hf|[<-|[]]].
        * destruct (W7 f Hf). split; apply in_or_app; now left.
        * split; apply in_or_app; right; now left.
      + cbn. intros f Hf. apply in_app_or in Hf as [Hf|[[= <-]|[]]].
        * destruct (W8 f Hf); [left|right]; apply in_or_app; now left.
        * left. apply in_or_app. right. now left.
  Qed.

  Lemma begin_flows_ok base g (l1 : list await) a (l2 : list await) fl b w :
    Inv w -> glob base g w -> leads l1 a l2 w -> flowing g (a_scoped a) a fl w ->
    let w' := begin_flows g (length l1) (a_scoped a) b w in
    Inv w' /\ only base g (a_scoped a) w w' /\
    exists a' fl', leads l1 a' l2 w' /\ a_scoped a' = a_scoped a /\ flowing g (a_scoped a) a' fl' w'.
  Proof.
    intros H G L W. cbv zeta. split; [now apply (inv_begin_flows g l1 a l2)|].
    unfold begin_flows. clear H. revert w a fl G L W.
    generalize (g_begins g). intros bs. induction bs as [|x bs IH]; intros w a fl G L W; cbn.
    - split; [split; [exact G|intros; apply frame_refl]|]. eauto.
    - destruct (if b then fst x else snd x); [|eauto].
      destruct (begin_flow_ok base g l1 a l2 fl w G L W) as (O1 & L1 & W1).
      set (w1 := begin_flow (length l1) (a_scoped a) w) in *.
      set (a1 := set_a_flows _ a) in *.
      destruct (IH w1 a1 _ (proj1 O1) L1 W1) as (O2 & a' & fl' & L2 & E2 & W2).
      split; [eapply only_trans; eauto|]. exists a', fl'. auto.
  Qed.

  Lemma settle_ok base g (l1 : list await) a (l2 : list await) fl w :
    Inv w -> glob base g w -> leads l1 a l2 w -> flowing g (a_scoped a) a fl w ->
    let w' := if flows_done (a_flows a) then fst (finalize_scoped_session g (length l1) w) else w in
    only base g (a_scoped a) w w' /\ ph g [] w' (a_scoped a).
  Proof.
    intros H G L W. rewrite (w_fl _ _ _ _ _ W). destruct fl as [|f fl]; cbn [flows_done].
    - now apply (finalize_ok base g w l1 a l2).
    - split; [split; [exact G|intros; apply frame_refl]|]. eapply flowing_ph; eauto. discriminate.
  Qed.

  Lemma ok_trigger base g w : Inv w -> Ok base g w -> Ok base g (trigger g w).
  Proof.
    intros H [G A]. unfold trigger. destruct (rev_case (s_finished w)) as [->|(rest & cl & Ef)]; [split; assumption|].
    rewrite Ef, pop_last_app.
    assert (Ecl : cl_id cl = cl_session cl) by (apply (j_fin _ _ _ G); rewrite Ef; apply in_or_app; right; now left).
    set (s := cl_session cl) in *. rewrite Ecl.
    assert (Hfin : fin s w = filter (of_fin s) rest ++ [cl]).
    { unfold fin. rewrite Ef, filter_snoc. unfold of_fin at 2. fold s. now rewrite Nat.eqb_refl. }
    destruct (A s) as [? ? ? Hf|? ? ? ? ? Hf|? ? ? ? ? ? ? ? ? Hf|q a c Eps Hov Er Efl Ec Hf Hrep Hnf|? ? ? ? ? ? ? Hf|? ? ? Hf];
      try (rewrite Hfin in Hf; destruct (filter (of_fin s) rest); discriminate).
    assert (Hrest : filter (of_fin s) rest = []).
    { rewrite Hfin in Hf. destruct (filter (of_fin s) rest) as [|x [|]]; [reflexivity|discriminate|discriminate]. }
    set (w1 := say _ _).
    assert (H1 : Inv w1).
    { apply inv_neutral; [|exact I]. destruct H. constructor; auto. }
    assert (O1 : only base g s w w1).
    { split.
      - apply glob_say; [|exact I]. destruct G as [J1 J2 J3 J4 J5 J6 J7 J8 J0 J9]. constructor; auto.
        cbn. intros x Hx. apply J5. rewrite Ef. apply in_or_app. now left.
      - intros s' Hs. constructor; auto.
        + apply c_get_remove_neq. exact Hs.
        + unfold fin. cbn. rewrite Ef, filter_snoc. unfold of_fin at 3. fold s. rewrite neq_neqb by congruence. now rewrite app_nil_r.
        + exists [ECleaned s]. split; [reflexivity|]. repeat constructor; discriminate. }
    unfold begin_cleanup_workflows. fold s.
    set (w2 := set_pairs w1 _).
    assert (H2 : Inv w2).
    { constructor; [|apply (i_inputs w1 H1)|apply (i_active w1 H1)].
      intros s'. unfold good_at. destruct (Nat.eq_dec s' s) as [->|Ne].
      - replace (vp s w2) with (@nil pair).
        + eapply good_no_pairs. apply (i_good w1 H1 s).
        + symmetry. apply filter_none. apply forallb_forall. intros x Hx. cbn in Hx. apply filter_In in Hx as [_ Hx].
          unfold of_pair. exact Hx.
      - unfold vp, w2. cbn. rewrite filter_filter_other; [apply (i_good w1 H1 s')|]. intros x Hx.
        unfold of_pair in Hx. apply Nat.eqb_eq in Hx. apply Bool.negb_true_iff, Nat.eqb_neq. congruence. }
    assert (O2 : only base g s w w2).
    { destruct O1 as [J K]. split.
      - apply glob_pairs; [exact J|]. intros x Hx. apply filter_In in Hx as [Hx _]. now apply (j_pairs _ _ _ J).
      - intros s' Hs. eapply frame_trans; [now apply K|]. apply frame_pairs.
        unfold vp. apply filter_filter_other. intros x Hx.
        unfold of_pair in Hx. apply Nat.eqb_eq in Hx. apply Bool.negb_true_iff, Nat.eqb_neq. congruence. }
    assert (Vp2 : vp s w2 = []).
    { apply filter_none. apply forallb_forall. intros x Hx. cbn in Hx. apply filter_In in Hx as [_ Hx]. exact Hx. }
    assert (Vr2 : vr s w2 = [a]) by exact Er.
    destruct (position (fun b => Nat.eqb (a_scoped b) s) (s_awaiting w2)) as [i|] eqn:Pos.
    2: { exfalso. assert (In a (s_awaiting w2) /\ of_await s a = true) as [Hi Hs].
         { apply filter_In. change (In a (vr s w2)). rewrite Vr2. now left. }
         clear - Pos Hi Hs. induction (s_awaiting w2) as [|x l IH]; [destruct Hi|]. cbn in Pos.
         destruct (Nat.eqb (a_scoped x) s) eqn:Ex; [discriminate|]. destruct Hi as [->|Hi].
         - unfold of_await in Hs. congruence.
         - destruct (position _ l); [discriminate|]. auto. }
    apply leads_position in Pos as (l1 & a0 & l2 & L & <- & Es).
    pose proof (leads_vr _ _ _ _ L) as Hv. rewrite Es, Vr2 in Hv. injection Hv as <- Hl2.
    pose proof L as [E F]. rewrite E, update_nth_cut.
    set (a1 := set_a_flows (Some []) a).
    destruct (inv_record l1 a a1 l2 w2 H2 L eq_refl eq_refl) as [H3 L3].
    { unfold a1. destruct a as [? ? ? [] ?]; cbn; eauto. }
    set (w3 := set_awaiting w2 (l1 ++ a1 :: l2)) in *.
    assert (O3 : only base g s w w3).
    { destruct O2 as [J K]. split.
      - apply glob_awaiting; [exact J|]. intros b Hb.
        assert (Hx : forall c, In c (l1 ++ a :: l2) -> is_early (a_status c) = false).
        { rewrite <- E. apply J. }
        apply in_app_or in Hb as [Hb|[<-|Hb]].
        + apply Hx. apply in_or_app. now left.
        + apply (Hx a). apply in_or_app. right. now left.
        + apply Hx. apply in_or_app. right. now right.
      - intros s' Hs. eapply frame_trans; [now apply K|]. apply (frame_awaiting l1 a l2 a1 w2 s' L); [reflexivity|congruence]. }
    assert (Es1 : a_scoped a1 = s) by exact Es.
    assert (W3 : flowing g (a_scoped a1) a1 [] w3).
    { rewrite Es1. constructor; auto.
      - pose proof (leads_vr _ _ _ _ L3) as X. rewrite Es1, <- Hl2 in X. exact X.
      - apply c_get_remove.
      - intros n Hn. destruct (Hrep n Hn) as [id Hid]. exists id. cbn. apply in_or_app. now left.
      - intros f [].
      - intros f Hg. cbn in Hg. apply in_app_or in Hg as [Hg|[[=]|[]]]. now destruct (Hnf f). }
    match goal with |- context [begin_flows g (length l1) s ?b w3] =>
      destruct (begin_flows_ok base g l1 a1 l2 [] b w3 H3 (proj1 O3) L3 W3) as (H4 & O4 & a4 & fl4 & L4 & E4 & W4);
      rewrite Es1 in H4, O4, L4, W4;
      set (w4 := begin_flows g (length l1) s b w3) in * end.
    rewrite Es1 in E4. rewrite <- E4 in W4, O4. 
    unfold check_awaiting_session.
    pose proof (position_leads w4 l1 a4 l2 L4) as Pos4. rewrite E4 in Pos4. rewrite Pos4.
    replace (nth_error (s_awaiting w4) (length l1)) with (Some a4).
    2: { destruct L4 as [-> _]. now rewrite nth_error_mid. }
    destruct (settle_ok base g l1 a4 l2 fl4 w4 H4 (proj1 O4) L4 W4) as [O5 P5]. rewrite E4 in O4, O5, P5.
    assert (X : forall w5, only base g s w4 w5 -> ph g [] w5 s -> Ok base g w5).
    { intros w5 O6 P6. split; [apply O6|]. apply (all_of_only base g s w w5 A); [|exact P6].
      eapply only_trans; [exact O3|]. eapply only_trans; [exact O4|exact O6]. }
    destruct (flows_done (a_flows a4)); now apply X.
  Qed.

  Lemma take_asked_in x (l l' : list (entity * entity * entity)) : take_asked x l = Some l' ->
    forall y, In y l -> y = x \/ In y l'.
  Proof.
    revert l'. induction l as [|y l IH]; [discriminate|]. intros l' E z Hz. cbn in E.
    destruct (_ && _ && _)%bool eqn:Eq in E.
    - injection E as <-. apply Bool.andb_true_iff in Eq as [Eq E3]. apply Bool.andb_true_iff in Eq as [E1 E2].
      apply Nat.eqb_eq in E1, E2, E3. destruct Hz as [<-|Hz]; [left|now right].
      destruct x as [[? ?] ?], y as [[? ?] ?]. cbn in *. congruence.
    - destruct (take_asked x l) as [r|]; [|discriminate]. injection E as <-.
      destruct Hz as [<-|Hz]; [right; now left|]. destruct (IH r eq_refl z Hz); [now left|right; now right].
  Qed.

  Lemma take_asked_from x (l l' : list (entity * entity * entity)) : take_asked x l = Some l' ->
    In x l /\ forall y, In y l' -> In y l.
  Proof.
    revert l'. induction l as [|y l IH]; [discriminate|]. intros l' E. cbn in E.
    destruct (_ && _ && _)%bool eqn:Eq in E.
    - injection E as <-. apply Bool.andb_true_iff in Eq as [Eq E3]. apply Bool.andb_true_iff in Eq as [E1 E2].
      apply Nat.eqb_eq in E1, E2, E3. split; [left|intros; now right].
      destruct x as [[? ?] ?], y as [[? ?] ?]. cbn in *. congruence.
    - destruct (take_asked x l) as [r|]; [|discriminate]. injection E as <-.
      destruct (IH r eq_refl) as [A B]. split; [now right|].
      intros z [<-|Hz]; [now left|right; auto].
  Qed.

  Lemma ok_node base g n s id w : Ok base g w -> Ok base g (step g w (ANode n s id)).
  Proof.
    intros [G A]. cbn. destruct (take_asked (n, s, id) (s_asked w)) as [l|] eqn:E; [|split; assumption].
    destruct (take_asked_from _ _ _ E) as [Hin Hsub]. pose proof (take_asked_in _ _ _ E) as Hkeep.
    assert (id = s) as -> by apply (j_asked _ _ _ G (n, s, id) Hin).
    set (w1 := set_asked w l). set (cl := {| cl_cleaner := g_self g; cl_node := n; cl_session := s; cl_id := s |}).
    assert (O1 : only base g s w w1).
    { split.
      - destruct G. constructor; auto.
      - intros s' Hs. constructor; auto.
        + intros k Hk. destruct (Hkeep _ Hk) as [[= -> ->]|Hk']; [congruence|exact Hk'].
        + exists []. now rewrite app_nil_r. }
    assert (P1 : ph g [n] w1 s).
    { pose proof (A s) as P. unfold ph in *. cbn. destruct P.
      - now apply ph_none.
      - eapply ph_ongoing; eauto.
      - eapply ph_wait; eauto. intros k Hk. destruct (H6 k Hk) as [[]|Ha].
        destruct (Hkeep _ Ha) as [[= ->]|Ha']; [left; now left|now right].
      - eapply ph_ready; eauto.
      - eapply ph_flows; eauto.
      - now apply ph_over. }
    pose proof (node_cleaned_only base g w1 cl (proj1 O1) eq_refl) as O2.
    pose proof (node_cleaned_ph g [] w1 cl eq_refl P1) as P2.
    split; [apply O2|]. apply (all_of_only base g s w); [exact A|eapply only_trans; eauto|exact P2].
  Qed.

  Lemma ok_flow_end base g f inner w :
    Inv w -> Ok base g w -> Ok base g (step g w (AFlowEnd f inner)).
  Proof.
    intros H [G A]. cbn. destruct (existsb (Nat.eqb f) (s_flows w)) eqn:Ef; [|split; assumption].
    set (w1 := say _ _).
    assert (H1 : Inv w1).
    { apply inv_neutral; [|exact I]. destruct H. constructor; auto. }
    assert (G1 : glob base g w1).
    { apply glob_say; [|exact I]. destruct G. constructor; auto. }
    assert (Hfl : forall x, In x (s_flows w) -> x <> f -> In x (s_flows w1)).
    { intros x Hx Ne. apply filter_In. split; [exact Hx|]. apply Bool.negb_true_iff, Nat.eqb_neq. exact Ne. }
    assert (Hlog : s_log w1 = s_log w ++ [EFlowEnd f]) by reflexivity.
    assert (Hfor : forall s', foreign s' (EFlowEnd f : event V)) by (repeat split; discriminate).
    unfold deduct. destruct (position _ (s_awaiting w1)) as [i|] eqn:Pos.
    - apply position_cut in Pos as (l1 & a & l2 & E & <- & Fa & _).
      assert (Hfa : a_flows a <> None) by (destruct (a_flows a); discriminate).
      assert (L : leads l1 a l2 w1) by now apply leads_of_flows.
      set (s := a_scoped a).
      assert (Hva : In a (vr s w)).
      { apply filter_In. split; [|apply of_await_refl]. change (s_awaiting w) with (s_awaiting w1). rewrite E. apply in_or_app. right. now left. }
      pose proof (A s) as P.
      destruct P as [? Er| ? ? ? Er|? ? ? ? ? Er Eflo|? ? ? ? ? Er Eflo|a0 fl Ep Er Eflo Hne Ec Efi Hrep Hin Hall|? Er];
        try (rewrite Er in Hva; destruct Hva; fail);
        try (rewrite Er in Hva; destruct Hva as [<-|[]]; congruence).
      assert (a0 = a) as -> by (rewrite Er in Hva; destruct Hva as [<-|[]]; reflexivity).
      rewrite Eflo in Fa. apply existsb_exists in Fa as (f' & Hf' & X). apply Nat.eqb_eq in X. subst f'.
      assert (O1 : only base g s w w1).
      { split; [exact G1|]. intros s' Hs. constructor; auto.
        - intros x Hx Hi. apply Hfl; [exact Hi|]. intros ->. apply Hs. eapply (j_fun _ _ _ G); eauto. apply Hin. exact Hf'.
        - exists [EFlowEnd f]. auto. }
      rewrite E, update_nth_cut.
      set (a1 := match a_status a with FTerminated => a | _ => _ end).
      assert (E1 : a_scoped a1 = s /\ a_parent a1 = a_parent a /\ a_flows a1 = a_flows a /\
        is_early (a_status a1) = is_early (a_status a) /\
        match a_status a with
        | FCancelled c _ => exists i, a_status a1 = FCancelled c i
        | _ => a_status a1 = a_status a
        end).
      { unfold a1, s. destruct a as [? ? ? [] ?]; cbn; auto 10. destruct inner; cbn; eauto 10. }
      clearbody a1. destruct E1 as (Es1 & Ep1 & Efl1 & Eea1 & Est1).
      destruct (inv_record l1 a a1 l2 w1 H1 L Es1 Ep1 Est1) as [H2 L2].
      set (w2 := set_awaiting w1 (l1 ++ a1 :: l2)) in *.
      change (s_awaiting w2) with (l1 ++ a1 :: l2). rewrite update_nth_cut.
      set (a2 := set_a_flows _ a1).
      destruct (inv_record l1 a1 a2 l2 w2 H2 L2 eq_refl eq_refl) as [H3 L3].
      { unfold a2. destruct a1 as [? ? ? [] ?]; cbn; eauto. }
      set (w3 := set_awaiting w2 (l1 ++ a2 :: l2)) in *.
      assert (Es2 : a_scoped a2 = s) by exact Es1.
      assert (Ew3 : w3 = set_awaiting w1 (l1 ++ a2 :: l2)) by reflexivity.
      assert (O3 : only base g s w w3).
      { split.
        - rewrite Ew3. apply glob_awaiting; [exact G1|]. intros b Hb.
          assert (Hx : forall c, In c (l1 ++ a :: l2) -> is_early (a_status c) = false).
          { rewrite <- E. apply G1. }
          apply in_app_or in Hb as [Hb|[<-|Hb]].
          + apply Hx. apply in_or_app. now left.
          + cbn. rewrite Eea1. apply (Hx a). apply in_or_app. right. now left.
          + apply Hx. apply in_or_app. right. now right.
        - intros s' Hs. eapply frame_trans; [now apply O1|]. rewrite Ew3.
          apply (frame_awaiting l1 a l2 a2 w1 s' L); assumption. }
      set (fl2 := filter (fun e => negb (Nat.eqb e f)) fl).
      assert (W3 : flowing g (a_scoped a2) a2 fl2 w3).
      { rewrite Es2. constructor; auto.
        - pose proof (leads_vr _ _ _ _ L) as X. pose proof (leads_vr _ _ _ _ L3) as Y.
          rewrite Es2 in Y. fold s in X. change (vr s w1) with (vr s w) in X. rewrite Er in X. injection X as X.
          rewrite <- X in Y. exact Y.
        - unfold a2. cbn. rewrite Efl1, Eflo. reflexivity.
        - intros n Hn. destruct (Hrep n Hn) as [x Hx]. exists x. cbn. apply in_or_app. now left.
        - intros x Hx. apply filter_In in Hx as [Hx Ne]. apply Bool.negb_true_iff, Nat.eqb_neq in Ne.
          destruct (Hin x Hx) as [B C]. split; [now apply Hfl|]. cbn. apply in_or_app. now left.
        - intros x Hx. cbn in Hx. apply in_app_or in Hx as [Hx|[[=]|[]]].
          destruct (Nat.eq_dec x f) as [->|Ne]; [right; cbn; apply in_or_app; right; now left|].
          destruct (Hall x Hx) as [B|B].
          + left. apply filter_In. split; [exact B|]. now apply Bool.negb_true_iff, Nat.eqb_neq.
          + right. cbn. apply in_or_app. now left. }
      change (s_awaiting w3) with (l1 ++ a2 :: l2). rewrite nth_error_mid.
      destruct (settle_ok base g l1 a2 l2 fl2 w3 H3 (proj1 O3) L3 W3) as [O5 P5]. rewrite Es2 in O5, P5.
      assert (X : forall w5, only base g s w3 w5 -> ph g [] w5 s -> Ok base g w5).
      { intros w5 O6 P6. split; [apply O6|]. apply (all_of_only base g s w w5 A); [|exact P6].
        eapply only_trans; [exact O3|exact O6]. }
      destruct (flows_done (a_flows a2)); now apply X.
    - split; [exact G1|]. intros s. cbn [fst].
      assert (Hno : forall a fl, In a (vr s w) -> a_flows a = Some fl -> ~ In f fl).
      { intros a fl Ha Hfa Hi. apply filter_In in Ha as [Ha _]. change (s_awaiting w) with (s_awaiting w1) in Ha.
        clear - Pos Ha Hfa Hi. induction (s_awaiting w1) as [|x r IH]; [destruct Ha|]. cbn in Pos.
        destruct (match a_flows x with Some l => existsb (Nat.eqb f) l | None => false end) eqn:Ex; [discriminate|].
        destruct Ha as [->|Ha].
        - rewrite Hfa in Ex. assert (existsb (Nat.eqb f) fl = true) by (apply existsb_exists; exists f; split; [exact Hi|apply Nat.eqb_refl]). congruence.
        - destruct (position _ r); [discriminate|auto]. }
      assert (NF : no_flow s (s_log w) -> no_flow s (s_log w1)) by (intros X; apply no_flow_snoc; [exact X|discriminate]).
      assert (RA : reported_all (g_nodes g) s (s_log w) -> reported_all (g_nodes g) s (s_log w1)).
      { intros X n Hn. destruct (X n Hn) as [id Hid]. exists id. apply in_or_app. now left. }
      assert (OC : outcomes s (s_log w1) = outcomes s (s_log w)) by (apply (foreign_outcomes s _ [EFlowEnd f]); auto).
      assert (HS : has_start s (s_log w1) = has_start s (s_log w)) by (apply (foreign_start s _ [EFlowEnd f]); auto).
      pose proof (A s) as P. unfold ph. change (vp s w1) with (vp s w). change (vr s w1) with (vr s w). destruct P.
      + apply ph_none; auto; congruence.
      + eapply ph_ongoing; eauto.
      + eapply ph_wait; eauto. intros n Hn. destruct (H9 n Hn) as [?|[id Hid]]; [now left|right; exists id; apply in_or_app; now left].
      + eapply ph_ready; eauto.
      + eapply ph_flows; eauto.
        * intros x Hx. destruct (H8 x Hx) as [B C]. split; [|apply in_or_app; now left].
          apply Hfl; [exact B|]. intros ->. apply (Hno a fl); auto. rewrite H2. now left.
        * intros x Hx. apply in_app_or in Hx as [Hx|[[=]|[]]].
          destruct (H9 x Hx); [now left|right; apply in_or_app; now left].
      + apply ph_over; auto. congruence.
  Qed.

  Lemma ok_step base g w a : Inv w -> Ok base g w -> inside base a -> Ok base g (step g w a).
  Proof.
    intros H O Ha. destruct a; try exact (ok_node _ _ _ _ _ _ O); try exact (ok_flow_end _ _ _ _ _ H O); cbn [step].
    - now apply ok_begin.
    - unfold arrive. destruct (s_active w s); [|exact O]. apply (ok_same base g w _ O).
      + destruct O as [[] _]. constructor; auto.
      + intros s'. constructor; auto. exists []. now rewrite app_nil_r.
    - now apply ok_terminal.
    - apply (ok_same base g w _ O).
      + destruct O as [[] _]. constructor; auto. cbn. intros e c' Hi. apply in_app_or in Hi as [Hi|[Hi|[]]]; [eauto|].
        injection Hi as -> _. exact Ha.
      + intros s'. constructor; auto. exists []. now rewrite app_nil_r.
    - unfold trigger_cancel. destruct (s_cancels w) as [|[t c] rest] eqn:E; [exact O|].
      apply ok_receive_cancel.
      + destruct H. constructor; auto.
      + apply (ok_same base g w _ O).
        * destruct O as [[] _]. constructor; auto. cbn. intros e c' Hi. apply (j_cancels0 e c'). rewrite E. now right.
        * intros s'. constructor; auto. exists []. now rewrite app_nil_r.
      + intros q Hq. cbn in Hq. apply (j_begin _ _ _ (proj1 O) (p_parent q)).
        apply (g_ppairs _ _ _ _ _ _ _ (i_good w H (p_scoped q))). apply filter_In. split; [exact Hq|apply Nat.eqb_refl].
      + intros e ->. apply (j_cancels _ _ _ (proj1 O) e c). rewrite E. now left.
    - now apply ok_validate.
    - destruct Ha.
    - now apply ok_trigger.
  Qed.

  Lemma ok_fresh base g : Ok base g (fresh_scope (V := V) base).
  Proof.
    split.
    - constructor; cbn; auto; try contradiction; try (intros; contradiction).
      intros l1 e l2 s E. destruct l1; discriminate.
    - intros s. apply ph_none; auto. intros f [].
  Qed.

  Lemma inside_allowed base g (a : action V) : inside base a -> allowed g a.
  Proof. destruct a; cbn; auto. contradiction. Qed.

  Lemma ok_run base g (acts : list (action V)) : Forall (inside base) acts ->
    Inv (run g base acts) /\ Ok base g (run g base acts).
  Proof.
    intros F. unfold run. assert (I0 := inv_fresh (V := V) base). assert (O0 := ok_fresh base g). revert I0 O0.
    generalize (fresh_scope (V := V) base). induction F as [|a acts Ha F IH]; intros w I0 O0; [split; assumption|].
    cbn. apply IH; [apply inv_step; [exact I0|eapply inside_allowed; eauto]|now apply ok_step].
  Qed.

  Lemma release_clean base g (acts : list (action V)) :
    Forall (inside base) acts -> released_clean (g_nodes g) (s_log (run g base acts)).
  Proof. intros F. apply (ok_run base g acts F). Qed.

  (** Every session which was decided has been released once the scope is quiet. *)
  Lemma released_all base g (acts : list (action V)) p s :
    Forall (inside base) acts -> let w := run g base acts in
    quiet w -> In (EBegin p s) (s_log w) -> verdict p s (s_log w) <> None -> outcomes s (s_log w) = 1.
  Proof.
    intros F w (Q1 & Q2 & Q3 & Q4) Hb Hv. destruct (ok_run base g acts F) as [H [G A]]. fold w in H, G, A.
    destruct (A s) as [? ? ? ? Hs|q Eq Eo|q a ns ? ? ? ? Ec Hne Hf Has|q a c ? ? ? ? ? Hf|a fl ? ? ? Hne ? ? ? Hin|]; [| | | | |assumption]; exfalso.
    - assert (has_start s (s_log w) = true) by (apply has_start_in; eauto). congruence.
    - pose proof (i_good w H s) as Gs. unfold good_at in Gs. rewrite Eq in Gs.
      destruct (g_ongoing _ _ _ _ _ _ _ Gs q (or_introl eq_refl) Eo) as (_ & _ & _ & Hn).
      assert (p = p_parent q) as ->; [|congruence].
      apply (g_single _ _ _ _ _ _ _ Gs); [exact Hb|]. apply (g_ppairs _ _ _ _ _ _ _ Gs). now left.
    - destruct ns as [|n ns]; [congruence|]. destruct (Has n (or_introl eq_refl)) as [[]|Hin]. rewrite Q1 in Hin. destruct Hin.
    - unfold fin in Hf. rewrite Q3 in Hf. discriminate.
    - destruct fl as [|f fl]; [congruence|]. destruct (Hin f (or_introl eq_refl)) as [X _]. rewrite Q2 in X. destruct X.
  Qed.
End Inside.
