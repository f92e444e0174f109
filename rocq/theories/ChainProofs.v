(** A chain is built as its description says. *)
From Verif Require Import Base RosterModel BufferModel InputModel OpsModel ExecModel ExecSpec ChainModel ChainSpec.

(** ** Induction on chains *)
Section ChainInd.
Variable P : chain -> Prop.
Hypothesis Hconnect : forall s, P (CConnect s).
Hypothesis Hunused : P CUnused.
Hypothesis Hcancel : P CThenCancel.
Hypothesis Hstep : forall s c, P c -> P (CStep s c).
Hypothesis Hresult : forall a d, P a -> P d -> P (CForkResult a d).
Hypothesis Hoption : forall a d, P a -> P d -> P (CForkOption a d).
Hypothesis Hforerr : forall d c, P d -> P c -> P (CBranchForErr d c).
Hypothesis Hfornone : forall d c, P d -> P c -> P (CBranchForNone d c).
Hypothesis Hbranch : forall d c, P d -> P c -> P (CBranchClone d c).
Hypothesis Hclone : forall cs, Forall P cs -> P (CForkClone cs).
Hypothesis Hunzip : forall cs, Forall P cs -> P (CForkUnzip cs).

Fixpoint chain_ind' (c : chain) : P c :=
  match c with
  | CConnect s => Hconnect s
  | CUnused => Hunused
  | CThenCancel => Hcancel
  | CStep s c => Hstep s c (chain_ind' c)
  | CForkResult a d => Hresult a d (chain_ind' a) (chain_ind' d)
  | CForkOption a d => Hoption a d (chain_ind' a) (chain_ind' d)
  | CBranchForErr d c => Hforerr d c (chain_ind' d) (chain_ind' c)
  | CBranchForNone d c => Hfornone d c (chain_ind' d) (chain_ind' c)
  | CBranchClone d c => Hbranch d c (chain_ind' d) (chain_ind' c)
  | CForkClone cs => Hclone cs ((fix go l : Forall P l :=
      match l with [] => Forall_nil _ | x :: l' => Forall_cons _ (chain_ind' x) (go l') end) cs)
  | CForkUnzip cs => Hunzip cs ((fix go l : Forall P l :=
      match l with [] => Forall_nil _ | x :: l' => Forall_cons _ (chain_ind' x) (go l') end) cs)
  end.
End ChainInd.

Fixpoint attach_all (cs : list chain) (ts : list entity) (b : bworld) : bworld :=
  match cs, ts with
  | c :: cs', t :: ts' => attach_all cs' ts' (attach c t b)
  | _, _ => b
  end.

Lemma attach_clone cs t b : attach (CForkClone cs) t b =
  let (b1, ts) := b_outputs (length cs) b in attach_all cs ts (b_add t (OForkClone ts) b1).
Proof. reflexivity. Qed.
Lemma attach_unzip cs t b : attach (CForkUnzip cs) t b =
  let (b1, ts) := b_outputs (length cs) b in attach_all cs ts (b_add t (OUnzip ts) b1).
Proof. reflexivity. Qed.

(** ** Redirecting *)
Lemma to_new_same o n : to_new o n o = n.
Proof. unfold to_new. now rewrite Nat.eqb_refl. Qed.
Lemma to_new_other o n t : t <> o -> to_new o n t = t.
Proof. unfold to_new. intros H. apply Nat.eqb_neq in H. now rewrite H. Qed.
Lemma map_to_new o n l : ~ In o l -> map (to_new o n) l = l.
Proof.
  induction l as [|x l IH]; cbn; [reflexivity|]. intros H. rewrite to_new_other, IH; tauto.
Qed.
Lemma redirect_same o k : redirect o o k = k.
Proof.
  assert (H : forall t, to_new o o t = t).
  { intros t. unfold to_new. destruct (Nat.eqb_spec t o); congruence. }
  destruct k; cbn; rewrite ?H; try reflexivity; f_equal; apply map_id_ext || (rewrite <- (map_id ts) at 2; apply map_ext, H).
Qed.
Lemma targets_redirect o n k : targets_of (redirect o n k) = map (to_new o n) (targets_of k).
Proof. destruct k; reflexivity. Qed.
Lemma redirect_other o n k : ~ In o (targets_of k) -> redirect o n k = k.
Proof.
  destruct k; cbn; intros H; rewrite ?to_new_other by tauto; rewrite ?map_to_new by tauto; reflexivity.
Qed.

(** ** The chain is at a node *)
Section At.
Variable nn : nat.
Implicit Types (c d a : chain) (e t u : entity) (b : bworld).

Section Region.
Variable R : entity -> Prop.
Variable K : emap okind.

Fixpoint at_ (c : chain) (e : entity) : Prop :=
  match c with
  | CConnect s => proper_slot nn s /\ e = slot_at s
  | CUnused => R e /\ K e = Some OUnused
  | CThenCancel => R e /\ K e = Some OCancel
  | CStep s c' => R e /\ exists t, K e = Some (step_kind s t) /\ at_ c' t
  | CForkResult a d => R e /\ exists ta td, K e = Some (OBranch branch_result ta td) /\ at_ a ta /\ at_ d td
  | CForkOption a d => R e /\ exists ta td, K e = Some (OBranch branch_option ta td) /\ at_ a ta /\ at_ d td
  | CBranchForErr d a => R e /\ exists ta td, K e = Some (OBranch branch_result ta td) /\ at_ a ta /\ at_ d td
  | CBranchForNone d a => R e /\ exists ta td, K e = Some (OBranch branch_option ta td) /\ at_ a ta /\ at_ d td
  | CBranchClone d a => R e /\ exists ta td, K e = Some (OForkClone [ta; td]) /\ at_ a ta /\ at_ d td
  | CForkClone cs => R e /\ exists ts, K e = Some (OForkClone ts) /\
      (fix go cs ts := match cs, ts with
         | [], [] => True
         | c :: cs', t :: ts' => at_ c t /\ go cs' ts'
         | _, _ => False
         end) cs ts
  | CForkUnzip cs => R e /\ exists ts, K e = Some (OUnzip ts) /\
      (fix go cs ts := match cs, ts with
         | [], [] => True
         | c :: cs', t :: ts' => at_ c t /\ go cs' ts'
         | _, _ => False
         end) cs ts
  end.
Fixpoint at_all (cs : list chain) (ts : list entity) : Prop :=
  match cs, ts with
  | [], [] => True
  | c :: cs', t :: ts' => at_ c t /\ at_all cs' ts'
  | _, _ => False
  end.
Lemma at_all_eq cs ts :
  (fix go cs ts := match cs, ts with
         | [], [] => True
         | c :: cs', t :: ts' => at_ c t /\ go cs' ts'
         | _, _ => False
         end) cs ts = at_all cs ts.
Proof. reflexivity. Qed.
End Region.

Lemma at_where R K c e : at_ R K c e -> R e \/ exists s, proper_slot nn s /\ e = slot_at s.
Proof. destruct c; cbn; intros H; try (left; exact (proj1 H)). right. eauto. Qed.

(** Nothing else than [R] matters, and connecting an output outside of [R] neither. *)
Lemma at_moves (R R' : entity -> Prop) K K' o n : (forall e, R e -> R' e) ->
  ~ R o -> (forall s, proper_slot nn s -> o <> slot_at s) ->
  (forall e, R e -> K' e = option_map (redirect o n) (K e)) ->
  forall c e, at_ R K c e -> at_ R' K' c e.
Proof.
  intros HR Ho Hs HK.
  assert (T : forall c t, at_ R K c t -> to_new o n t = t).
  { intros c t H. apply to_new_other. intros ->. destruct (at_where _ _ _ _ H) as [H'|[s [H1 H2]]]; [auto|].
    exact (Hs s H1 H2). }
  assert (L : forall cs, Forall (fun c => forall e, at_ R K c e -> at_ R' K' c e) cs ->
     forall ts, at_all R K cs ts -> at_all R' K' cs (map (to_new o n) ts)).
  { intros cs F. induction F as [|c cs Hc F IH]; intros [|t ts]; cbn; try tauto.
    intros [H1 H2]. rewrite (T c t H1). auto. }
  induction c as [s| | |s c IH|a d IHa IHd|a d IHa IHd|d a IHd IHa|d a IHd IHa|d a IHd IHa|cs IH|cs IH] using chain_ind';
    intros e H; cbn in *.
  - exact H.
  - destruct H as [H1 H2]. split; [auto|]. rewrite (HK e H1), H2. reflexivity.
  - destruct H as [H1 H2]. split; [auto|]. rewrite (HK e H1), H2. reflexivity.
  - destruct H as (H1 & t & H2 & H3). split; [auto|]. exists t. split; [|auto].
    rewrite (HK e H1), H2. cbn. destruct s; cbn; rewrite (T c t H3); reflexivity.
  - destruct H as (H1 & ta & td & H2 & H3 & H4). split; [auto|]. exists ta, td. split; [|auto].
    rewrite (HK e H1), H2. cbn. now rewrite (T a ta H3), (T d td H4).
  - destruct H as (H1 & ta & td & H2 & H3 & H4). split; [auto|]. exists ta, td. split; [|auto].
    rewrite (HK e H1), H2. cbn. now rewrite (T a ta H3), (T d td H4).
  - destruct H as (H1 & ta & td & H2 & H3 & H4). split; [auto|]. exists ta, td. split; [|auto].
    rewrite (HK e H1), H2. cbn. now rewrite (T a ta H3), (T d td H4).
  - destruct H as (H1 & ta & td & H2 & H3 & H4). split; [auto|]. exists ta, td. split; [|auto].
    rewrite (HK e H1), H2. cbn. now rewrite (T a ta H3), (T d td H4).
  - destruct H as (H1 & ta & td & H2 & H3 & H4). split; [auto|]. exists ta, td. split; [|auto].
    rewrite (HK e H1), H2. cbn. now rewrite (T a ta H3), (T d td H4).
  - destruct H as (H1 & ts & H2 & H3). split; [auto|]. exists (map (to_new o n) ts). split.
    + rewrite (HK e H1), H2. reflexivity.
    + exact (L cs IH ts H3).
  - destruct H as (H1 & ts & H2 & H3). split; [auto|]. exists (map (to_new o n) ts). split.
    + rewrite (HK e H1), H2. reflexivity.
    + exact (L cs IH ts H3).
Qed.

Lemma at_all_moves (R R' : entity -> Prop) K K' o n : (forall e, R e -> R' e) ->
  ~ R o -> (forall s, proper_slot nn s -> o <> slot_at s) ->
  (forall e, R e -> K' e = option_map (redirect o n) (K e)) ->
  forall cs ts, at_all R K cs ts -> at_all R' K' cs ts.
Proof.
  intros H1 H2 H3 H4 cs. induction cs as [|c cs IH]; intros [|t ts]; cbn; try tauto.
  intros [Ha Hb]. split; [|auto]. revert Ha. apply (at_moves R R' K K' o n H1 H2 H3 H4).
Qed.

(** ** Workflows being built *)
Record good (b : bworld) : Prop := {
  g_fresh : forall e, b_next b <= e -> b_kind b e = None;
  g_targets : forall e k t, b_kind b e = Some k -> In t (targets_of k) -> b_kind b t <> None;
  g_terminal : forall e, b_kind b e = Some OTerminate <-> e = the_terminal;
  g_scope : b_kind b the_scope = None;
  g_slots : forall i, i < nn -> b_kind b (node_input i) <> None;
  g_entry : b_kind b (b_entry b) <> None;
  g_clone : forall e, b_kind b e <> Some (OForkClone []);
  g_collect : forall e min max t, b_kind b e <> Some (OCollect min max t);
}.

(** An output which can be built on. *)
Record open (b : bworld) (t : entity) : Prop := {
  o_unused : b_kind b t = Some OUnused;
  o_slot : forall s, proper_slot nn s -> t <> slot_at s;
}.

Lemma open_lt b t : good b -> open b t -> t < b_next b.
Proof.
  intros G O. destruct (le_lt_dec (b_next b) t) as [H|H]; [|exact H].
  pose proof (g_fresh b G t H) as E. pose proof (o_unused b t O). congruence.
Qed.

Lemma slot_present b s : good b -> proper_slot nn s -> b_kind b (slot_at s) <> None.
Proof.
  intros G. destruct s as [|i]; cbn; intros H; [|exact (g_slots b G i H)].
  rewrite (proj2 (g_terminal b G the_terminal) eq_refl). discriminate.
Qed.

(** A fresh output. *)
Lemma spawn_kind b e : b_kind (b_spawn OUnused b) e = if Nat.eqb e (b_next b) then Some OUnused else b_kind b e.
Proof. reflexivity. Qed.
Lemma spawn_good b : good b -> good (b_spawn OUnused b).
Proof.
  intros G. constructor; cbn [b_next b_entry b_spawn]; intros; rewrite ?spawn_kind in *.
  - destruct (Nat.eqb_spec e (b_next b)); [lia|]. apply (g_fresh b G). lia.
  - destruct (Nat.eqb_spec t (b_next b)); [discriminate|]. destruct (Nat.eqb_spec e (b_next b)); [|exact (g_targets b G _ _ _ H H0)].
    injection H as <-. destruct H0.
  - destruct (Nat.eqb_spec e (b_next b)) as [->|]; [|exact (g_terminal b G e)]. split; [discriminate|].
    intros E. pose proof (slot_present b SEnd G Logic.I) as H. cbn in H. rewrite <- E, (g_fresh b G) in H by lia. congruence.
  - destruct (Nat.eqb_spec the_scope (b_next b)) as [E|]; [|exact (g_scope b G)].
    pose proof (slot_present b SEnd G Logic.I) as H. cbn in H. rewrite (g_fresh b G) in H; [congruence|]. rewrite <- E. unfold the_scope. lia.
  - destruct (Nat.eqb_spec (node_input i) (b_next b)); [discriminate|]. exact (g_slots b G i H).
  - destruct (Nat.eqb_spec (b_entry b) (b_next b)); [discriminate|]. exact (g_entry b G).
  - destruct (Nat.eqb_spec e (b_next b)); [discriminate|]. exact (g_clone b G e).
  - destruct (Nat.eqb_spec e (b_next b)); [discriminate|]. exact (g_collect b G e min max t).
Qed.
Lemma spawn_open b : good b -> open (b_spawn OUnused b) (b_next b).
Proof.
  intros G. constructor.
  - rewrite spawn_kind, Nat.eqb_refl. reflexivity.
  - intros s Hs E. apply (slot_present b s G Hs). rewrite <- E. apply (g_fresh b G). lia.
Qed.
Lemma spawn_keeps_open b t : good b -> open b t -> open (b_spawn OUnused b) t.
Proof.
  intros G O. constructor; [|exact (o_slot b t O)]. rewrite spawn_kind.
  destruct (Nat.eqb_spec t (b_next b)); [reflexivity|]. exact (o_unused b t O).
Qed.

(** An operation at an open output. *)
Lemma add_kind t k b e : b_kind (b_add t k b) e = if Nat.eqb e t then Some k else b_kind b e.
Proof. reflexivity. Qed.
Definition plain (k : okind) : Prop :=
  k <> OTerminate /\ k <> OForkClone [] /\ forall min max t, k <> OCollect min max t.
Lemma add_good b t k : good b -> open b t -> plain k -> (forall u, In u (targets_of k) -> b_kind b u <> None) ->
  good (b_add t k b).
Proof.
  intros G O (P1 & P2 & P3) HT. pose proof (o_unused b t O) as U.
  constructor; cbn [b_next b_entry b_add]; intros; rewrite ?add_kind in *.
  - destruct (Nat.eqb_spec e t) as [->|]; [|apply (g_fresh b G); assumption]. rewrite (g_fresh b G t H) in U. discriminate.
  - destruct (Nat.eqb_spec t0 t); [discriminate|]. destruct (Nat.eqb_spec e t); [|exact (g_targets b G _ _ _ H H0)].
    injection H as <-. exact (HT _ H0).
  - destruct (Nat.eqb_spec e t) as [->|]; [|exact (g_terminal b G e)]. split; [congruence|].
    intros E. pose proof (proj2 (g_terminal b G t) E). congruence.
  - destruct (Nat.eqb_spec the_scope t) as [E|]; [|exact (g_scope b G)].
    pose proof (g_scope b G) as H. rewrite E in H. congruence.
  - destruct (Nat.eqb_spec (node_input i) t); [discriminate|]. exact (g_slots b G i H).
  - destruct (Nat.eqb_spec (b_entry b) t); [discriminate|]. exact (g_entry b G).
  - destruct (Nat.eqb_spec e t); [congruence|]. exact (g_clone b G e).
  - destruct (Nat.eqb_spec e t); [intros E; injection E; apply P3|]. exact (g_collect b G e min max t0).
Qed.
Lemma add_keeps_open b t k u : open b u -> u <> t -> open (b_add t k b) u.
Proof.
  intros O H. constructor; [|exact (o_slot b u O)]. rewrite add_kind. apply Nat.eqb_neq in H. rewrite H. exact (o_unused b u O).
Qed.

(** An open output is connected. *)
Lemma connect_good b t s : good b -> open b t -> proper_slot nn s -> good (b_connect t (slot_at s) b).
Proof.
  intros G O Hs. set (n := slot_at s). pose proof (slot_present b s G Hs) as Hn. fold n in Hn.
  pose proof (o_slot b t O) as Hne.
  assert (K : forall e k, b_kind (b_connect t n b) e = Some k -> e <> t /\ exists k0, b_kind b e = Some k0 /\ k = redirect t n k0).
  { intros e k. cbn. destruct (Nat.eqb_spec e t); [discriminate|]. destruct (b_kind b e) as [k0|] eqn:E; [|discriminate].
    cbn. intros H. injection H as <-. eauto. }
  assert (L : forall e, e <> t -> b_kind b e <> None -> b_kind (b_connect t n b) e <> None).
  { intros e H H'. cbn. apply Nat.eqb_neq in H. rewrite H. destruct (b_kind b e); [discriminate|congruence]. }
  assert (Nt : n <> t) by (intros E; exact (Hne s Hs (eq_sym E))).
  constructor; cbn [b_next b_entry b_connect].
  - intros e H. cbn. destruct (Nat.eqb e t); [reflexivity|]. now rewrite (g_fresh b G e H).
  - intros e k u E Hin. destruct (K e k E) as (H1 & k0 & H2 & ->). rewrite targets_redirect, in_map_iff in Hin.
    destruct Hin as (u0 & <- & Hin). pose proof (g_targets b G e k0 u0 H2 Hin) as Hu. unfold to_new.
    destruct (Nat.eqb_spec u0 t) as [->|Hu0]; apply L; assumption.
  - intros e. split.
    + intros E. destruct (K e _ E) as (H1 & k0 & H2 & H3). destruct k0; try discriminate H3. exact (proj1 (g_terminal b G e) H2).
    + intros ->. cbn [b_connect b_kind]. destruct (Nat.eqb_spec the_terminal t) as [E|]; [destruct (Hne SEnd Logic.I (eq_sym E))|].
      now rewrite (proj2 (g_terminal b G the_terminal) eq_refl).
  - cbn [b_connect b_kind]. destruct (Nat.eqb the_scope t); [reflexivity|]. now rewrite (g_scope b G).
  - intros i Hi. apply L; [|exact (g_slots b G i Hi)]. intros E. exact (Hne (SNode i) Hi (eq_sym E)).
  - unfold to_new. destruct (Nat.eqb_spec (b_entry b) t); apply L; auto. exact (g_entry b G).
  - intros e E. destruct (K e _ E) as (H1 & k0 & H2 & H3). destruct k0; try discriminate H3. cbn in H3. injection H3 as H3.
    symmetry in H3. apply map_eq_nil in H3. subst. exact (g_clone b G e H2).
  - intros e min max u E. destruct (K e _ E) as (H1 & k0 & H2 & H3). destruct k0; try discriminate H3. exact (g_collect b G _ _ _ _ H2).
Qed.

(** What a chain built onto [t] leaves: it is at [t'], which took the place of [t]. *)
Record attached (b : bworld) (t : entity) (c : chain) (b' : bworld) (t' : entity) : Prop := {
  d_good : good b';
  d_next : b_next b <= b_next b';
  d_at : at_ (fun e => e = t \/ b_next b <= e < b_next b') (b_kind b') c t';
  d_place : t' = t \/ exists s, proper_slot nn s /\ t' = slot_at s;
  d_kind : forall e, e < b_next b -> e <> t -> b_kind b' e = option_map (redirect t t') (b_kind b e);
  d_entry : b_entry b' = to_new t t' (b_entry b);
}.

Lemma attached_open b t c b' t' u : attached b t c b' t' -> good b -> open b u -> u <> t -> open b' u.
Proof.
  intros A G O H. constructor; [|exact (o_slot b u O)].
  rewrite (d_kind _ _ _ _ _ A u (open_lt b u G O) H), (o_unused b u O). reflexivity.
Qed.

(** Nobody has a fresh output as a target. *)
Lemma no_target b u e k : good b -> b_kind b u = None -> b_kind b e = Some k -> ~ In u (targets_of k).
Proof. intros G H E Hin. exact (g_targets b G e k u E Hin H). Qed.

(** Many chains one after the other. *)
Definition to_news (ts ts' : list entity) (t : entity) : entity :=
  fold_left (fun t p => to_new (fst p) (snd p) t) (combine ts ts') t.
Definition redirects (ts ts' : list entity) (k : okind) : okind :=
  fold_left (fun k p => redirect (fst p) (snd p) k) (combine ts ts') k.

Definition placed (ts ts' : list entity) : Prop :=
  Forall2 (fun t t' => t' = t \/ exists s, proper_slot nn s /\ t' = slot_at s) ts ts'.

Lemma to_news_other ts ts' t : ~ In t ts -> to_news ts ts' t = t.
Proof.
  unfold to_news. revert ts'. induction ts as [|x ts IH]; intros [|x' ts']; cbn; try reflexivity.
  intros H. rewrite to_new_other by (intros ->; tauto). apply IH. tauto.
Qed.

Lemma to_news_all ts ts' : NoDup ts -> placed ts ts' -> (forall t s, In t ts -> proper_slot nn s -> t <> slot_at s) ->
  map (to_news ts ts') ts = ts'.
Proof.
  intros N P. induction P as [|t t' ts ts' Ht P IH]; cbn; [reflexivity|]. intros Hs. inversion N as [|? ? N1 N2]; subst.
  f_equal.
  - unfold to_news. cbn. rewrite to_new_same. fold (to_news ts ts' t'). apply to_news_other.
    destruct Ht as [->|[s [H1 ->]]]; [exact N1|]. intros Hin. exact (Hs _ s (or_intror Hin) H1 eq_refl).
  - rewrite <- IH at 2; [|exact N2|intros u s H; apply Hs; right; exact H]. apply map_ext_in. intros u Hu. unfold to_news at 1. cbn.
    rewrite to_new_other by (intros ->; tauto). reflexivity.
Qed.

Lemma redirects_other ts ts' k : (forall t, In t ts -> ~ In t (targets_of k)) -> redirects ts ts' k = k.
Proof.
  unfold redirects. revert ts'. induction ts as [|x ts IH]; intros [|x' ts']; cbn; try reflexivity.
  intros H. rewrite redirect_other by (apply H; auto). apply IH. intros t Ht. apply H. auto.
Qed.

Lemma redirects_step ts ts' s u : redirects ts ts' (step_kind s u) = step_kind s (to_news ts ts' u).
Proof.
  unfold redirects, to_news. revert u. generalize (combine ts ts') as l. induction l as [|p l IH]; intros u; cbn; [reflexivity|].
  rewrite <- IH. destruct s; reflexivity.
Qed.
Lemma redirects_branch ts ts' act u w : redirects ts ts' (OBranch act u w) = OBranch act (to_news ts ts' u) (to_news ts ts' w).
Proof.
  unfold redirects, to_news. revert u w. generalize (combine ts ts') as l. induction l as [|p l IH]; intros u w; cbn; [reflexivity|]. now rewrite IH.
Qed.
Lemma redirects_clone ts ts' us : redirects ts ts' (OForkClone us) = OForkClone (map (to_news ts ts') us).
Proof.
  unfold redirects, to_news. revert us. generalize (combine ts ts') as l. induction l as [|p l IH]; intros us; cbn; [now rewrite map_id|].
  now rewrite IH, map_map.
Qed.
Lemma redirects_unzip ts ts' us : redirects ts ts' (OUnzip us) = OUnzip (map (to_news ts ts') us).
Proof.
  unfold redirects, to_news. revert us. generalize (combine ts ts') as l. induction l as [|p l IH]; intros us; cbn; [now rewrite map_id|].
  now rewrite IH, map_map.
Qed.

Record attached_all (b : bworld) (ts : list entity) (cs : list chain) (b' : bworld) (ts' : list entity) : Prop := {
  da_good : good b';
  da_next : b_next b <= b_next b';
  da_at : at_all (fun e => In e ts \/ b_next b <= e < b_next b') (b_kind b') cs ts';
  da_place : placed ts ts';
  da_kind : forall e, e < b_next b -> ~ In e ts -> b_kind b' e = option_map (redirects ts ts') (b_kind b e);
  da_entry : b_entry b' = to_news ts ts' (b_entry b);
}.

Definition buildable (c : chain) : Prop :=
  forall t b, proper nn c -> good b -> open b t -> exists t', attached b t c (attach c t b) t'.

Lemma attach_list cs : Forall buildable cs -> Forall (proper nn) cs ->
  forall ts b, length ts = length cs -> NoDup ts -> good b -> Forall (open b) ts ->
  exists ts', attached_all b ts cs (attach_all cs ts b) ts'.
Proof.
  intros F. induction F as [|c cs Hc F IH]; intros P [|t ts] b L N G O; try discriminate L.
  - exists []. constructor; cbn; auto; try lia; try (constructor; fail).
    intros e He _. destruct (b_kind b e); reflexivity.
  - inversion P as [|? ? P1 P2]; subst. inversion N as [|? ? N1 N2]; subst. inversion O as [|? ? O1 O2]; subst.
    destruct (Hc t b P1 G O1) as [t' A]. set (b1 := attach c t b) in *.
    assert (O3 : Forall (open b1) ts).
    { rewrite Forall_forall in *. intros u Hu. apply (attached_open b t c b1 t' u A G (O2 u Hu)). intros ->. tauto. }
    destruct (IH P2 ts b1 ltac:(cbn in L; lia) N2 (d_good _ _ _ _ _ A) O3) as [ts' B].
    cbn [attach_all]. fold b1. set (b2 := attach_all cs ts b1) in *.
    pose proof (d_next _ _ _ _ _ A) as X1. pose proof (da_next _ _ _ _ _ B) as X2.
    assert (Hlt : forall u, In u (t :: ts) -> u < b_next b).
    { intros u Hu. rewrite Forall_forall in O. exact (open_lt b u G (O u Hu)). }
    exists (t' :: ts'). constructor.
    + exact (da_good _ _ _ _ _ B).
    + lia.
    + cbn [at_all]. split.
      * assert (M : forall us us' k1 k2, (forall u, In u us -> In u ts) ->
           (forall e, e = t \/ b_next b <= e < b_next b1 -> k2 e = option_map (redirects us us') (k1 e)) ->
           at_ (fun e => e = t \/ b_next b <= e < b_next b1) k1 c t' ->
           at_ (fun e => In e (t :: ts) \/ b_next b <= e < b_next b2) k2 c t').
        { induction us as [|u us IHu]; intros us' k1 k2 Hus Hk Ha.
          - revert Ha. apply (at_moves _ _ k1 k2 (b_next b2) (b_next b2)).
            + intros e [->|H]; [left; left; reflexivity|right; lia].
            + pose proof (Hlt t (or_introl eq_refl)) as Htt. intros [H|H]; lia.
            + intros s Hs E. pose proof (g_fresh b2 (da_good _ _ _ _ _ B) (b_next b2) (le_n _)) as E2.
              rewrite E in E2. exact (slot_present b2 s (da_good _ _ _ _ _ B) Hs E2).
            + intros e He. rewrite (Hk e He). unfold redirects. cbn. destruct (k1 e) as [k|]; cbn; [|reflexivity]. now rewrite redirect_same.
          - destruct us' as [|u' us'].
            + apply (IHu [] k1 k2); [intros x Hx; apply Hus; right; exact Hx| |exact Ha]. intros e He. rewrite (Hk e He). unfold redirects. rewrite !combine_nil. reflexivity.
            + apply (IHu us' (fun e => option_map (redirect u u') (k1 e)) k2).
              * intros x Hx. apply Hus. right. exact Hx.
              * intros e He. rewrite (Hk e He). destruct (k1 e); reflexivity.
              * revert Ha. assert (Hu : In u ts) by (apply Hus; left; reflexivity).
                apply (at_moves _ _ k1 _ u u').
                -- auto.
                -- intros [->|H]; [tauto|]. pose proof (Hlt u (or_intror Hu)). lia.
                -- rewrite Forall_forall in O2. exact (o_slot b u (O2 u Hu)).
                -- reflexivity. }
        apply (M ts ts' (b_kind b1)); [auto| |exact (d_at _ _ _ _ _ A)].
        intros e He. apply (da_kind _ _ _ _ _ B).
        { pose proof (Hlt t (or_introl eq_refl)). destruct He as [->|]; lia. }
        { intros Hin. destruct He as [->|He]; [tauto|]. pose proof (Hlt e (or_intror Hin)). lia. }
      * assert (Q : forall (us : list chain) ws, at_all (fun e => In e ts \/ b_next b1 <= e < b_next b2) (b_kind b2) us ws ->
             at_all (fun e => In e (t :: ts) \/ b_next b <= e < b_next b2) (b_kind b2) us ws).
        { intros us ws. apply (at_all_moves _ _ _ _ (b_next b2) (b_next b2)).
          - intros e [H|H]; [left; right; exact H|right; lia].
          - intros [H|H]; [|lia]. pose proof (Hlt _ (or_intror H)). lia.
          - intros s Hs E. pose proof (g_fresh b2 (da_good _ _ _ _ _ B) (b_next b2) (le_n _)) as E2.
            rewrite E in E2. exact (slot_present b2 s (da_good _ _ _ _ _ B) Hs E2).
          - intros e _. destruct (b_kind b2 e); cbn; [now rewrite redirect_same|reflexivity]. }
        apply Q, (da_at _ _ _ _ _ B).
    + constructor; [exact (d_place _ _ _ _ _ A)|exact (da_place _ _ _ _ _ B)].
    + intros e He Hn. rewrite (da_kind _ _ _ _ _ B) by (cbn in Hn; tauto || lia).
      rewrite (d_kind _ _ _ _ _ A) by (cbn in Hn; intuition congruence). destruct (b_kind b e); reflexivity.
    + rewrite (da_entry _ _ _ _ _ B), (d_entry _ _ _ _ _ A). reflexivity.
Qed.

(** Fresh outputs. *)
Lemma outputs_spec n : forall b, good b -> let (b1, ts) := b_outputs n b in
  good b1 /\ ts = seq (b_next b) n /\ b_next b1 = b_next b + n /\ b_entry b1 = b_entry b /\
  Forall (open b1) ts /\
  (forall e, e < b_next b -> b_kind b1 e = b_kind b e) /\ (forall t, open b t -> open b1 t).
Proof.
  induction n as [|n IH]; intros b G; cbn [b_outputs].
  - split; [exact G|]. split; [reflexivity|]. split; [lia|]. split; [reflexivity|]. split; [constructor|]. auto.
  - specialize (IH _ (spawn_good b G)). destruct (b_outputs n (b_spawn OUnused b)) as [b1 ts].
    destruct IH as (G1 & -> & N1 & E1 & O1 & K1 & P1). cbn [b_next b_spawn b_entry] in *.
    split; [exact G1|]. split; [reflexivity|]. split; [lia|]. split; [exact E1|]. split; [|split].
    + constructor; [apply P1, spawn_open, G|exact O1].
    + intros e He. rewrite K1 by lia. rewrite spawn_kind. destruct (Nat.eqb_spec e (b_next b)); [lia|reflexivity].
    + intros t Ht. apply P1, spawn_keeps_open; assumption.
Qed.

(** An operation is added at [t] with fresh outputs, and chains are built onto these. *)
Lemma attach_op n k cs us b t : Forall buildable cs -> Forall (proper nn) cs -> good b -> open b t -> plain k ->
  (forall u, In u (targets_of k) -> b_next b <= u < b_next b + n) ->
  length us = length cs -> NoDup us -> (forall u, In u us -> b_next b <= u < b_next b + n) ->
  let (b1, _) := b_outputs n b in let b' := attach_all cs us (b_add t k b1) in
  exists us', good b' /\ b_next b <= b_next b' /\
    at_all (fun e => e = t \/ b_next b <= e < b_next b') (b_kind b') cs us' /\ placed us us' /\
    b_kind b' t = Some (redirects us us' k) /\
    (forall e, e < b_next b -> e <> t -> b_kind b' e = b_kind b e) /\
    b_entry b' = b_entry b /\ (forall u s, In u us -> proper_slot nn s -> u <> slot_at s).
Proof.
  intros F P G O Pk Tk L N Hus. pose proof (outputs_spec n b G) as S. destruct (b_outputs n b) as [b1 ts].
  destruct S as (G1 & -> & N1 & E1 & O1 & K1 & P1). intros b'.
  rewrite Forall_forall in O1.
  assert (In1 : forall u, b_next b <= u < b_next b + n -> open b1 u) by (intros u Hu; apply O1, in_seq; lia).
  pose proof (open_lt b t G O) as Ht.
  assert (G2 : good (b_add t k b1)).
  { apply add_good; [exact G1|apply P1, O|exact Pk|]. intros u Hu. rewrite (o_unused _ _ (In1 u (Tk u Hu))). discriminate. }
  assert (O2 : Forall (open (b_add t k b1)) us).
  { rewrite Forall_forall. intros u Hu. apply add_keeps_open; [apply In1, Hus, Hu|]. pose proof (Hus u Hu). lia. }
  destruct (attach_list cs F P us (b_add t k b1) L N G2 O2) as [us' A]. fold b' in A. exists us'.
  pose proof (da_next _ _ _ _ _ A) as X. cbn [b_next b_add] in X.
  assert (Hnot : ~ In t us) by (intros H; pose proof (Hus t H); lia).
  split; [exact (da_good _ _ _ _ _ A)|]. split; [lia|]. split; [|split; [exact (da_place _ _ _ _ _ A)|split; [|split; [|split]]]].
  - apply (at_all_moves _ _ _ (b_kind b') (b_next b') (b_next b')) with (5 := da_at _ _ _ _ _ A); cbn [b_next b_add].
    + intros e [H|H]; [right; pose proof (Hus e H); lia|right; lia].
    + intros [H|H]; [|lia]. pose proof (Hus _ H). lia.
    + intros s Hs E. pose proof (g_fresh b' (da_good _ _ _ _ _ A) (b_next b') (le_n _)) as E2.
      rewrite E in E2. exact (slot_present b' s (da_good _ _ _ _ _ A) Hs E2).
    + intros e _. destruct (b_kind b' e); cbn; [now rewrite redirect_same|reflexivity].
  - rewrite (da_kind _ _ _ _ _ A) by (cbn [b_next b_add]; tauto || lia). rewrite add_kind, Nat.eqb_refl. reflexivity.
  - intros e He Hne. rewrite (da_kind _ _ _ _ _ A).
    + rewrite add_kind. apply Nat.eqb_neq in Hne. rewrite Hne, K1 by exact He. destruct (b_kind b e) as [k0|] eqn:E; cbn; [|reflexivity].
      f_equal. apply redirects_other. intros u Hu Hin. pose proof (g_targets b G e k0 u E Hin) as Hp. apply Hp, (g_fresh b G).
      pose proof (Hus u Hu). lia.
    + cbn [b_next b_add]. lia.
    + intros Hin. pose proof (Hus e Hin). lia.
  - rewrite (da_entry _ _ _ _ _ A). cbn [b_entry b_add]. rewrite E1. apply to_news_other. intros Hin.
    pose proof (g_entry b G) as Hp. apply Hp, (g_fresh b G). pose proof (Hus _ Hin). lia.
  - intros u s Hu. exact (o_slot _ _ (In1 u (Hus u Hu)) s).
Qed.

Lemma redirect_id t k : redirect t t k = k.
Proof. apply redirect_same. Qed.

(** From here on [t] stays where it is. *)
Lemma attached_here b t c b' : good b' -> b_next b <= b_next b' ->
  at_ (fun e => e = t \/ b_next b <= e < b_next b') (b_kind b') c t ->
  (forall e, e < b_next b -> e <> t -> b_kind b' e = b_kind b e) -> b_entry b' = b_entry b ->
  attached b t c b' t.
Proof.
  intros G N A K E. constructor; auto.
  - intros e He Hn. rewrite (K e He Hn). destruct (b_kind b e); cbn; [now rewrite redirect_same|reflexivity].
  - rewrite E. unfold to_new. destruct (Nat.eqb_spec (b_entry b) t); congruence.
Qed.

Lemma two_seq n : seq n 2 = [n; S n].
Proof. reflexivity. Qed.

Lemma attach_two k a d b t us cs : cs = [a; d] -> buildable a -> buildable d -> proper nn a -> proper nn d ->
  good b -> open b t -> plain k -> us = [b_next b; S (b_next b)] \/ us = [S (b_next b); b_next b] ->
  (forall u, In u (targets_of k) -> u = b_next b \/ u = S (b_next b)) ->
  let b' := attach_all cs us (b_add t k (b_spawn OUnused (b_spawn OUnused b))) in
  exists us', good b' /\ b_next b <= b_next b' /\
    at_all (fun e => e = t \/ b_next b <= e < b_next b') (b_kind b') cs us' /\ placed us us' /\
    b_kind b' t = Some (redirects us us' k) /\
    (forall e, e < b_next b -> e <> t -> b_kind b' e = b_kind b e) /\
    b_entry b' = b_entry b /\ (forall u s, In u us -> proper_slot nn s -> u <> slot_at s).
Proof.
  intros -> Ba Bd Pa Pd G O Pk Hus Tk.
  apply (attach_op 2 k [a; d] us b t); auto.
  - intros u Hu. destruct (Tk u Hu); lia.
  - destruct Hus; subst; reflexivity.
  - destruct Hus; subst; repeat constructor; cbn; intuition lia.
  - intros u Hu. destruct Hus; subst; cbn in Hu; intuition lia.
Qed.

Lemma plain_branch act u w : plain (OBranch act u w).
Proof. split; [discriminate|split; [discriminate|discriminate]]. Qed.

Lemma at_all_two R K a d us : at_all R K [a; d] us -> exists ta td, us = [ta; td] /\ at_ R K a ta /\ at_ R K d td.
Proof. destruct us as [|ta [|td [|x us]]]; cbn; try tauto. intros (H1 & H2 & _). eauto. Qed.

Theorem buildable_all c : buildable c.
Proof.
  induction c as [s| | |s c IH|a d IHa IHd|a d IHa IHd|d a IHd IHa|d a IHd IHa|d a IHd IHa|cs IH|cs IH] using chain_ind';
    intros t b P G O; inversion P; subst; clear P.
  - exists (slot_at s). constructor.
    + apply connect_good; assumption.
    + reflexivity.
    + cbn. auto.
    + right. eauto.
    + intros e He Hn. cbn. apply Nat.eqb_neq in Hn. now rewrite Hn.
    + reflexivity.
  - exists t. apply attached_here; auto. cbn. split; [auto|exact (o_unused b t O)].
  - exists t. apply attached_here; cbn [attach b_next b_add b_entry]; auto.
    + apply add_good; [assumption|assumption| |intros u []]. split; [discriminate|split; [discriminate|discriminate]].
    + cbn [at_]. split; [auto|]. now rewrite add_kind, Nat.eqb_refl.
    + intros e He Hn. rewrite add_kind. apply Nat.eqb_neq in Hn. now rewrite Hn.
  - destruct (attach_op 1 (step_kind s (b_next b)) [c] [b_next b] b t) as (us' & G' & N' & A & Pl & Kt & Ke & E & Hs); auto.
    { destruct s; split; try discriminate; split; discriminate. }
    { intros u Hu. destruct s; cbn in Hu; intuition lia. }
    { repeat constructor; auto. }
    { intros u [<-|[]]. lia. }
    exists t. destruct us' as [|u' [|x us']]; cbn [at_all] in A; try tauto.
    apply attached_here; auto. cbn [at_]. split; [auto|]. exists u'. split; [|exact (proj1 A)].
    etransitivity; [exact Kt|]. rewrite redirects_step. do 2 f_equal.
    assert (Q : map (to_news [b_next b] [u']) [b_next b] = [u']) by (apply to_news_all; auto; repeat constructor; auto).
    injection Q as Q. exact Q.
  - destruct (attach_two (OBranch branch_result (b_next b) (S (b_next b))) a d b t [b_next b; S (b_next b)] [a; d])
      as (us' & G' & N' & A & Pl & Kt & Ke & E & Hs); auto; [apply plain_branch|cbn; intuition|].
    exists t. apply attached_here; auto. cbn [at_]. split; [auto|].
    destruct (at_all_two _ _ _ _ _ A) as (ta & td & -> & A1 & A2). exists ta, td. split; [|split; assumption].
    etransitivity; [exact Kt|]. rewrite redirects_branch.
    assert (Q : map (to_news [b_next b; S (b_next b)] [ta; td]) [b_next b; S (b_next b)] = [ta; td]) by (apply to_news_all; auto; repeat constructor; cbn; intuition lia).
    injection Q as Q1 Q2. now rewrite Q1, Q2.
  - destruct (attach_two (OBranch branch_option (b_next b) (S (b_next b))) a d b t [b_next b; S (b_next b)] [a; d])
      as (us' & G' & N' & A & Pl & Kt & Ke & E & Hs); auto; [apply plain_branch|cbn; intuition|].
    exists t. apply attached_here; auto. cbn [at_]. split; [auto|].
    destruct (at_all_two _ _ _ _ _ A) as (ta & td & -> & A1 & A2). exists ta, td. split; [|split; assumption].
    etransitivity; [exact Kt|]. rewrite redirects_branch.
    assert (Q : map (to_news [b_next b; S (b_next b)] [ta; td]) [b_next b; S (b_next b)] = [ta; td]) by (apply to_news_all; auto; repeat constructor; cbn; intuition lia).
    injection Q as Q1 Q2. now rewrite Q1, Q2.
  - destruct (attach_two (OBranch branch_result (b_next b) (S (b_next b))) d a b t [S (b_next b); b_next b] [d; a])
      as (us' & G' & N' & A & Pl & Kt & Ke & E & Hs); auto; [apply plain_branch|cbn; intuition|].
    exists t. apply attached_here; auto. cbn [at_]. split; [auto|].
    destruct (at_all_two _ _ _ _ _ A) as (td & ta & -> & A1 & A2). exists ta, td. split; [|split; assumption].
    etransitivity; [exact Kt|]. rewrite redirects_branch.
    assert (Q : map (to_news [S (b_next b); b_next b] [td; ta]) [S (b_next b); b_next b] = [td; ta]) by (apply to_news_all; auto; repeat constructor; cbn; intuition lia).
    injection Q as Q1 Q2. now rewrite Q1, Q2.
  - destruct (attach_two (OBranch branch_option (b_next b) (S (b_next b))) d a b t [S (b_next b); b_next b] [d; a])
      as (us' & G' & N' & A & Pl & Kt & Ke & E & Hs); auto; [apply plain_branch|cbn; intuition|].
    exists t. apply attached_here; auto. cbn [at_]. split; [auto|].
    destruct (at_all_two _ _ _ _ _ A) as (td & ta & -> & A1 & A2). exists ta, td. split; [|split; assumption].
    etransitivity; [exact Kt|]. rewrite redirects_branch.
    assert (Q : map (to_news [S (b_next b); b_next b] [td; ta]) [S (b_next b); b_next b] = [td; ta]) by (apply to_news_all; auto; repeat constructor; cbn; intuition lia).
    injection Q as Q1 Q2. now rewrite Q1, Q2.
  - destruct (attach_two (OForkClone [b_next b; S (b_next b)]) d a b t [S (b_next b); b_next b] [d; a])
      as (us' & G' & N' & A & Pl & Kt & Ke & E & Hs); auto;
      [split; [discriminate|split; discriminate]|cbn; intuition|].
    exists t. apply attached_here; auto. cbn [at_]. split; [auto|].
    destruct (at_all_two _ _ _ _ _ A) as (td & ta & -> & A1 & A2). exists ta, td. split; [|split; assumption].
    etransitivity; [exact Kt|]. rewrite redirects_clone.
    assert (Q : map (to_news [S (b_next b); b_next b] [td; ta]) [S (b_next b); b_next b] = [td; ta]) by (apply to_news_all; auto; repeat constructor; cbn; intuition lia).
    injection Q as Q1 Q2. cbn [map]. now rewrite Q1, Q2.
  - rewrite attach_clone. pose proof (outputs_spec (length (c :: cs0)) b G) as S.
    destruct (b_outputs (length (c :: cs0)) b) as [b1 ts] eqn:Eo. destruct S as (_ & -> & _).
    pose proof (attach_op (length (c :: cs0)) (OForkClone (seq (b_next b) (length (c :: cs0)))) (c :: cs0)
      (seq (b_next b) (length (c :: cs0))) b t) as X. rewrite Eo in X.
    destruct X as (us' & G' & N' & A & Pl & Kt & Ke & E & Hs); auto.
    { split; [discriminate|split; discriminate]. }
    { intros u Hu. apply in_seq in Hu. exact Hu. }
    { now rewrite seq_length. }
    { apply seq_NoDup. }
    { intros u Hu. apply in_seq in Hu. exact Hu. }
    exists t. apply attached_here; auto. cbn [at_]. split; [auto|]. exists us'. split; [|exact A].
    rewrite Kt, redirects_clone. do 2 f_equal. apply to_news_all; auto. apply seq_NoDup.
  - rewrite attach_unzip. pose proof (outputs_spec (length cs) b G) as S.
    destruct (b_outputs (length cs) b) as [b1 ts] eqn:Eo. destruct S as (_ & -> & _).
    pose proof (attach_op (length cs) (OUnzip (seq (b_next b) (length cs))) cs
      (seq (b_next b) (length cs)) b t) as X. rewrite Eo in X.
    destruct X as (us' & G' & N' & A & Pl & Kt & Ke & E & Hs); auto.
    { split; [discriminate|split; discriminate]. }
    { intros u Hu. apply in_seq in Hu. exact Hu. }
    { now rewrite seq_length. }
    { apply seq_NoDup. }
    { intros u Hu. apply in_seq in Hu. exact Hu. }
    exists t. apply attached_here; auto. cbn [at_]. split; [auto|]. exists us'. split; [|exact A].
    rewrite Kt, redirects_unzip. do 2 f_equal. apply to_news_all; auto. apply seq_NoDup.
Qed.

End At.
