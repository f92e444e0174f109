(** The cells of a series: what building, dropping and despawning do to them. *)
From Verif Require Import Base SeriesModel SeriesSpec.

(** ** The specification of the calls *)
Lemma thens_app c1 c2 : thens (c1 ++ c2) = thens c1 + thens c2.
Proof. induction c1 as [|[|] c1 IH]; cbn; rewrite ?IH; reflexivity. Qed.
Lemma detached_after_app c1 c2 here j :
  detached_after here (c1 ++ c2) j = detached_after here c1 j || detached_after (here + thens c1) c2 j.
Proof.
  revert here. induction c1 as [|[|] c1 IH]; intros here; cbn.
  - rewrite Nat.add_0_r. reflexivity.
  - rewrite IH. rewrite Nat.add_succ_r. reflexivity.
  - rewrite IH, orb_assoc. reflexivity.
Qed.
Lemma detached_above calls here j : here + thens calls < j -> detached_after here calls j = false.
Proof.
  revert here. induction calls as [|[|] c IH]; intros here L; cbn in *; [reflexivity|apply IH; lia|].
  rewrite IH by lia. destruct (Nat.eqb_spec here j); [lia|reflexivity].
Qed.
Lemma last_true_le f n : last_true f n <= n.
Proof. induction n as [|n IH]; cbn; [lia|]. destruct (f (S n)); lia. Qed.
Lemma last_true_above f n j : last_true f n < j -> j <= n -> f j = false.
Proof.
  induction n as [|n IH]; cbn; intros L1 L2; [lia|]. destruct (f (S n)) eqn:E; [lia|].
  destruct (Nat.eq_dec j (S n)) as [->|N]; [exact E|apply IH; lia].
Qed.
Lemma last_true_true f n : 0 < last_true f n -> f (last_true f n) = true.
Proof. induction n as [|n IH]; cbn; intros L; [lia|]. destruct (f (S n)) eqn:E; [exact E|apply IH, L]. Qed.
Lemma last_true_ext f g n : (forall j, f j = g j) -> last_true f n = last_true g n.
Proof. intros E. induction n as [|n IH]; cbn; [reflexivity|]. rewrite E, IH. reflexivity. Qed.

Section Cells.
  Context {V : Type}.
  Implicit Types (s : sstate V) (m : nat).

  (** What an ending puts at the last target. *)
  Definition end_op (t : ending) : option sop :=
    match t with Unused => None | Take => Some OTaken | Store => Some OStore | Push => Some OPush end.
  Definition is_unused (t : ending) : bool := match t with Unused => true | _ => false end.

  (** The cells of a series of [n] sessions of which the entities up to [m] exist. *)
  Definition ecell (n : nat) (D : nat -> bool) (t : ending) (m : nat) (inp : nat -> list (entity * V)) : emap (cell V) :=
    fun j => if j <=? m then Some
      {| c_parent := if j <? m then Some (S j) else None;
         c_detached := if j =? 0 then None else Some (D j);
         c_unused := (j =? n) && is_unused t && negb (D n);
         c_active := j =? 0;
         c_op := if j <? n then Some (OProvider (S j)) else end_op t;
         c_input := inp j |} else None.
  Definition at_ (j : nat) (w : V) : nat -> list (entity * V) := fun x => if x =? j then [(0, w)] else [].
  Definition nowhere : nat -> list (entity * V) := fun _ => [].

  Lemma ecell_alive n D t m inp j : j <= m -> ecell n D t m inp j = Some
      {| c_parent := if j <? m then Some (S j) else None; c_detached := if j =? 0 then None else Some (D j);
         c_unused := (j =? n) && is_unused t && negb (D n); c_active := j =? 0;
         c_op := if j <? n then Some (OProvider (S j)) else end_op t; c_input := inp j |}.
  Proof. intros L. unfold ecell. destruct (Nat.leb_spec j m); [reflexivity|lia]. Qed.
  Lemma ecell_dead n D t m inp j : m < j -> ecell n D t m inp j = None.
  Proof. intros L. unfold ecell. destruct (Nat.leb_spec j m); [lia|reflexivity]. Qed.

  Record shaped n D t m inp s : Prop := {
    sh_cells : forall j, s_cells s j = ecell n D t m inp j;
    sh_next : s_next s = S n;
    sh_m : m <= n }.

  (** ** Building *)
  Lemma build_shape v calls :
    let s := fold_left build calls (request v) in
    shaped (sessions calls) (detached calls) Unused (sessions calls) (at_ 0 v) s /\
    s_later s = [0] /\ s_queue s = [] /\ s_cancel s = [] /\ s_despawn s = [] /\ s_running s = [] /\
    s_dropped s = false /\ s_receiver s = true /\ s_channel s = [] /\ s_log s = [].
  Proof.
    induction calls as [|c calls IH] using rev_ind.
    - cbn. split; [|repeat split]. split; [|reflexivity|cbn; lia]. intros j. cbn.
      destruct j as [|[|j]]; reflexivity.
    - cbn zeta in *. rewrite fold_left_app. cbn [fold_left]. destruct IH as ([HC HN HM] & R). set (s := fold_left build calls (request v)) in *. clearbody s.
      assert (T : target s = sessions calls) by (unfold target; rewrite HN; reflexivity).
      destruct c; cbn [build]; cbv zeta.
      + assert (S1 : sessions (calls ++ [Then]) = S (sessions calls)) by (unfold sessions; rewrite thens_app; cbn; lia).
        assert (D1 : forall j, detached (calls ++ [Then]) j = detached calls j).
        { intros j. unfold detached. rewrite detached_after_app. cbn. apply orb_false_r. }
        split; [|cbn; exact R]. split; cbn [modify set_cells s_cells s_next set_next]; [|rewrite HN, S1; reflexivity|lia].
        intros j. rewrite T, S1, HN. unfold emap_set.
        assert (DN : detached calls (S (sessions calls)) = false) by (apply detached_above; unfold sessions; lia).
        destruct (Nat.eqb_spec j (sessions calls)) as [->|N1].
        * destruct (Nat.eqb_spec (sessions calls) (S (sessions calls))) as [E|_]; [lia|].
          rewrite HC, !ecell_alive by lia. cbn [option_map]. unfold child_of, use. cbn. rewrite D1. unfold at_.
          assert (F : (thens calls =? sessions calls) = false) by (apply Nat.eqb_neq; unfold sessions; lia).
          rewrite F, Nat.leb_refl. reflexivity.
        * destruct (Nat.eqb_spec j (S (sessions calls))) as [->|N2].
          { rewrite ecell_alive by lia. unfold fresh_target, at_. rewrite !D1, DN.
            rewrite Nat.ltb_irrefl, Nat.eqb_refl. reflexivity. }
          rewrite HC. destruct (le_lt_dec j (sessions calls)) as [L|L]; [|rewrite !ecell_dead by lia; reflexivity].
          rewrite !ecell_alive by lia. rewrite D1.
          destruct (Nat.ltb_spec j (sessions calls)); [|lia]. destruct (Nat.ltb_spec j (S (sessions calls))); [|lia].
          destruct (Nat.eqb_spec j (sessions calls)); [lia|]. destruct (Nat.eqb_spec j (S (sessions calls))); [lia|]. reflexivity.
      + assert (S1 : sessions (calls ++ [Detach]) = sessions calls) by (unfold sessions; rewrite thens_app; cbn; lia).
        assert (D1 : forall j, detached (calls ++ [Detach]) j = detached calls j || Nat.eqb (sessions calls) j).
        { intros j. unfold detached. rewrite detached_after_app. cbn. rewrite orb_false_r. reflexivity. }
        split; [|cbn; exact R]. split; cbn [modify set_cells s_cells s_next]; [|rewrite HN, S1; reflexivity|lia].
        intros j. rewrite T, S1. unfold emap_set.
        destruct (Nat.eqb_spec j (sessions calls)) as [->|N1].
        * rewrite HC, !ecell_alive by lia. unfold detach. cbn [option_map c_parent c_active c_op c_input]. f_equal. rewrite !D1, Nat.eqb_refl, orb_true_r.
          cbn [sessions Nat.eqb]. rewrite andb_false_r. reflexivity.
        * rewrite HC. destruct (le_lt_dec j (sessions calls)) as [L|L]; [|rewrite !ecell_dead by lia; reflexivity].
          rewrite !ecell_alive by lia. rewrite !D1. destruct (Nat.eqb_spec (sessions calls) j); [lia|]. rewrite orb_false_r.
          destruct (Nat.eqb_spec j (sessions calls)); [lia|]. reflexivity.
  Qed.

  Lemma series_shape v calls t :
    let s := series v calls t in
    shaped (sessions calls) (detached calls) t (sessions calls) (at_ 0 v) s /\
    s_later s = [0] /\ s_queue s = [] /\ s_cancel s = [] /\ s_despawn s = [] /\ s_running s = [] /\
    s_dropped s = false /\ s_receiver s = true /\ s_channel s = [] /\ s_log s = [].
  Proof.
    cbn zeta. unfold series. destruct (build_shape v calls) as ([HC HN HM] & R). set (s := fold_left build calls (request v)) in *. clearbody s.
    assert (T : target s = sessions calls) by (unfold target; rewrite HN; reflexivity).
    assert (G : forall o, end_op t = Some o -> shaped (sessions calls) (detached calls) t (sessions calls) (at_ 0 v) (modify (target s) (use o) s)).
    { intros o E. split; cbn [modify set_cells s_cells s_next]; [|exact HN|lia]. intros j. rewrite T. unfold emap_set.
      assert (U : is_unused t = false) by (destruct t; try reflexivity; discriminate E).
      destruct (Nat.eqb_spec j (sessions calls)) as [->|N].
      - rewrite HC, !ecell_alive by lia. unfold use. cbn [option_map c_parent c_detached c_active c_op c_input]. rewrite Nat.ltb_irrefl, Nat.eqb_refl, E, U. reflexivity.
      - rewrite HC. destruct (le_lt_dec j (sessions calls)) as [L|L]; [|rewrite !ecell_dead by lia; reflexivity].
        rewrite !ecell_alive by lia. rewrite U. destruct (Nat.eqb_spec j (sessions calls)); [lia|].
        destruct (Nat.ltb_spec j (sessions calls)); [|lia]. reflexivity. }
    destruct t; cbn [finish]; (split; [|exact R]); [split; [exact HC|exact HN|lia]|apply G; reflexivity..].
  Qed.

  (** ** Despawning *)
  Lemma below_up n D t m inp (c : emap (cell V)) fuel x : (forall j, c j = ecell n D t m inp j) -> x <= m -> m - x <= fuel -> below fuel c m x = true.
  Proof.
    intros HC. revert x. induction fuel as [|fuel IH]; intros x L F; cbn.
    - replace x with m by lia. rewrite Nat.eqb_refl. reflexivity.
    - destruct (Nat.eqb_spec x m) as [E|N]; [reflexivity|]. cbn [orb]. rewrite HC, ecell_alive by lia. cbn [c_parent].
      destruct (Nat.ltb_spec x m); [|lia]. apply IH; lia.
  Qed.
  Lemma below_dead (c : emap (cell V)) fuel e x : x <> e -> c x = None -> below fuel c e x = false.
  Proof. intros N E. destruct fuel; cbn; destruct (Nat.eqb_spec x e); try contradiction; [reflexivity|]. rewrite E. reflexivity. Qed.
  (** A chain which ends at [m] does not get beyond. *)
  Lemma below_stop n D t m inp (c : emap (cell V)) fuel e x : (forall j, c j = ecell n D t m inp j) -> m < e -> x <= m -> below fuel c e x = false.
  Proof.
    intros HC LE. revert x. induction fuel as [|fuel IH]; intros x L; cbn; (destruct (Nat.eqb_spec x e); [lia|]); [reflexivity|]. cbn [orb].
    rewrite HC, ecell_alive by lia. cbn [c_parent]. destruct (Nat.ltb_spec x m); [apply IH; lia|reflexivity].
  Qed.
  Lemma despawn_top n D t m inp s : shaped n D t m inp s -> forall j, s_cells (despawn m s) j = None.
  Proof.
    intros [HC HN HM] j. cbn. destruct (le_lt_dec j m) as [L|L].
    - rewrite (below_up n D t m inp) by (auto; lia). reflexivity.
    - rewrite HC, ecell_dead by lia. destruct below; reflexivity.
  Qed.
  Lemma despawn_missing n D t m inp s e : shaped n D t m inp s -> m < e -> forall j, s_cells (despawn e s) j = s_cells s j.
  Proof.
    intros [HC HN HM] LE j. cbn. destruct (le_lt_dec j m) as [L|L].
    - rewrite (below_stop n D t m inp) by (auto; lia). reflexivity.
    - rewrite HC, ecell_dead by lia. destruct below; reflexivity.
  Qed.
  Lemma despawn_gone s e : gone s -> gone (despawn e s).
  Proof. intros G j. cbn. destruct below; [reflexivity|apply G]. Qed.

  (** ** Dropping an unused series *)
  Lemma children_chain n D t m inp s e : shaped n D t m inp s -> e <= m -> children s e = match e with 0 => [] | S p => [p] end.
  Proof.
    intros [HC HN HM] L. unfold children.
    assert (P : forall x, match s_cells s x with Some c => match c_parent c with Some p => p =? e | None => false end | None => false end = (match e with 0 => false | S p => x =? p end)).
    { intros x. rewrite HC. destruct (le_lt_dec x m) as [Lx|Lx].
      - rewrite ecell_alive by lia. cbn [c_parent]. destruct (Nat.ltb_spec x m); destruct e as [|p]; cbn; try reflexivity.
        symmetry. apply Nat.eqb_neq. lia.
      - rewrite ecell_dead by lia. destruct e as [|p]; [reflexivity|]. symmetry. apply Nat.eqb_neq. lia. }
    rewrite (filter_ext _ _ P). destruct e as [|p].
    - induction (seq 0 (s_next s)) as [|a l IH]; [reflexivity|exact IH].
    - rewrite HN. assert (Hp : p < S n) by lia. revert Hp. clear. intros Hp.
      replace (S n) with (p + (1 + (n - p))) by lia. rewrite seq_app, filter_app. cbn [seq plus].
      assert (Z : forall a len, (forall x, a <= x -> x < a + len -> (x =? p) = false) -> filter (fun x => x =? p) (seq a len) = []).
      { intros a len. revert a. induction len as [|len IH]; intros a H; [reflexivity|]. cbn. rewrite H by lia. apply IH. intros; apply H; lia. }
      rewrite Z by (intros; apply Nat.eqb_neq; lia). cbn. rewrite Nat.eqb_refl. rewrite Z by (intros; apply Nat.eqb_neq; lia). reflexivity.
  Qed.

  Lemma purge_shape n D t m inp s e : shaped n D t m inp s -> shaped n D t m inp (purge e s).
  Proof. intros [HC HN HM]. split; assumption. Qed.

  (** What climbing does not change: everything but the queue. *)
  Definition same_but_queue (s s' : sstate V) : Prop :=
    s_cells s' = s_cells s /\ s_next s' = s_next s /\ s_later s' = s_later s /\ s_cancel s' = s_cancel s /\ s_despawn s' = s_despawn s /\
    s_running s' = s_running s /\ s_dropped s' = s_dropped s /\ s_receiver s' = s_receiver s /\ s_channel s' = s_channel s /\ s_log s' = s_log s.

  Lemma climb_spec n D t inp fuel s e : shaped n D t n inp s -> e <= n -> e <= fuel -> s_queue s = [0] -> 0 < e ->
    let k := last_true D (pred e) in
    exists s', climb (S fuel) s e None = (s', if k =? 0 then None else Some k) /\ same_but_queue s s' /\ s_queue s' = [0].
  Proof.
    revert s e. induction fuel as [|fuel IH]; intros s e SH L F Q P; [lia|]. cbn zeta.
    cbn [climb]. rewrite (children_chain _ _ _ _ _ _ _ SH L). destruct e as [|p]; [lia|]. cbn [fold_left look pred].
    destruct SH as [HC HN HM]. rewrite HC, ecell_alive by lia. cbn [c_detached].
    destruct (Nat.eqb_spec p 0) as [->|N].
    - cbn. exists s. repeat split; auto.
    - destruct p as [|q]; [lia|]. cbn [last_true]. destruct (D (S q)) eqn:E.
      + cbn. exists s. repeat split; auto.
      + destruct (IH (purge (S (S q)) s) (S q)) as (s' & E' & SB & Q').
        * apply purge_shape. split; assumption.
        * lia.
        * lia.
        * cbn. rewrite Q. reflexivity.
        * lia.
        * cbn [pred] in E'. exists s'. split; [exact E'|]. split; [|exact Q'].
          destruct SB as (B1 & B2 & B3 & B4 & B5 & B6 & B7 & B8 & B9 & B10). repeat split; assumption.
  Qed.

  (** Dropping the unused end: what is up to the last [detach] stays, the rest goes. *)
  Lemma drop_spec n D inp s : shaped n D Unused n inp s -> D n = false -> s_queue s = [0] -> 0 < n ->
    let k := last_true D n in
    let s' := drop_target true s n in
    (if k =? 0 then gone s' else shaped n D Unused k inp s') /\
    s_next s' = s_next s /\ s_later s' = s_later s /\ s_queue s' = [0] /\ s_cancel s' = s_cancel s /\ s_despawn s' = s_despawn s /\
    s_running s' = s_running s /\ s_dropped s' = s_dropped s /\ s_receiver s' = s_receiver s /\ s_channel s' = s_channel s /\ s_log s' = s_log s ++ [EUnused n].
  Proof.
    intros SH DN Q P. cbn zeta. assert (K : last_true D n = last_true D (pred n)) by (destruct n; [lia|]; cbn [last_true pred]; rewrite DN; reflexivity).
    rewrite K. clear K. unfold drop_target.
    destruct (climb_spec n D Unused inp (s_next (purge n s)) (purge n s) n) as (s1 & E & SB & Q1).
    { apply purge_shape, SH. } { lia. } { cbn. rewrite (sh_next _ _ _ _ _ _ SH). lia. } { cbn. rewrite Q. destruct n; [lia|reflexivity]. } { exact P. }
    rewrite E. clear E. destruct SB as (B1 & B2 & B3 & B4 & B5 & B6 & B7 & B8 & B9 & B10). cbn in B1, B2, B3, B4, B5, B6, B7, B8, B9, B10.
    destruct SH as [HC HN HM].
    assert (LK : last_true D (pred n) < n) by (pose proof (last_true_le D (pred n)); lia).
    set (k := last_true D (pred n)) in *. clearbody k. destruct (Nat.eqb_spec k 0) as [K0|K0].
    - split; [|cbn; rewrite B2, B3, B4, B5, B6, B7, B8, B9, B10, Q1; repeat split].
      intros j. change (s_cells (despawn n s1) j = None). apply (despawn_top n D Unused n inp). split; [intros; rewrite B1; apply HC|rewrite B2; exact HN|lia].
    - assert (MC : forall j, s_cells (modify k orphan s1) j = if j =? k then option_map orphan (ecell n D Unused n inp k) else ecell n D Unused n inp j).
      { intros j. cbn. unfold emap_set. rewrite B1. destruct (Nat.eqb_spec j k); rewrite HC; reflexivity. }
      assert (NX : s_next (modify k orphan s1) = S n) by (cbn; rewrite B2; exact HN).
      split; [|cbn; rewrite B2, B3, B4, B5, B6, B7, B8, B9, B10, Q1; repeat split].
      split; [|cbn; rewrite B2; exact HN|lia]. intros j.
      change (s_cells (despawn n (modify k orphan s1)) j = ecell n D Unused k inp j).
      set (c := modify k orphan s1) in *. clearbody c. cbn. rewrite NX.
      assert (UP : forall fuel x, k < x -> x <= n -> n - x <= fuel -> below fuel (s_cells c) n x = true).
      { induction fuel as [|fuel IH]; intros x L1 L2 F; cbn.
        - replace x with n by lia. rewrite Nat.eqb_refl. reflexivity.
        - destruct (Nat.eqb_spec x n) as [->|N]; [reflexivity|]. cbn [orb]. rewrite MC. destruct (Nat.eqb_spec x k); [lia|].
          rewrite ecell_alive by lia. cbn [c_parent]. destruct (Nat.ltb_spec x n); [|lia]. apply IH; lia. }
      assert (ST : forall fuel x, x <= k -> below fuel (s_cells c) n x = false).
      { induction fuel as [|fuel IH]; intros x L1; cbn; (destruct (Nat.eqb_spec x n); [lia|]); [reflexivity|]. cbn [orb]. rewrite MC.
        destruct (Nat.eqb_spec x k) as [->|N].
        - rewrite ecell_alive by lia. cbn. reflexivity.
        - rewrite ecell_alive by lia. cbn [c_parent]. destruct (Nat.ltb_spec x n); [|lia]. apply IH; lia. }
      destruct (le_lt_dec j k) as [L|L].
      + rewrite ST by exact L. rewrite MC. destruct (Nat.eqb_spec j k) as [->|N].
        * rewrite !ecell_alive by lia. cbn [option_map]. unfold orphan. cbn [c_detached c_unused c_active c_op c_input]. rewrite Nat.ltb_irrefl. reflexivity.
        * rewrite !ecell_alive by lia. destruct (Nat.ltb_spec j n); [|lia]. destruct (Nat.ltb_spec j k); [|lia]. reflexivity.
      + rewrite (ecell_dead _ _ _ k) by lia. destruct (le_lt_dec j n) as [L2|L2].
        * rewrite UP by lia. reflexivity.
        * rewrite MC. destruct (Nat.eqb_spec j k); [lia|]. rewrite ecell_dead by lia. destruct below; reflexivity.
  Qed.

  (** ** Cancelling *)
  Lemma terminal_chain n D t m inp (c : emap (cell V)) fuel j : (forall j, c j = ecell n D t m inp j) -> m <= n -> j <= m -> S m - j <= fuel ->
    terminal fuel c j = if m <? n then S m else n.
  Proof.
    intros HC HM. revert j. induction fuel as [|fuel IH]; intros j L F; [lia|].
    cbn [terminal]. rewrite HC, ecell_alive by lia. cbn [c_op]. destruct (Nat.ltb_spec j n) as [L1|L1].
    - destruct (Nat.eq_dec j m) as [->|N].
      + destruct (Nat.ltb_spec m n); [|lia]. destruct fuel as [|fuel]; [reflexivity|]. cbn [terminal]. rewrite HC, ecell_dead by lia. reflexivity.
      + apply IH; lia.
    - destruct (Nat.ltb_spec m n); [lia|]. replace j with n by lia. destruct t; reflexivity.
  Qed.
End Cells.
