(** Proofs about streams: redirects, collections, receivers, availability. *)
From Coq Require Import List Arith Bool Lia.
From Verif Require Import Base StreamModel StreamSpec StreamProofs.
Import ListNotations.

Section Redirect.
Context {V : Type}.
Implicit Types (w : st V) (r : redirect V).

(** the world in which the redirect has the inputs [q] *)
Definition with_queue (self : entity) (n : node V) (q : list (entity * datum V)) w : st V :=
  put_node self (Some (mkNode (nd_ty n) (nd_unused n) q)) w.

Lemma delivered_requeue ps self n q q' w w2 :
  delivered ps (with_queue self n q w) w2 ->
  arrivals (st_active w) self ps = [] ->
  delivered ps (with_queue self n q' w) (with_queue self n q' w2).
Proof.
  intros (H1 & H2 & H3 & H4 & H5) Ha. unfold with_queue, put_node in *.
  cbn [st_nodes st_active st_wakes st_coll st_broken st_cancel] in *.
  split; [|split; [|split; [|split]]]; cbn [st_nodes st_active st_wakes st_coll].
  - intros e m E. destruct (Nat.eq_dec e self) as [->|Hne].
    + rewrite emap_set_eq in E. injection E as <-. rewrite emap_set_eq, Ha, waiting_nil. reflexivity.
    + rewrite emap_set_neq in E by exact Hne. rewrite emap_set_neq by exact Hne.
      apply H1. rewrite emap_set_neq by exact Hne. exact E.
  - intros e E. destruct (Nat.eq_dec e self) as [->|Hne].
    + rewrite emap_set_eq in E. discriminate.
    + rewrite emap_set_neq in E by exact Hne. rewrite emap_set_neq by exact Hne.
      apply H2. rewrite emap_set_neq by exact Hne. exact E.
  - rewrite H3. f_equal. apply flat_map_ext. intros p. unfold wakes_up, is_alive.
    destruct (pc_value p), (pc_to p) as [[[x y] z]|]; try reflexivity.
    cbn [st_nodes]. destruct (Nat.eq_dec x self) as [->|Hne].
    + rewrite !emap_set_eq. reflexivity.
    + rewrite !emap_set_neq by exact Hne. reflexivity.
  - exact H4.
  - exact H5.
Qed.

Lemma failures_requeue self n q q' w ps :
  failures (with_queue self n q w) ps = failures (with_queue self n q' w) ps.
Proof.
  apply failures_alive. intros e. unfold is_alive, with_queue, put_node. cbn [st_nodes].
  destruct (Nat.eq_dec e self) as [->|Hne].
  - rewrite !emap_set_eq. reflexivity.
  - rewrite !emap_set_neq by exact Hne. reflexivity.
Qed.

(** One execution sends the parcels of the oldest input. *)
Lemma redirect_execute_parcels r outs self w n q ses d :
  st_nodes w self = Some n -> nd_queue n = q ++ [(ses, d)] ->
  well_formed r d ->
  (match r with RScope _ _ => outs ses <> None | _ => True end) ->
  redirect_execute r (exits_of outs) self w =
  fold_left (parcel_step (Cancelled self)) (parcel_out r outs (ses, d)) (with_queue self n q w).
Proof.
  intros Hn Hq Hwf Hs. unfold redirect_execute. rewrite Hn, Hq, pop_last_app.
  unfold parcel_out, exits_of. cbn [fst snd]. fold (with_queue self n q w).
  destruct (outs ses) as [[cs parent]|]; [|destruct r; try reflexivity; congruence].
  destruct r as [f t|f|k f|f], d as [v|k' v]; cbn in Hwf; try contradiction;
    cbn [fold_left value_of name_of ex_map ex_parent]; unfold parcel_step, parcel_try;
    cbn [complain pc_value pc_to pc_session];
    (destruct (ef_fun f v) as [v'|]; [|reflexivity]).
  - reflexivity.
  - reflexivity.
  - rewrite get_anonymous_spec. unfold destination_unnamed.
    destruct (connected_type cs (ef_out f)); reflexivity.
  - rewrite <- lookup_spec. destruct (get_named_or_anonymous _ _ _) as [[e|e]|]; reflexivity.
  - rewrite <- lookup_spec. destruct (get_named_or_anonymous _ _ _) as [[e|e]|]; reflexivity.
Qed.

(** The parcels of all inputs. *)
Definition out_fitting r outs self (items : list (entity * datum V)) w : Prop :=
  forall p, In p (flat_map (parcel_out r outs) items) ->
    fitting w p /\ (forall e t form, pc_to p = Some (e, t, form) -> e <> self).

Lemma arrivals_self (a : entity -> bool) self (ps : list (parcel (V := V))) :
  (forall p, In p ps -> forall e t form, pc_to p = Some (e, t, form) -> e <> self) ->
  arrivals a self ps = [].
Proof.
  unfold arrivals. induction ps as [|p ps IH]; intros H; cbn [flat_map]; [reflexivity|].
  rewrite IH by (intros q Hq; apply H; right; exact Hq). rewrite app_nil_r.
  unfold arrives. destruct (pc_value p), (pc_to p) as [[[x y] z]|] eqn:E; try reflexivity.
  destruct (Nat.eq_dec x self) as [->|]; [|reflexivity].
  exfalso. exact (H p (or_introl eq_refl) _ _ _ E eq_refl).
Qed.

Lemma fitting_requeue self n q w p :
  (forall e t form, pc_to p = Some (e, t, form) -> e <> self) ->
  fitting w p -> fitting (with_queue self n q w) p.
Proof.
  intros Hne Hf e t form m Hto Hm. unfold with_queue, put_node in Hm. cbn [st_nodes] in Hm.
  rewrite emap_set_neq in Hm by (apply (Hne _ _ _ Hto)). exact (Hf _ _ _ _ Hto Hm).
Qed.

Lemma redirect_run_spec r outs self n items w :
  st_nodes w self = Some (mkNode (nd_ty n) (nd_unused n) (rev items)) ->
  (forall i, In i items -> well_formed r (snd i)) ->
  (match r with RScope _ _ => forall i, In i items -> outs (fst i) <> None | _ => True end) ->
  out_fitting r outs self items w ->
  let ps := flat_map (parcel_out r outs) items in
  let w0 := with_queue self n [] w in
  let w' := redirect_run (length items) r (exits_of outs) self w in
  delivered ps w0 w' /\
  st_cancel w' = st_cancel w ++ repeat self (failures w0 ps) /\
  st_broken w' = st_broken w.
Proof.
  revert w. induction items as [|[ses d] items IH]; intros w Hn Hwf Hs Hfit; cbn [length redirect_run flat_map].
  - split; [|cbn; rewrite app_nil_r; auto].
    destruct (delivered_nil w) as (D1 & D2 & D3 & D4 & D5).
    unfold with_queue. split; [|split; [|split; [|split]]]; cbn [put_node st_nodes st_active st_wakes st_coll].
    + intros e m E. destruct (Nat.eq_dec e self) as [->|Hne].
      * rewrite emap_set_eq in E. injection E as <-. rewrite Hn. cbn. rewrite waiting_nil. reflexivity.
      * rewrite emap_set_neq in E by exact Hne. rewrite E. cbn. rewrite waiting_nil, node_eta. reflexivity.
    + intros e E. destruct (Nat.eq_dec e self) as [->|Hne].
      * rewrite emap_set_eq in E. discriminate.
      * rewrite emap_set_neq in E by exact Hne. exact E.
    + cbn. rewrite app_nil_r. reflexivity.
    + reflexivity.
    + reflexivity.
  - assert (Hex : redirect_execute r (exits_of outs) self w =
              fold_left (parcel_step (Cancelled self)) (parcel_out r outs (ses, d))
                (with_queue self n (rev items) w)).
    { rewrite (redirect_execute_parcels r outs self w _ (rev items) ses d Hn).
      - reflexivity.
      - reflexivity.
      - apply (Hwf (ses, d)). left. reflexivity.
      - destruct r; auto. apply (Hs (ses, d)). left. reflexivity. }
    rewrite Hex. set (ps1 := parcel_out r outs (ses, d)) in *.
    set (w1 := with_queue self n (rev items) w) in *.
    assert (Hps1 : forall p, In p ps1 -> fitting w p /\
               (forall e t form, pc_to p = Some (e, t, form) -> e <> self)).
    { intros p Hp. apply Hfit. cbn [flat_map]. apply in_or_app. left. exact Hp. }
    destruct (parcels_spec (Cancelled self) ps1 w1) as [Hd [Hc Hb]].
    { intros p Hp. destruct (Hps1 p Hp) as [Ha Hb]. apply fitting_requeue; assumption. }
    set (w2 := fold_left (parcel_step (Cancelled self)) ps1 w1) in *.
    assert (Hself : arrivals (st_active w) self ps1 = []).
    { apply arrivals_self. intros p Hp. exact (proj2 (Hps1 p Hp)). }
    assert (Hact : st_active w2 = st_active w).
    { destruct Hd as (_ & _ & _ & H & _). exact H. }
    destruct (IH w2) as [Hd' [Hc' Hb']].
    { destruct Hd as (H & _). specialize (H self (mkNode (nd_ty n) (nd_unused n) (rev items))).
      rewrite H; [|unfold w1, with_queue, put_node; cbn; apply emap_set_eq].
      cbn [nd_ty nd_unused]. change (st_active w1) with (st_active w).
      rewrite Hself, waiting_nil. reflexivity. }
    { intros i Hi. apply Hwf. right. exact Hi. }
    { destruct r; auto. intros i Hi. apply Hs. right. exact Hi. }
    { intros p Hp. destruct (Hfit p) as [Ha Hb'].
      - cbn [flat_map]. apply in_or_app. right. exact Hp.
      - split; [|exact Hb'].
        apply (delivered_fitting ps1 w1 w2 p Hd). apply fitting_requeue; assumption. }
    pose proof (delivered_requeue ps1 self n (rev items) [] w w2 Hd Hself) as Hd0.
    split; [exact (delivered_app _ _ _ _ _ Hd0 Hd')|].
    split; [|rewrite Hb', Hb; reflexivity].
    rewrite Hc', Hc. change (st_cancel w1) with (st_cancel w).
    rewrite <- app_assoc, <- repeat_app. f_equal. f_equal.
    rewrite (failures_alive (with_queue self n [] w) (with_queue self n [] w2)).
    + unfold w1. rewrite (failures_requeue self n (rev items) [] w).
      unfold failures. rewrite filter_app, app_length. reflexivity.
    + exact (delivered_alive _ _ _ Hd0).
Qed.

End Redirect.

(** * Collecting and receiving *)

Section Collect.
Context {V : Type}.
Variables (p : push) (f : effect V) (source session self : entity).
Implicit Types (w : st V) (hs : list (happening V)).

Let run := push_run p f source session self.

(** the redirect waits with the values [q], oldest first *)
Definition waits w (q : list V) : Prop :=
  exists u, st_nodes w self =
    Some (mkNode (Some (ef_out f)) u (rev (map (fun v => (session, Plain v)) q))).

Lemma send_waits w q v v' :
  st_active w session = true -> waits w q -> ef_fun f v = Some v' ->
  let w' := anon_item f source session (Some self) w v in
  waits w' (q ++ [v']) /\ st_coll w' = st_coll w /\ st_active w' = st_active w.
Proof.
  intros Ha [u Hw] Hv. unfold anon_item. rewrite Hv. cbn [send_output]. rewrite Hw.
  unfold give_input. rewrite Ha. cbn [negb nd_ty nd_unused nd_queue]. rewrite ty_eqb_refl.
  cbn [report_unhandled]. split; [|split; reflexivity].
  exists u. cbn. rewrite emap_set_eq. rewrite map_app, rev_app_distr. reflexivity.
Qed.

Lemma send_fails w q v :
  waits w q -> ef_fun f v = None ->
  let w' := anon_item f source session (Some self) w v in
  waits w' q /\ st_coll w' = st_coll w /\ st_active w' = st_active w.
Proof.
  intros [u Hw] Hv. unfold anon_item. rewrite Hv. cbn. split; [|split; reflexivity].
  exists u. exact Hw.
Qed.

Lemma rev_map_cons {A B} (g : A -> B) x l :
  rev (map g (x :: l)) = rev (map g l) ++ [g x].
Proof. reflexivity. Qed.

Lemma execute_waits w c x q :
  waits w (x :: q) -> st_coll w (ps_target p) = Some c ->
  let w' := push_execute p (ef_out f) self w in
  st_coll w' (ps_target p) = Some (c ++ [entry p (ef_out f) session x]) /\
  st_active w' = st_active w /\
  (if ps_stream p then st_nodes w' self = None else waits w' q).
Proof.
  intros [u Hw] Hc. unfold push_execute. rewrite Hw. cbn [nd_queue].
  rewrite rev_map_cons, pop_last_app. cbn [put_node st_coll]. rewrite Hc.
  destruct (ps_stream p) eqn:Es; cbn [put_node st_coll st_active st_nodes].
  - rewrite !emap_set_eq. unfold entry. destruct (ps_name p); auto.
  - rewrite emap_set_eq. split; [unfold entry; destruct (ps_name p); reflexivity|].
    split; [reflexivity|]. exists u. cbn [st_nodes]. rewrite emap_set_eq. reflexivity.
Qed.

Lemma execute_idle w : waits w [] -> push_execute p (ef_out f) self w = w.
Proof. intros [u Hw]. unfold push_execute. rewrite Hw. reflexivity. Qed.

Lemma execute_dead w : st_nodes w self = None -> push_execute p (ef_out f) self w = w.
Proof. intros Hw. unfold push_execute. rewrite Hw. reflexivity. Qed.

Lemma send_dead w v :
  st_nodes w self = None ->
  let w' := anon_item f source session (Some self) w v in
  st_nodes w' self = None /\ st_coll w' = st_coll w /\ st_active w' = st_active w /\
  st_broken w' = st_broken w ++ [source].
Proof.
  intros Hw. unfold anon_item. destruct (ef_fun f v); cbn; rewrite ?Hw; cbn; auto.
Qed.

Lemma run_dead hs w :
  st_nodes w self = None ->
  st_nodes (run hs w) self = None /\ st_coll (run hs w) = st_coll w.
Proof.
  revert w. induction hs as [|h hs IH]; intros w Hw; [auto|].
  unfold run, push_run in *. cbn [fold_left]. destruct h as [v|]; cbn [push_step].
  - destruct (send_dead w v Hw) as (H1 & H2 & _). destruct (IH _ H1) as [I1 I2].
    split; [exact I1|congruence].
  - rewrite execute_dead by exact Hw. apply IH. exact Hw.
Qed.

Lemma run_cons h hs w : run (h :: hs) w = run hs (push_step p f source session self w h).
Proof. reflexivity. Qed.

(** A stream: nothing is collected but the first item. *)
Lemma run_stream hs w c q :
  ps_stream p = true -> st_active w session = true ->
  waits w q -> st_coll w (ps_target p) = Some c ->
  (waits (run hs w) (q ++ sent f hs) /\ st_coll (run hs w) (ps_target p) = Some c /\
   st_active (run hs w) session = true) \/
  (exists x, hd_error (q ++ sent f hs) = Some x /\ In Execute hs /\
     st_nodes (run hs w) self = None /\
     st_coll (run hs w) (ps_target p) = Some (c ++ [entry p (ef_out f) session x])).
Proof.
  intros Hs. revert w q. induction hs as [|h hs IH]; intros w q Ha Hw Hc.
  - left. cbn. rewrite app_nil_r. auto.
  - rewrite run_cons. destruct h as [v|]; cbn [push_step sent flat_map].
    + destruct (ef_fun f v) as [v'|] eqn:Ev.
      * destruct (send_waits w q v v' Ha Hw Ev) as (H1 & H2 & H3).
        specialize (IH _ _ (eq_trans (f_equal (fun g => g session) H3) Ha) H1).
        rewrite H2 in IH. specialize (IH Hc).
        rewrite <- app_assoc in IH. change ([v'] ++ sent f hs) with (v' :: sent f hs) in IH.
        destruct IH as [IH|(x & I1 & I2 & I3)]; [left; exact IH|].
        right. exists x. split; [exact I1|]. split; [right; exact I2|exact I3].
      * destruct (send_fails w q v Hw Ev) as (H1 & H2 & H3).
        specialize (IH _ _ (eq_trans (f_equal (fun g => g session) H3) Ha) H1).
        rewrite H2 in IH. specialize (IH Hc).
        destruct IH as [IH|(x & I1 & I2 & I3)]; [left; exact IH|].
        right. exists x. split; [exact I1|]. split; [right; exact I2|exact I3].
    + destruct q as [|x q].
      * rewrite execute_idle by exact Hw.
        destruct (IH w [] Ha Hw Hc) as [H|(x & I1 & I2 & I3)]; [left; exact H|].
        right. exists x. split; [exact I1|]. split; [right; exact I2|exact I3].
      * right. destruct (execute_waits w c x q Hw Hc) as (H1 & H2 & H3). rewrite Hs in H3.
        destruct (run_dead hs _ H3) as [D1 D2].
        exists x. split; [reflexivity|]. split; [left; reflexivity|].
        split; [exact D1|]. rewrite D2. exact H1.
Qed.

(** Not a stream: what was sent is either collected or waits. *)
Lemma run_plain hs w c q :
  ps_stream p = false -> st_active w session = true ->
  waits w q -> st_coll w (ps_target p) = Some c ->
  exists done rest,
    q ++ sent f hs = done ++ rest /\ waits (run hs w) rest /\
    st_active (run hs w) session = true /\
    st_coll (run hs w) (ps_target p) = Some (c ++ map (entry p (ef_out f) session) done).
Proof.
  intros Hs. revert w q c. induction hs as [|h hs IH]; intros w q c Ha Hw Hc.
  - exists [], q. cbn. rewrite !app_nil_r. auto.
  - rewrite run_cons. destruct h as [v|]; cbn [push_step sent flat_map].
    + destruct (ef_fun f v) as [v'|] eqn:Ev.
      * destruct (send_waits w q v v' Ha Hw Ev) as (H1 & H2 & H3).
        specialize (IH _ _ c (eq_trans (f_equal (fun g => g session) H3) Ha) H1).
        rewrite H2 in IH. specialize (IH Hc). rewrite <- app_assoc in IH. exact IH.
      * destruct (send_fails w q v Hw Ev) as (H1 & H2 & H3).
        specialize (IH _ _ c (eq_trans (f_equal (fun g => g session) H3) Ha) H1).
        rewrite H2 in IH. exact (IH Hc).
    + destruct q as [|x q].
      * rewrite execute_idle by exact Hw. exact (IH w [] c Ha Hw Hc).
      * destruct (execute_waits w c x q Hw Hc) as (H1 & H2 & H3). rewrite Hs in H3.
        destruct (IH _ _ _ (eq_trans (f_equal (fun g => g session) H2) Ha) H3 H1)
          as (done & rest & I1 & I2 & I3 & I4).
        exists (x :: done), rest. cbn [app]. cbn [sent] in I1. rewrite <- I1.
        split; [reflexivity|]. split; [exact I2|]. split; [exact I3|].
        rewrite I4, <- app_assoc. reflexivity.
Qed.

Lemma run_app hs hs' w : run (hs ++ hs') w = run hs' (run hs w).
Proof. unfold run, push_run. apply fold_left_app. Qed.

(** executing the node often enough collects all that waits *)
Lemma run_drain k w c q :
  ps_stream p = false -> length q <= k ->
  waits w q -> st_coll w (ps_target p) = Some c ->
  st_coll (run (repeat Execute k) w) (ps_target p) =
    Some (c ++ map (entry p (ef_out f) session) q).
Proof.
  intros Hs. revert w q c. induction k as [|k IH]; intros w q c Hk Hw Hc.
  - destruct q; [|cbn in Hk; lia]. cbn. rewrite app_nil_r. exact Hc.
  - cbn [repeat]. rewrite run_cons. cbn [push_step]. destruct q as [|x q].
    + rewrite execute_idle by exact Hw. apply IH; [cbn; lia|exact Hw|exact Hc].
    + destruct (execute_waits w c x q Hw Hc) as (H1 & _ & H3). rewrite Hs in H3.
      rewrite (IH _ q _ ltac:(cbn in Hk; lia) H3 H1).
      rewrite <- app_assoc. reflexivity.
Qed.

End Collect.

Section Taken.
Context {V : Type}.
Variables (f : effect V) (source session self : entity).

Let trun := taken_run f source session self.

Lemma taken_waits (w : st V) rs x q :
  waits f session self w (x :: q) ->
  let s := taken_execute self (w, rs) in
  waits f session self (fst s) q /\ snd s = rs ++ [Plain x] /\ st_active (fst s) = st_active w.
Proof.
  intros [u Hw]. unfold taken_execute. rewrite Hw. cbn [nd_queue].
  rewrite rev_map_cons, pop_last_app. cbn. split; [|split; reflexivity].
  exists u. cbn. rewrite emap_set_eq. reflexivity.
Qed.

Lemma taken_idle (w : st V) rs : waits f session self w [] -> taken_execute self (w, rs) = (w, rs).
Proof. intros [u Hw]. unfold taken_execute. rewrite Hw. reflexivity. Qed.

Lemma trun_cons h hs s : trun (h :: hs) s = trun hs (taken_step f source session self s h).
Proof. reflexivity. Qed.

Lemma trun_app hs hs' s : trun (hs ++ hs') s = trun hs' (trun hs s).
Proof. unfold trun, taken_run. apply fold_left_app. Qed.

Lemma trun_spec hs w rs q :
  st_active w session = true -> waits f session self w q ->
  exists done rest,
    q ++ sent f hs = done ++ rest /\ waits f session self (fst (trun hs (w, rs))) rest /\
    st_active (fst (trun hs (w, rs))) session = true /\
    snd (trun hs (w, rs)) = rs ++ map Plain done.
Proof.
  revert w rs q. induction hs as [|h hs IH]; intros w rs q Ha Hw.
  - exists [], q. cbn. rewrite !app_nil_r. auto.
  - rewrite trun_cons. destruct h as [v|]; cbn [taken_step fst snd sent flat_map].
    + destruct (ef_fun f v) as [v'|] eqn:Ev.
      * destruct (send_waits f source session self w q v v' Ha Hw Ev) as (H1 & H2 & H3).
        destruct (IH _ rs _ (eq_trans (f_equal (fun g => g session) H3) Ha) H1) as (d & r & I).
        rewrite <- app_assoc in I. exists d, r. exact I.
      * destruct (send_fails f source session self w q v Hw Ev) as (H1 & H2 & H3).
        exact (IH _ rs _ (eq_trans (f_equal (fun g => g session) H3) Ha) H1).
    + destruct q as [|x q].
      * rewrite taken_idle by exact Hw. exact (IH w rs [] Ha Hw).
      * destruct (taken_waits w rs x q Hw) as (H1 & H2 & H3).
        destruct (taken_execute self (w, rs)) as [w1 rs1]. cbn [fst snd] in *. subst rs1.
        destruct (IH w1 (rs ++ [Plain x]) _ (eq_trans (f_equal (fun g => g session) H3) Ha) H1)
          as (done & rest & I1 & I2 & I3 & I4).
        exists (x :: done), rest. cbn [app]. cbn [sent] in I1. rewrite <- I1.
        split; [reflexivity|]. split; [exact I2|]. split; [exact I3|].
        rewrite I4, <- app_assoc. reflexivity.
Qed.

Lemma trun_drain k (w : st V) rs q :
  length q <= k -> waits f session self w q ->
  snd (trun (repeat Execute k) (w, rs)) = rs ++ map Plain q.
Proof.
  revert w rs q. induction k as [|k IH]; intros w rs q Hk Hw.
  - destruct q; [|cbn in Hk; lia]. cbn. rewrite app_nil_r. reflexivity.
  - cbn [repeat]. rewrite trun_cons. cbn [taken_step]. destruct q as [|x q].
    + rewrite taken_idle by exact Hw. apply IH; [cbn; lia|exact Hw].
    + destruct (taken_waits w rs x q Hw) as (H1 & H2 & H3).
      destruct (taken_execute self (w, rs)) as [w1 rs1]. cbn [fst snd] in *. subst rs1.
      rewrite (IH w1 _ q); [|cbn in Hk; lia|exact H1]. rewrite <- app_assoc. reflexivity.
Qed.

End Taken.

(** * Availability *)

Section Avail.
Context {V : Type}.
Implicit Types (pack : list (stream V)) (a : avail).

Lemma has_anonymous_in a t : has_anonymous a t = true <-> In t (av_anon a).
Proof.
  unfold has_anonymous. rewrite existsb_exists. split.
  - intros (x & Hx & E). destruct (ty_eqb_spec t x); [subst; exact Hx|discriminate].
  - intros H. exists t. split; [exact H|apply ty_eqb_refl].
Qed.

Lemma offers_anon pack a t :
  In t (av_anon (fold_left offer pack a)) <->
  In t (av_anon a) \/ (exists g, In (SAnon g) pack /\ ef_out g = t) \/
  (exists g, In (SDyn g) pack /\ NamedTy (ef_out g) = t).
Proof.
  revert a. induction pack as [|s pack IH]; intros a; cbn [fold_left].
  - split; [auto|]. intros [H|[(g & [] & _)|(g & [] & _)]]. exact H.
  - rewrite IH. destruct s as [f|n f|f]; cbn [offer av_anon].
    + split.
      * intros [[H|H]|[(g & H & E)|(g & H & E)]]; auto.
        -- right; left; exists f; split; [left; reflexivity|exact H].
        -- right; left; exists g; split; [right; exact H|exact E].
        -- right; right; exists g; split; [right; exact H|exact E].
      * intros [H|[(g & [H|H] & E)|(g & [H|H] & E)]]; try discriminate.
        -- left; right; exact H.
        -- injection H as ->. left; left; exact E.
        -- right; left; exists g; auto.
        -- right; right; exists g; auto.
    + assert (Ha : av_anon (match look_name (av_named a) n with
                | None => mkAvail (av_anon a) (av_named a ++ [(n, ef_out f)])
                | Some _ => a end) = av_anon a) by (destruct (look_name (av_named a) n); reflexivity).
      rewrite Ha. split.
      * intros [H|[(g & H & E)|(g & H & E)]]; auto.
        -- right; left; exists g; split; [right; exact H|exact E].
        -- right; right; exists g; split; [right; exact H|exact E].
      * intros [H|[(g & [H|H] & E)|(g & [H|H] & E)]]; try discriminate; auto.
        -- right; left; exists g; auto.
        -- right; right; exists g; auto.
    + split.
      * intros [[H|H]|[(g & H & E)|(g & H & E)]]; auto.
        -- right; right; exists f; split; [left; reflexivity|exact H].
        -- right; left; exists g; split; [right; exact H|exact E].
        -- right; right; exists g; split; [right; exact H|exact E].
      * intros [H|[(g & [H|H] & E)|(g & [H|H] & E)]]; try discriminate.
        -- left; right; exact H.
        -- right; left; exists g; auto.
        -- injection H as ->. left; left; exact E.
        -- right; right; exists g; auto.
Qed.

Definition names_it (n : nat) (s : stream V) : bool :=
  match s with SNamed m _ => Nat.eqb m n | _ => false end.

Lemma offers_named pack a n :
  look_name (av_named (fold_left offer pack a)) n =
  or_else (look_name (av_named a) n)
    (match find (names_it n) pack with Some s => Some (carried s) | None => None end).
Proof.
  revert a. induction pack as [|s pack IH]; intros a; cbn [fold_left find].
  - destruct (look_name (av_named a) n); reflexivity.
  - rewrite IH. destruct s as [f|k f|f]; cbn [offer names_it av_named]; [reflexivity| |reflexivity].
    destruct (look_name (av_named a) k) as [u|] eqn:E.
    + destruct (Nat.eqb_spec k n) as [->|Hne]; [rewrite E; reflexivity|].
      destruct (look_name (av_named a) n); reflexivity.
    + cbn [av_named]. rewrite look_name_snoc.
      destruct (look_name (av_named a) n); [reflexivity|].
      destruct (Nat.eqb k n); reflexivity.
Qed.

Lemma offers_nodup pack a :
  NoDup (map fst (av_named a)) -> NoDup (map fst (av_named (fold_left offer pack a))).
Proof.
  revert a. induction pack as [|s pack IH]; intros a H; cbn [fold_left]; [exact H|].
  apply IH. destruct s as [f|k f|f]; cbn [offer av_named]; try exact H.
  destruct (look_name (av_named a) k) eqn:E; cbn [av_named]; [exact H|].
  rewrite map_app. apply NoDup_app_comm_snoc; [exact H|]. apply look_name_none. exact E.
Qed.

Lemma look_name_in {A} (l : list (nat * A)) n x :
  NoDup (map fst l) -> In (n, x) l -> look_name l n = Some x.
Proof.
  induction l as [|[k y] l IH]; cbn [map fst In look_name]; intros Hn Hin; [contradiction|].
  inversion Hn as [|? ? H1 H2]; subst. destruct Hin as [E|Hin].
  - injection E as -> ->. rewrite Nat.eqb_refl. reflexivity.
  - destruct (Nat.eqb_spec k n) as [->|]; [|apply IH; assumption].
    exfalso. apply H1. apply in_map_iff. exists (n, x). auto.
Qed.

(** a stream other than a dynamically named one is found iff it is provided *)
Lemma available_spec pack s :
  clear_names pack -> is_dynamic s = false ->
  (available (offers pack) s = true <-> provides pack s).
Proof.
  intros Hc Hs. destruct s as [f|n f|f]; cbn [available provides carried is_dynamic] in *; [| |discriminate].
  - rewrite has_anonymous_in. unfold offers. rewrite offers_anon. cbn [avail_empty av_anon In].
    split; [intros [[]|H]; exact H|auto].
  - unfold has_named, offers. rewrite offers_named. cbn [avail_empty av_named look_name or_else].
    destruct (find (names_it n) pack) as [s|] eqn:E.
    + apply find_some in E. destruct E as [Hin Hn].
      destruct s as [g|m g|g]; cbn in Hn; try discriminate. apply Nat.eqb_eq in Hn. subst m.
      cbn [carried]. destruct (ty_eqb_spec (ef_out g) (ef_out f)) as [Et|Et]; split; intros H; auto.
      * exists g. auto.
      * discriminate.
      * destruct H as (h & Hh & Eh). exfalso. apply Et. rewrite <- Eh. apply (Hc n g h); assumption.
    + split; [discriminate|]. intros (g & Hg & _).
      assert (F := find_none _ _ E _ Hg). cbn in F. rewrite Nat.eqb_refl in F. discriminate.
Qed.

Lemma asks_tuple (fs : list (sfilter V)) s :
  asks (FTuple fs) s <-> exists f, In f fs /\ asks f s.
Proof.
  cbn [asks]. induction fs as [|f fs IH]; cbn [fold_right].
  - split; [tauto|]. intros (f & [] & _).
  - rewrite IH. split.
    + intros [H|(g & H & H')]; [exists f|exists g]; split; cbn; auto.
    + intros (g & [->|H] & H'); [auto|]. right. exists g. auto.
Qed.

End Avail.

(** induction over filters *)
Fixpoint sfilter_ind' {V} (P : sfilter V -> Prop)
    (HR : forall pack, P (Require pack)) (HO : forall pack, P (Optional pack))
    (HT : forall fs, (forall f, In f fs -> P f) -> P (FTuple fs)) (f : sfilter V) : P f.
Proof.
  destruct f as [pack|pack|fs]; [apply HR|apply HO|]. apply HT.
  induction fs as [|g fs IH]; intros h Hin; [destruct Hin|].
  destruct Hin as [<-|Hin]; [apply sfilter_ind'; assumption|apply IH; exact Hin].
Defined.

Lemma required_spec {V} (pack : list (stream V)) (f : sfilter V) :
  clear_names pack -> (forall s, asks f s -> is_dynamic s = false) ->
  (required_available (Some (offers pack)) f = true <-> forall s, asks f s -> provides pack s).
Proof.
  intros Hc. induction f as [need|need|fs IH] using sfilter_ind'; intros Hd.
  - cbn [required_available asks] in *. rewrite forallb_forall. split.
    + intros H s Hs. apply available_spec; auto.
    + intros H s Hs. apply available_spec; auto.
  - cbn. split; [intros _ s []|auto].
  - cbn [required_available]. rewrite forallb_forall. split.
    + intros H s Hs. apply asks_tuple in Hs. destruct Hs as (g & Hg & Hs).
      apply (IH g Hg); auto.
      intros s' Hs'. apply Hd. apply asks_tuple. exists g. auto.
    + intros H g Hg. apply (IH g Hg).
      * intros s' Hs'. apply Hd. apply asks_tuple. exists g. auto.
      * intros s Hs. apply H. apply asks_tuple. exists g. auto.
Qed.
