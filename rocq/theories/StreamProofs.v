(** Proofs about streams: the lookups agree with the specification, and the
    routes all deliver the same parcels. *)
From Coq Require Import List Arith Bool Lia.
From Verif Require Import Base StreamModel StreamSpec.
Import ListNotations.

Lemma ty_eqb_spec a b : reflect (a = b) (ty_eqb a b).
Proof.
  revert b. induction a as [x|a IH]; intros [y|b]; cbn; try (constructor; discriminate).
  - destruct (Nat.eqb_spec x y); constructor; congruence.
  - destruct (IH b); constructor; congruence.
Qed.

Lemma ty_eqb_refl a : ty_eqb a a = true.
Proof. destruct (ty_eqb_spec a a); congruence. Qed.

(** * The table *)

Section Table.
Context {V : Type}.
Implicit Types (cs : list (stream V * entity)) (m : tmap).

Lemma look_ty_snoc l t e u :
  look_ty (l ++ [(t, e)]) u = or_else (look_ty l u) (if ty_eqb t u then Some e else None).
Proof.
  induction l as [|[a x] l IH]; cbn; [reflexivity|].
  destruct (ty_eqb a u); [reflexivity|exact IH].
Qed.

Lemma look_name_snoc {A} (l : list (nat * A)) n a k :
  look_name (l ++ [(n, a)]) k = or_else (look_name l k) (if Nat.eqb n k then Some a else None).
Proof.
  induction l as [|[b x] l IH]; cbn; [reflexivity|].
  destruct (Nat.eqb b k); [reflexivity|exact IH].
Qed.

Lemma look_name_none {A} (l : list (nat * A)) n :
  look_name l n = None <-> ~ In n (map fst l).
Proof.
  induction l as [|[b x] l IH]; cbn; [tauto|].
  destruct (Nat.eqb_spec b n); split; intros H; try discriminate.
  - exfalso; apply H; auto.
  - rewrite IH in H. intros [E|E]; congruence.
  - rewrite IH. intros E. apply H. auto.
Qed.

(** what one declaration adds *)
Lemma declare_ty m (d : stream V * entity) u :
  look_ty (tm_anon (declare (fst d) (snd d) m)) u =
  or_else (look_ty (tm_anon m) u) (if is_typed u d then Some (snd d) else None : option entity).
Proof.
  destruct d as [s e]; destruct s as [f|n f|f]; unfold is_typed; cbn [declare fst snd carried].
  - unfold add_anonymous. destruct (look_ty (tm_anon m) (ef_out f)) as [x|] eqn:E; cbn [tm_anon].
    + destruct (look_ty (tm_anon m) u) as [y|] eqn:Eu; cbn [or_else]; [reflexivity|].
      destruct (ty_eq_dec (ef_out f) u); congruence.
    + rewrite look_ty_snoc. destruct (look_ty (tm_anon m) u); cbn [or_else]; [reflexivity|].
      destruct (ty_eqb_spec (ef_out f) u), (ty_eq_dec (ef_out f) u); congruence.
  - unfold add_named. destruct (look_name (tm_named m) n); cbn [tm_anon];
      destruct (look_ty (tm_anon m) u); reflexivity.
  - unfold add_anonymous.
    destruct (look_ty (tm_anon m) (NamedTy (ef_out f))) as [x|] eqn:E; cbn [tm_anon].
    + destruct (look_ty (tm_anon m) u) as [y|] eqn:Eu; cbn [or_else]; [reflexivity|].
      destruct (ty_eq_dec (NamedTy (ef_out f)) u); congruence.
    + rewrite look_ty_snoc. destruct (look_ty (tm_anon m) u); cbn [or_else]; [reflexivity|].
      destruct (ty_eqb_spec (NamedTy (ef_out f)) u), (ty_eq_dec (NamedTy (ef_out f)) u); congruence.
Qed.

Lemma declare_name m (d : stream V * entity) n :
  look_name (tm_named (declare (fst d) (snd d) m)) n =
  or_else (look_name (tm_named m) n)
          (if is_named n d then Some (carried (fst d), snd d : entity) else None).
Proof.
  destruct d as [s e]; destruct s as [f|k f|f]; unfold is_named; cbn [declare fst snd carried].
  - unfold add_anonymous. destruct (look_ty (tm_anon m) (ef_out f)); cbn [tm_named];
      destruct (look_name (tm_named m) n); reflexivity.
  - unfold add_named. destruct (look_name (tm_named m) k) as [x|] eqn:E; cbn [tm_named].
    + destruct (look_name (tm_named m) n) as [y|] eqn:Eu; cbn [or_else]; [reflexivity|].
      destruct (Nat.eq_dec k n); congruence.
    + rewrite look_name_snoc. destruct (look_name (tm_named m) n); cbn [or_else]; [reflexivity|].
      destruct (Nat.eqb_spec k n), (Nat.eq_dec k n); congruence.
  - unfold add_anonymous. destruct (look_ty (tm_anon m) (NamedTy (ef_out f))); cbn [tm_named];
      destruct (look_name (tm_named m) n); reflexivity.
Qed.

Lemma declare_all_ty cs m u :
  look_ty (tm_anon (declare_all cs m)) u =
  or_else (look_ty (tm_anon m) u) (connected_type cs u).
Proof.
  unfold declare_all. revert m. induction cs as [|d cs IH]; intros m; cbn [fold_left].
  - destruct (look_ty (tm_anon m) u); reflexivity.
  - rewrite IH, declare_ty. unfold connected_type. cbn [find].
    destruct (look_ty (tm_anon m) u); [reflexivity|].
    destruct (is_typed u d); reflexivity.
Qed.

Lemma declare_all_name cs m n :
  look_name (tm_named (declare_all cs m)) n =
  or_else (look_name (tm_named m) n)
    (match find (is_named n) cs with Some c => Some (carried (fst c), snd c) | None => None end).
Proof.
  unfold declare_all. revert m. induction cs as [|d cs IH]; intros m; cbn [fold_left].
  - destruct (look_name (tm_named m) n); reflexivity.
  - rewrite IH, declare_name. cbn [find].
    destruct (look_name (tm_named m) n); [reflexivity|].
    destruct (is_named n d); reflexivity.
Qed.

Lemma declare_nodup (d : stream V * entity) m :
  NoDup (map fst (tm_named m)) -> NoDup (map fst (tm_named (declare (fst d) (snd d) m))).
Proof.
  intros H. destruct d as [s e]; destruct s as [f|k f|f]; cbn [declare fst snd].
  - unfold add_anonymous. destruct (look_ty _ _); exact H.
  - unfold add_named. destruct (look_name (tm_named m) k) eqn:E; cbn [tm_named]; [exact H|].
    rewrite map_app. apply NoDup_app_comm_snoc; [exact H|].
    apply look_name_none. exact E.
  - unfold add_anonymous. destruct (look_ty _ _); exact H.
Qed.

Lemma declare_all_nodup cs m :
  NoDup (map fst (tm_named m)) -> NoDup (map fst (tm_named (declare_all cs m))).
Proof.
  unfold declare_all. revert m. induction cs as [|d cs IH]; intros m H; cbn [fold_left]; [exact H|].
  apply IH. apply declare_nodup. exact H.
Qed.

Lemma specific_fst t (l : list (nat * (ty * entity))) n :
  In n (map fst (specific_of t l)) -> In n (map fst l).
Proof.
  induction l as [|[k [u e]] l IH]; cbn; [tauto|].
  destruct (ty_eqb u t); cbn; intuition.
Qed.

Lemma specific_look t (l : list (nat * (ty * entity))) n :
  NoDup (map fst l) ->
  look_name (specific_of t l) n =
  match look_name l n with Some (u, e) => if ty_eqb u t then Some e else None | None => None end.
Proof.
  induction l as [|[k [u e]] l IH]; cbn [map fst]; intros H; [reflexivity|].
  inversion H as [|? ? H1 H2]; subst. cbn [specific_of look_name].
  destruct (Nat.eqb_spec k n) as [->|Hne].
  - destruct (ty_eqb u t) eqn:E; cbn [look_name]; [rewrite Nat.eqb_refl; reflexivity|].
    apply look_name_none. intros Hin. apply H1. apply (specific_fst t). exact Hin.
  - destruct (ty_eqb u t) eqn:E; cbn [look_name].
    + destruct (Nat.eqb_spec k n); [contradiction|]. apply IH. exact H2.
    + apply IH. exact H2.
Qed.

(** the destination that a named target stands for *)
Definition dest_of (t : ty) (n : nat) (o : option ntarget) : option (destination (V := V)) :=
  match o with
  | Some (TValue e) => Some (e, t, Plain)
  | Some (TNamedValue e) => Some (e, NamedTy t, Named n)
  | None => None
  end.

Lemma get_named_spec cs t n :
  get_named (declare_all cs tmap_empty) t n = connected_name cs n t.
Proof.
  unfold get_named, connected_name. rewrite declare_all_name. cbn [tmap_empty tm_named look_name or_else].
  destruct (find (is_named n) cs) as [c|]; [|reflexivity].
  destruct (ty_eqb_spec (carried (fst c)) t), (ty_eq_dec (carried (fst c)) t); congruence.
Qed.

Lemma get_anonymous_spec cs t :
  get_anonymous (declare_all cs tmap_empty) t = connected_type cs t.
Proof.
  unfold get_anonymous. rewrite declare_all_ty. reflexivity.
Qed.

Lemma lookup_spec cs t n :
  dest_of t n (get_named_or_anonymous (declare_all cs tmap_empty) t n) =
  destination_named cs n t.
Proof.
  unfold get_named_or_anonymous, destination_named.
  rewrite get_named_spec, !get_anonymous_spec.
  destruct (connected_name cs n t); [reflexivity|].
  destruct (connected_type cs (NamedTy t)); [reflexivity|].
  destruct (connected_type cs t); reflexivity.
Qed.

(** the snapshot taken for channels and buffers answers like the table *)
Lemma ntargets_agree cs t n :
  ntargets_get (ntargets_new t (Some (declare_all cs tmap_empty))) n =
  get_named_or_anonymous (declare_all cs tmap_empty) t n.
Proof.
  unfold ntargets_get, ntargets_new, get_named_or_anonymous. cbn [nt_specific nt_general nt_anonymous].
  rewrite specific_look; [reflexivity|].
  apply declare_all_nodup. constructor.
Qed.

End Table.

(** * Sending one parcel *)

Section Send.
Context {V : Type}.
Implicit Types (w : st V) (p : parcel (V := V)).

(** a failed parcel leaves an entry in one of two lists *)
Inductive complaint := Reported (source : entity) | Cancelled (self : entity).

Definition complain (c : complaint) w (r : option (st V)) : st V :=
  match c with
  | Reported s => report_unhandled s w r
  | Cancelled s => perform s w r
  end.

Definition parcel_try w p : option (st V) :=
  match pc_value p with
  | None => None
  | Some v =>
      match pc_to p with
      | None => Some w
      | Some (e, t, form) => send_output (pc_session p) (Some e) t (form v) w
      end
  end.

Definition parcel_step (c : complaint) w p : st V := complain c w (parcel_try w p).

Lemma named_item_parcel cs f src ses w n v :
  named_item f src ses (ntargets_new (ef_out f) (Some (declare_all cs tmap_empty))) w (n, v) =
  parcel_step (Reported src) w (mkParcel ses (ef_fun f v) (destination_named cs n (ef_out f))).
Proof.
  unfold named_item, parcel_step, parcel_try. cbn [fst snd complain pc_value pc_to pc_session].
  rewrite ntargets_agree, <- lookup_spec.
  destruct (ef_fun f v) as [v'|]; [|reflexivity].
  destruct (get_named_or_anonymous _ _ _) as [[e|e]|]; reflexivity.
Qed.

Lemma anon_item_parcel cs f src ses w v :
  anon_item f src ses (get_anonymous (declare_all cs tmap_empty) (ef_out f)) w v =
  parcel_step (Reported src) w (mkParcel ses (ef_fun f v) (destination_unnamed cs (ef_out f))).
Proof.
  unfold anon_item, parcel_step, parcel_try. cbn [complain pc_value pc_to pc_session].
  rewrite get_anonymous_spec. unfold destination_unnamed.
  destruct (ef_fun f v) as [v'|]; [|reflexivity].
  destruct (connected_type cs (ef_out f)); reflexivity.
Qed.

Lemma fold_map {A B C} (g : A -> B -> A) (h : C -> B) l a :
  fold_left g (map h l) a = fold_left (fun a c => g a (h c)) l a.
Proof. revert a. induction l as [|c l IH]; intros a; cbn; [reflexivity|apply IH]. Qed.

Lemma fold_ext {A B} (g h : A -> B -> A) l a :
  (forall a b, g a b = h a b) -> fold_left g l a = fold_left h l a.
Proof. intros E. revert a. induction l as [|b l IH]; intros a; cbn; [reflexivity|]. rewrite E. apply IH. Qed.

(** all routes send the same parcels *)
Lemma send_all_parcels r cs s src ses items w :
  send_all r cs s src ses items w =
  fold_left (parcel_step (Reported src)) (parcels cs s ses items) w.
Proof.
  unfold parcels. rewrite fold_map.
  destruct r, s as [f|n f|f]; cbn [send_all make_handle process_buffer defer_buffer apply_command];
    unfold run_channel; rewrite ?fold_map; apply fold_ext; intros w' i; cbn [channel_send effect_of destination_of];
    try apply anon_item_parcel; try apply named_item_parcel;
    destruct i as [k v]; apply named_item_parcel.
Qed.

(** * Sending many parcels *)

Definition fitting w p : Prop :=
  forall e t form n, pc_to p = Some (e, t, form) -> st_nodes w e = Some n -> accepts n t.

Lemma arrivals_app a e (ps qs : list (parcel (V := V))) :
  arrivals a e (ps ++ qs) = arrivals a e ps ++ arrivals a e qs.
Proof. unfold arrivals. apply flat_map_app. Qed.

Lemma waiting_nil (n : node V) : waiting n [] = nd_queue n.
Proof. unfold waiting. destruct (nd_ty n); reflexivity. Qed.

Lemma node_eta (n : node V) : mkNode (nd_ty n) (nd_unused n) (nd_queue n) = n.
Proof. destruct n; reflexivity. Qed.

Lemma is_alive_some w e n : st_nodes w e = Some n -> is_alive w e = true.
Proof. unfold is_alive. intros ->. reflexivity. Qed.

(** one parcel *)
Lemma parcel_step_spec c w p :
  fitting w p ->
  let w' := parcel_step c w p in
  delivered [p] w w' /\
  (match c with
   | Reported s => st_broken w' = st_broken w ++ repeat s (failures w [p]) /\ st_cancel w' = st_cancel w
   | Cancelled s => st_cancel w' = st_cancel w ++ repeat s (failures w [p]) /\ st_broken w' = st_broken w
   end).
Proof.
  intros Hf w'. unfold w', parcel_step, parcel_try. clear w'.
  destruct p as [ses val dst]. unfold fitting in Hf. cbn [pc_to] in Hf.
  unfold delivered, failures, arrivals. cbn [flat_map filter pc_value pc_to].
  unfold arrives, wakes_up, undeliverable. cbn [pc_value pc_to pc_session].
  destruct val as [v|].
  2:{ (* side effect failed *)
      split.
      - repeat split; destruct c; cbn; intros; rewrite ?app_nil_r; auto;
          rewrite H, waiting_nil, node_eta; reflexivity.
      - destruct c; cbn; split; reflexivity. }
  destruct dst as [[[e t] form]|].
  2:{ split.
      - repeat split; destruct c; cbn; intros; rewrite ?app_nil_r; auto;
          rewrite H, waiting_nil, node_eta; reflexivity.
      - destruct c; cbn; rewrite ?app_nil_r; split; reflexivity. }
  specialize (Hf e t form). cbn [send_output].
  destruct (st_nodes w e) as [n|] eqn:En.
  2:{ (* target gone *)
      split.
      - split; [|split; [|split; [|split]]].
        + intros e' n' He'. destruct (Nat.eq_dec e e') as [->|Hne]; [congruence|].
          rewrite app_nil_r, waiting_nil, node_eta. destruct c; exact He'.
        + intros e' He'. destruct c; exact He'.
        + unfold is_alive at 1. rewrite En. destruct c; cbn; rewrite app_nil_r; reflexivity.
        + destruct c; reflexivity.
        + destruct c; reflexivity.
      - unfold is_alive. rewrite En. destruct c; cbn; split; reflexivity. }
  specialize (Hf n eq_refl eq_refl).
  unfold give_input. destruct (st_active w ses) eqn:Ea; cbn [negb].
  2:{ split.
      - split; [|split; [|split; [|split]]].
        + intros e' n' He'. destruct (Nat.eq_dec e e') as [->|Hne];
            rewrite app_nil_r, waiting_nil, node_eta; destruct c; exact He'.
        + intros e' He'. destruct c; exact He'.
        + rewrite andb_false_r. destruct c; cbn; rewrite app_nil_r; reflexivity.
        + destruct c; reflexivity.
        + destruct c; reflexivity.
      - rewrite (is_alive_some _ _ _ En). destruct c; cbn; rewrite ?app_nil_r; split; reflexivity. }
  rewrite (is_alive_some _ _ _ En). cbn [andb negb filter length repeat].
  destruct Hf as [Ht|[Ht Hu]]; rewrite Ht.
  - rewrite ty_eqb_refl. split.
    + split; [|split; [|split; [|split]]].
      * intros e' n' He'. destruct (Nat.eq_dec e e') as [->|Hne].
        -- assert (n' = n) by congruence. subst n'. unfold waiting. rewrite Ht.
           destruct c; cbn; rewrite emap_set_eq; reflexivity.
        -- rewrite app_nil_r, waiting_nil, node_eta.
           destruct c; cbn; rewrite emap_set_neq by congruence; exact He'.
      * intros e' He'. destruct (Nat.eq_dec e e') as [->|Hne]; [congruence|].
        destruct c; cbn; rewrite emap_set_neq by congruence; exact He'.
      * destruct c; reflexivity.
      * destruct c; reflexivity.
      * destruct c; reflexivity.
    + destruct c; cbn; rewrite app_nil_r; split; reflexivity.
  - rewrite Hu. split.
    + split; [|split; [|split; [|split]]].
      * intros e' n' He'. destruct (Nat.eq_dec e e') as [->|Hne].
        -- assert (n' = n) by congruence. subst n'. unfold waiting. rewrite Ht.
           destruct c; cbn; rewrite He'; f_equal; destruct n; cbn in *; subst; reflexivity.
        -- rewrite app_nil_r, waiting_nil, node_eta. destruct c; exact He'.
      * intros e' He'. destruct c; exact He'.
      * destruct c; reflexivity.
      * destruct c; reflexivity.
      * destruct c; reflexivity.
    + destruct c; cbn; rewrite app_nil_r; split; reflexivity.
Qed.

Lemma delivered_alive ps w w' :
  delivered ps w w' -> forall e, is_alive w' e = is_alive w e.
Proof.
  intros (H1 & H2 & _) e. unfold is_alive. destruct (st_nodes w e) as [n|] eqn:E.
  - rewrite (H1 _ _ E). reflexivity.
  - rewrite (H2 _ E). reflexivity.
Qed.

Lemma delivered_fitting ps w w' q :
  delivered ps w w' -> fitting w q -> fitting w' q.
Proof.
  intros (H1 & H2 & _) Hq e t form n Hto Hn.
  destruct (st_nodes w e) as [n0|] eqn:E.
  - rewrite (H1 _ _ E) in Hn. injection Hn as <-.
    specialize (Hq _ _ _ _ Hto E). exact Hq.
  - rewrite (H2 _ E) in Hn. discriminate.
Qed.

Lemma delivered_app ps qs w w' w'' :
  delivered ps w w' -> delivered qs w' w'' -> delivered (ps ++ qs) w w''.
Proof.
  intros Hd (G1 & G2 & G3 & G4 & G5).
  pose proof (delivered_alive _ _ _ Hd) as Hal.
  destruct Hd as (H1 & H2 & H3 & H4 & H5).
  split; [|split; [|split; [|split]]].
  - intros e n E. specialize (H1 _ _ E). rewrite (G1 _ _ H1). rewrite H4, arrivals_app.
    f_equal. unfold waiting. cbn [nd_ty nd_unused nd_queue].
    destruct (nd_ty n); [|reflexivity]. rewrite rev_app_distr, app_assoc. reflexivity.
  - intros e E. apply G2, H2, E.
  - rewrite G3, H3, flat_map_app, app_assoc. f_equal. rewrite H4.
    apply flat_map_ext. intros q. unfold wakes_up.
    destruct (pc_value q), (pc_to q) as [[[x y] z]|]; try reflexivity. rewrite Hal. reflexivity.
  - congruence.
  - congruence.
Qed.

Lemma delivered_nil w : delivered [] w w.
Proof.
  repeat split; cbn; intros; rewrite ?app_nil_r; auto.
  rewrite waiting_nil, node_eta. assumption.
Qed.

Lemma failures_cons w p ps : failures w (p :: ps) = failures w [p] + failures w ps.
Proof.
  unfold failures. cbn [filter]. destruct (undeliverable (is_alive w) p); reflexivity.
Qed.

Lemma failures_alive w w' ps :
  (forall e, is_alive w' e = is_alive w e) -> failures w' ps = failures w ps.
Proof.
  intros H. unfold failures. f_equal. apply filter_ext. intros p. unfold undeliverable.
  destruct (pc_value p), (pc_to p) as [[[x y] z]|]; try reflexivity. rewrite H. reflexivity.
Qed.

Lemma parcels_spec c ps w :
  (forall p, In p ps -> fitting w p) ->
  let w' := fold_left (parcel_step c) ps w in
  delivered ps w w' /\
  (match c with
   | Reported s => st_broken w' = st_broken w ++ repeat s (failures w ps) /\ st_cancel w' = st_cancel w
   | Cancelled s => st_cancel w' = st_cancel w ++ repeat s (failures w ps) /\ st_broken w' = st_broken w
   end).
Proof.
  revert w. induction ps as [|p ps IH]; intros w Hf; cbn [fold_left].
  - split; [apply delivered_nil|]. destruct c; cbn; rewrite app_nil_r; split; reflexivity.
  - destruct (parcel_step_spec c w p (Hf p (or_introl eq_refl))) as [Hd Hc].
    destruct (IH (parcel_step c w p)) as [Hd' Hc'].
    { intros q Hq. apply (delivered_fitting _ _ _ _ Hd). apply Hf. right. exact Hq. }
    split; [exact (delivered_app [p] ps _ _ _ Hd Hd')|].
    rewrite (failures_alive w _ ps (delivered_alive _ _ _ Hd)) in Hc'.
    destruct c; rewrite failures_cons, repeat_app; destruct Hc as [Hc1 Hc2], Hc' as [Hc1' Hc2'];
      rewrite Hc1', Hc2', Hc1, Hc2, app_assoc; split; reflexivity.
Qed.

End Send.
