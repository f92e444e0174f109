(** Lemmas about hints, joins of layouts and joined JSON values. *)
From Coq Require Import String.
From Verif Require Import Base RosterModel BufferModel BufferProofs GateModel GateSpec JoinModel JoinSpec JoinProofs
  LayoutModel LayoutSpec LayoutProofs.

Section H.
Context (ta tj : nat).

Lemma fold_fields fields e :
  fold_left (fun e p => set_hint e (Name (fst p)) (kind_hint ta tj (snd p))) fields e
  = set_all (map (fun p : string * bkind => (Name (fst p), kind_hint ta tj (snd p))) fields) e.
Proof.
  unfold set_all. revert e. induction fields as [|p l IH]; intros e; [reflexivity|].
  cbn [fold_left map fst snd]. apply IH.
Qed.

Lemma names_nodup (fields : list (string * bkind)) : NoDup (map fst fields) ->
  NoDup (map fst (map (fun p : string * bkind => (Name (fst p), kind_hint ta tj (snd p))) fields)).
Proof.
  intros H. rewrite map_map. cbn [fst].
  replace (map (fun x : string * bkind => Name (fst x)) fields) with (map Name (map fst fields))
    by apply map_map.
  apply FinFun.Injective_map_NoDup; [intros x y [= ->]; reflexivity|exact H].
Qed.

Lemma rev_pairs (h : hint) (l : list ident) i x :
  In (i, x) (rev (map (fun i => (i, h)) l)) <-> In i l /\ x = h.
Proof.
  rewrite <- in_rev, in_map_iff. split.
  - intros [j [[= <- <-] Hj]]. auto.
  - intros [Hi ->]. exists i. auto.
Qed.

Lemma hints_are L ids : good_layout L -> NoDup ids ->
  match hints ta tj L ids with
  | inr h => (forall i x, In (i, x) h <-> In i ids /\ exists k, asks L i k /\ x = kind_hint ta tj k) /\
             (forall i k m, (exists n, i = Name n) \/ L = LOne k -> In (i, k) (wanted L m) ->
                (exists f, L = LStruct f) \/ L = LOne k -> In i ids)
  | inl c => exists i k, ~ In i ids /\ In i (ic_missing c) /\ forall m, In (i, k) (wanted L m)
  end.
Proof.
  intros Hg Hn. destruct L as [fields|k|k| | |]; unfold hints; cbn [asks].
  - rewrite fold_fields. cbn [good_layout] in Hg.
    pose proof (set_all_done (map (fun p : string * bkind => (Name (fst p), kind_hint ta tj (snd p))) fields)
      ids (names_nodup fields Hg)) as H.
    destruct (evaluate _) as [c|h].
    + destruct H as [[i Hi] H]. pose proof Hi as Hi'. apply H in Hi'. destruct Hi' as [Hl Hni].
      rewrite map_map in Hl. apply in_map_iff in Hl. destruct Hl as [[n k] [E Hp]]. cbn [fst] in E. subst i.
      exists (Name n), k. split; [exact Hni|]. split; [exact Hi|]. intros m. cbn [wanted]. apply in_map_iff.
      exists (n, k). auto.
    + destruct H as [H1 H2]. split.
      * intros i x. rewrite H2, in_map_iff. split.
        -- intros [[[n k] [[= <- <-] Hp]] Hi]. split; [exact Hi|]. exists k. split; [|reflexivity].
           exists n. auto.
        -- intros [Hi [k [[n [-> Hp]] ->]]]. split; [|exact Hi]. exists (n, k). auto.
      * intros i k m _ Hw _. apply H1. cbn [wanted] in Hw. apply in_map_iff in Hw.
        destruct Hw as [[n k'] [[= <- <-] Hp]]. rewrite map_map. apply in_map_iff. exists (n, k'). auto.
  - pose proof (set_all_done [(Index 0, kind_hint ta tj k)] ids) as H.
    cbn [set_all fold_left fst snd] in H. cbn [map fst] in H.
    specialize (H ltac:(constructor; [intros []|constructor])).
    change (match evaluate (set_hint (mk_heval ids [] no_incompat) (Index 0) (kind_hint ta tj k)) with
            | inr h => (forall i x, In (i, x) h <-> In i ids /\ (exists k', (i = Index 0 /\ k' = k) /\ x = kind_hint ta tj k')) /\
             (forall i k' m, (exists n, i = Name n) \/ LOne k = LOne k' -> In (i, k') (wanted (LOne k) m) ->
                (exists f, LOne k = LStruct f) \/ LOne k = LOne k' -> In i ids)
            | inl c => exists i k', ~ In i ids /\ In i (ic_missing c) /\ forall m : bmap, In (i, k') (wanted (LOne k) m)
            end).
    destruct (evaluate _) as [c|h].
    + destruct H as [[i Hi] H]. pose proof Hi as Hi'. apply H in Hi'. destruct Hi' as [[<-|[]] Hni].
      exists (Index 0), k. split; [exact Hni|]. split; [exact Hi|]. intros m. left. reflexivity.
    + destruct H as [H1 H2]. split.
      * intros i x. rewrite H2. cbn [In]. split.
        -- intros [[[= <- <-]|[]] Hi]. split; [exact Hi|]. exists k. auto.
        -- intros [Hi [k' [[-> ->] ->]]]. split; [|exact Hi]. auto.
      * intros i k' m _ Hw _. cbn [wanted] in Hw. destruct Hw as [[= <- <-]|[]]. apply H1. left. reflexivity.
  - rewrite hint_all_is by exact Hn. split.
    + intros i x. rewrite rev_pairs, filter_In. split.
      * intros [[Hi Hf] ->]. split; [exact Hi|]. exists k. split; [|reflexivity].
        split; [|reflexivity]. destruct i as [n|n]; [discriminate|eauto].
      * intros [Hi [k' [[[n ->] ->] ->]]]. auto.
    + intros i k' m _ _ [[f H]|H]; discriminate.
  - rewrite hint_all_is by exact Hn. split.
    + intros i x. rewrite rev_pairs, filter_In. split.
      * intros [[Hi Hf] ->]. split; [exact Hi|]. exists KJson. split; [|reflexivity].
        split; [|reflexivity]. destruct i as [n|n]; [eauto|discriminate].
      * intros [Hi [k' [[[n ->] ->] ->]]]. auto.
    + intros i k' m _ _ [[f H]|H]; discriminate.
  - rewrite hint_all_is by exact Hn. split.
    + intros i x. rewrite rev_pairs, filter_In. split.
      * intros [[Hi Hf] ->]. split; [exact Hi|]. exists KJson. auto.
      * intros [Hi [k' [-> ->]]]. auto.
    + intros i k' m _ _ [[f H]|H]; discriminate.
  - rewrite hint_all_is by exact Hn. split.
    + intros i x. rewrite rev_pairs, filter_In. split.
      * intros [[Hi Hf] ->]. split; [exact Hi|]. exists KAny. auto.
      * intros [Hi [k' [-> ->]]]. auto.
    + intros i k' m _ _ [[f H]|H]; discriminate.
Qed.

End H.

(** ** Joins *)

Section J.
Context {V : Type} (ser : nat -> V -> option json).

Lemma held_bcont (bufs : emap (bufnode V)) b s : held bufs b s = bcont bufs b s.
Proof. reflexivity. Qed.

Lemma newest_iter (st : storage V) s : newest st s = last_opt (iter st s).
Proof.
  unfold newest, iter. destruct (queues st s) as [q|]; [|reflexivity].
  destruct q as [|x q]; [reflexivity|]. cbn [rev]. rewrite last_opt_app. reflexivity.
Qed.

Lemma fetch_ref_ok r types bufs s (d : bref) (b : abuf) k :
  downcast r b k = Some d -> types (ab_id b) = Some (ab_ty b) ->
  held bufs (ab_id b) s <> [] ->
  (ab_join b = Clone -> (forall t, k <> KBuf t) /\ r_clone r (ab_ty b) = true) ->
  (k = KJson -> forall v, In v (held bufs (ab_id b) s) -> ser (ab_ty b) v <> None) ->
  exists bufs' g, fetch_ref ser r types bufs s d = (bufs', Some g) /\
    expected ser k b (held bufs (ab_id b) s) = Some g /\
    forall b' s', held bufs' b' s'
      = if Nat.eqb b' (ab_id b) && Nat.eqb s' s && is_pull (effective k b)
        then tl (held bufs (ab_id b) s) else held bufs b' s'.
Proof.
  intros Hd Ht Hne Hcl Hs. pose proof (downcast_is _ _ _ _ Hd) as [Ek [Ei [Et [Ej _]]]].
  unfold fetch_ref. rewrite Ei, Ht, Ek, Et, Ej, Nat.eqb_refl.
  destruct (bufs (ab_id b)) as [n|] eqn:En; [|unfold held in Hne; rewrite En in Hne; congruence].
  assert (Hh : held bufs (ab_id b) s = iter (bn_store n) s) by (unfold held; rewrite En; reflexivity).
  destruct (iter (bn_store n) s) as [|v l] eqn:El; [congruence|].
  assert (Hf : forall f, exists bufs', fetch_one bufs (ab_id b) f s = (bufs', Some v) /\
    forall b' s', held bufs' b' s' = if Nat.eqb b' (ab_id b) && Nat.eqb s' s && is_pull f
        then tl (held bufs (ab_id b) s) else held bufs b' s').
  { intros f. destruct (fetch_one_ok bufs (ab_id b) f s v) as [bufs' [E [_ C]]].
    - rewrite <- held_bcont, Hh. reflexivity.
    - exists bufs'. split; [exact E|]. intros b' s'. rewrite held_bcont, C. reflexivity. }
  rewrite Hh in *.
  destruct k as [|t|t|t|]; cbn [expected effective].
  - destruct (ab_join b).
    + destruct (Hf Pull) as [bufs' [E C]]. rewrite E. exists bufs', (GVal v).
      split; [reflexivity|]. split; [reflexivity|]. exact C.
    + destruct (Hcl eq_refl) as [_ Hc]. rewrite Hc.
      destruct (Hf Clone) as [bufs' [E C]]. rewrite E. exists bufs', (GVal v).
      split; [reflexivity|]. split; [reflexivity|]. exact C.
  - destruct (Hf Pull) as [bufs' [E C]]. rewrite E. exists bufs', (GVal v).
    split; [reflexivity|]. split; [reflexivity|].
    destruct (ab_join b); [exact C|]. destruct (Hcl eq_refl) as [Hk _]. destruct (Hk t eq_refl).
  - destruct (Hf (ab_join b)) as [bufs' [E C]]. rewrite E. exists bufs', (GVal v).
    split; [reflexivity|]. split; [reflexivity|]. exact C.
  - destruct (Hf Clone) as [bufs' [E C]]. rewrite E. exists bufs', (GVal v).
    split; [reflexivity|]. split; [reflexivity|]. exact C.
  - destruct (ab_join b).
    + destruct (Hf Pull) as [bufs' [E C]]. rewrite E. cbn [hd_error].
      destruct (ser (ab_ty b) v) as [j|] eqn:Es; [|destruct (Hs eq_refl v); [left; reflexivity|exact Es]].
      exists bufs', (GJson j). split; [reflexivity|]. split; [reflexivity|]. exact C.
    + rewrite newest_iter, El.
      destruct (rev_case (v :: l)) as [E0|[l' [x E0]]]; [discriminate|]. rewrite E0, last_opt_app.
      destruct (ser (ab_ty b) x) as [j|] eqn:Es.
      2:{ destruct (Hs eq_refl x); [rewrite E0; apply in_or_app; right; left; reflexivity|exact Es]. }
      exists bufs, (GJson j). split; [reflexivity|]. split; [reflexivity|]. intros b' s'.
      cbn [is_pull]. rewrite andb_false_r. reflexivity.
Qed.

(** All buffers of a layout. *)
Lemma fetch_layout_ok r types s : forall (l : list (ident * bkind * abuf)) ds bufs,
  Forall2 (fun p q => fst (fst p) = fst q /\ downcast r (snd p) (snd (fst p)) = Some (snd q)) l ds ->
  NoDup (map (fun p => ab_id (snd p)) l) ->
  (forall p, In p l -> types (ab_id (snd p)) = Some (ab_ty (snd p)) /\
     held bufs (ab_id (snd p)) s <> [] /\
     (ab_join (snd p) = Clone -> (forall t, snd (fst p) <> KBuf t) /\ r_clone r (ab_ty (snd p)) = true) /\
     (snd (fst p) = KJson -> forall v, In v (held bufs (ab_id (snd p)) s) -> ser (ab_ty (snd p)) v <> None)) ->
  exists bufs' vs, fetch_layout ser r types bufs s ds = (bufs', Some vs) /\
    Forall2 (fun p q => fst (fst p) = fst q /\
       expected ser (snd (fst p)) (snd p) (held bufs (ab_id (snd p)) s) = Some (snd q)) l vs /\
    forall b' s', held bufs' b' s'
      = if Nat.eqb s' s && existsb (fun p => Nat.eqb b' (ab_id (snd p))
                                            && is_pull (effective (snd (fst p)) (snd p))) l
        then tl (held bufs b' s') else held bufs b' s'.
Proof.
  induction l as [|[[i k] b] l IH]; intros ds bufs Hd Hn Hall.
  - inversion Hd; subst. exists bufs, []. split; [reflexivity|]. split; [constructor|].
    intros. cbn [existsb]. rewrite andb_false_r. reflexivity.
  - inversion Hd as [|x [i' d] y ds' [E1 E2] Hds]; subst. cbn [fst snd] in *. subst i'.
    cbn [map snd] in Hn. inversion Hn as [|x y Hx Hy]; subst.
    destruct (Hall (i, k, b) (or_introl eq_refl)) as [Ht [Hne [Hcl Hs]]]. cbn [fst snd] in *.
    destruct (fetch_ref_ok r types bufs s d b k E2 Ht Hne Hcl Hs) as [bufs1 [g [F1 [X1 C1]]]].
    assert (Hsame : forall p, In p l -> held bufs1 (ab_id (snd p)) s = held bufs (ab_id (snd p)) s).
    { intros p Hp. rewrite C1. destruct (Nat.eqb_spec (ab_id (snd p)) (ab_id b)) as [E|]; [|reflexivity].
      destruct Hx. rewrite <- E. apply in_map_iff. exists p. auto. }
    destruct (IH ds' bufs1 Hds Hy) as [bufs2 [vs [F2 [X2 C2]]]].
    { intros p Hp. rewrite (Hsame p Hp). apply Hall. right. exact Hp. }
    exists bufs2, ((i, g) :: vs). cbn [fetch_layout]. rewrite F1, F2. split; [reflexivity|]. split.
    + constructor; [split; [reflexivity|exact X1]|].
      clear - X2 Hsame. induction X2 as [|p q l vs [A B] _ IHX]; constructor.
      * split; [exact A|]. rewrite <- Hsame by (left; reflexivity). exact B.
      * apply IHX. intros p' Hp'. apply Hsame. right. exact Hp'.
    + intros b' s'. rewrite C2. cbn [existsb fst snd].
      destruct (Nat.eqb_spec s' s) as [->|]; cbn [andb].
      * rewrite !C1, !Nat.eqb_refl, !andb_true_r.
        destruct (Nat.eqb_spec b' (ab_id b)) as [->|]; cbn [andb orb]; [|reflexivity].
        replace (existsb _ l) with false.
        2:{ symmetry. apply not_true_is_false. intros Ee. apply existsb_exists in Ee.
            destruct Ee as [p [Hp Ep]]. apply andb_true_iff in Ep. destruct Ep as [Ep _].
            apply Nat.eqb_eq in Ep. apply Hx. rewrite Ep. apply in_map_iff. exists p. auto. }
        rewrite orb_false_r. reflexivity.
      * rewrite C1. destruct (Nat.eqb_spec b' (ab_id b)); cbn [andb]; [|reflexivity].
        destruct (Nat.eqb_spec s' s); [contradiction|reflexivity].
Qed.

End J.

(** ** JSON *)

Lemma nth_repeat_null n i j : nth_error (repeat JNull n) i = Some j -> j = JNull.
Proof. intros H. apply nth_error_In in H. apply repeat_spec in H. exact H. Qed.

Lemma set_at_length a i j : length (set_at a i j) = Nat.max (length a) (S i).
Proof.
  unfold set_at. destruct (Nat.leb_spec (length a) i); rewrite app_length, firstn_length;
    cbn [length]; rewrite skipn_length, ?app_length, ?repeat_length; lia.
Qed.

Lemma nth_set_at a i j k :
  nth_error (set_at a i j) k
  = if Nat.eqb k i then Some j
    else if k <? length a then nth_error a k
    else if k <? i then Some JNull else None.
Proof.
  unfold set_at.
  set (a' := if length a <=? i then a ++ repeat JNull (S i - length a) else a).
  assert (Hl : i < length a').
  { subst a'. destruct (Nat.leb_spec (length a) i); [rewrite app_length, repeat_length|]; lia. }
  assert (Hn : forall k, k <> i -> nth_error a' k
     = if k <? length a then nth_error a k else if k <? i then Some JNull else None).
  { intros k' Hk'. subst a'. destruct (Nat.leb_spec (length a) i).
    - destruct (Nat.ltb_spec k' (length a)).
      + apply nth_error_app1. lia.
      + rewrite nth_error_app2 by lia. destruct (Nat.ltb_spec k' i).
        * rewrite nth_error_repeat by lia. reflexivity.
        * apply nth_error_None. rewrite repeat_length. lia.
    - destruct (Nat.ltb_spec k' (length a)); [reflexivity|].
      destruct (Nat.ltb_spec k' i); [lia|]. apply nth_error_None. lia. }
  destruct (Nat.eqb_spec k i) as [->|Hk].
  - rewrite nth_error_app2; rewrite firstn_length_le by lia; [|lia]. rewrite Nat.sub_diag. reflexivity.
  - rewrite <- Hn by exact Hk. destruct (Nat.lt_ge_cases k i).
    + rewrite nth_error_app1 by (rewrite firstn_length_le; lia).
      rewrite <- (firstn_skipn i a') at 2. rewrite nth_error_app1; [reflexivity|rewrite firstn_length_le; lia].
    + rewrite nth_error_app2 by (rewrite firstn_length_le; lia). rewrite firstn_length_le by lia.
      replace (k - i) with (S (k - S i)) by lia. cbn [nth_error].
      rewrite <- (firstn_skipn (S i) a') at 2.
      rewrite nth_error_app2; rewrite firstn_length_le by lia; [reflexivity|lia].
Qed.

Lemma obj_find_insert o n j m :
  obj_find (obj_insert o n j) m = if String.eqb m n then Some j else obj_find o m.
Proof.
  unfold obj_insert. cbn [obj_find]. destruct (String.eqb_spec m n) as [->|Hn]; [reflexivity|].
  induction o as [|[a b] o IH]; [reflexivity|]. cbn [filter fst obj_find].
  destruct (String.eqb_spec n a) as [->|]; cbn [negb].
  - destruct (String.eqb_spec m a); [congruence|exact IH].
  - cbn [obj_find]. destruct (String.eqb_spec m a); [reflexivity|exact IH].
Qed.

Fixpoint longest {A} (l : list (ident * A)) (n : nat) : nat :=
  match l with
  | [] => n
  | (Index i, _) :: l' => longest l' (Nat.max n (S i))
  | (Name _, _) :: l' => longest l' n
  end.

Lemma longest_ge {A} (l : list (ident * A)) : forall n, n <= longest l n.
Proof.
  induction l as [|[[m|i] x] l IH]; intros n; cbn [longest]; [lia|apply IH|].
  specialize (IH (Nat.max n (S i))). lia.
Qed.

Lemma json_parts_are l : forall o a, good_map l ->
  let '(o', a') := json_parts l o a in
  (forall n, obj_find o' n = match find l (Name n) with Some j => Some j | None => obj_find o n end) /\
  (forall i, nth_error a' i = match find l (Index i) with
                              | Some j => Some j
                              | None => match nth_error a i with
                                        | Some j => Some j
                                        | None => if i <? longest l (length a) then Some JNull else None
                                        end
                              end) /\
  length a' = longest l (length a) /\
  (o' = [] <-> o = [] /\ forall n x, ~ In (Name n, x) l).
Proof.
  induction l as [|[[n|i] j] l IH]; intros o a Hg; cbn [json_parts].
  - cbn [find longest]. split; [reflexivity|]. split; [|split; [reflexivity|]].
    + intros i. destruct (nth_error a i) eqn:E; [reflexivity|]. apply nth_error_None in E.
      destruct (Nat.ltb_spec i (length a)); [lia|reflexivity].
    + split; [intros ->; split; [reflexivity|intros n x []]|intros [H _]; exact H].
  - unfold good_map in Hg. cbn [map fst] in Hg. inversion Hg as [|x y Hx Hy]; subst.
    specialize (IH (obj_insert o n j) a Hy). destruct (json_parts l (obj_insert o n j) a) as [o' a'].
    destruct IH as [A [B [C D]]]. cbn [find ident_eqb longest]. split; [|split; [exact B|split; [exact C|]]].
    + intros m. rewrite A, obj_find_insert. destruct (String.eqb_spec m n) as [->|]; [|reflexivity].
      apply find_none in Hx. rewrite Hx. reflexivity.
    + rewrite D. unfold obj_insert. split; [intros [E _]; discriminate|].
      intros [_ H]. destruct (H n j). left. reflexivity.
  - unfold good_map in Hg. cbn [map fst] in Hg. inversion Hg as [|x y Hx Hy]; subst.
    specialize (IH o (set_at a i j) Hy). destruct (json_parts l o (set_at a i j)) as [o' a'].
    destruct IH as [A [B [C D]]]. cbn [find ident_eqb longest]. rewrite set_at_length in *.
    split; [exact A|]. split; [|split; [exact C|]].
    + intros k. rewrite B, nth_set_at. destruct (Nat.eqb_spec k i) as [->|Hk].
      * apply find_none in Hx. rewrite Hx. reflexivity.
      * destruct (find l (Index k)); [reflexivity|].
        destruct (Nat.ltb_spec k (length a)) as [Hlt|Hge].
        -- destruct (nth_error a k) eqn:E; [reflexivity|]. apply nth_error_None in E. lia.
        -- replace (nth_error a k) with (@None json) by (symmetry; apply nth_error_None; lia).
           destruct (Nat.ltb_spec k i); [|reflexivity].
           pose proof (longest_ge l (Nat.max (length a) (S i))).
           destruct (Nat.ltb_spec k (longest l (Nat.max (length a) (S i)))); [reflexivity|lia].
    + rewrite D. split; intros [E H]; (split; [exact E|]); intros m x Hm.
      * destruct Hm as [Hm|Hm]; [discriminate|]. apply (H _ _ Hm).
      * apply (H m x). right. exact Hm.
Qed.

Lemma longest_lt {A} (l : list (ident * A)) k : forall n,
  k < longest l n <-> k < n \/ exists i x, In (Index i, x) l /\ k <= i.
Proof.
  induction l as [|[[m|i] x] l IH]; intros n; cbn [longest].
  - split; [auto|]. intros [H|[i [x [[] _]]]]. exact H.
  - rewrite IH. split; (intros [H|[j [y [Hj Hk]]]]; [auto|right]).
    + exists j, y. split; [right; exact Hj|exact Hk].
    + destruct Hj as [Hj|Hj]; [discriminate|]. eauto.
  - rewrite IH. split.
    + intros [H|[j [y [Hj Hk]]]].
      * destruct (Nat.lt_ge_cases k n); [auto|]. right. exists i, x. split; [left; reflexivity|lia].
      * right. exists j, y. split; [right; exact Hj|exact Hk].
    + intros [H|[j [y [[[= <- <-]|Hj] Hk]]]]; [left; lia|left; lia|]. right. eauto.
Qed.

Lemma joined_json_is l : good_map l ->
  exists o a, joined_json l = match o, a with
    | _ :: _, _ :: _ => JObj [("array"%string, JArr a); ("object"%string, JObj o)]
    | _ :: _, [] => JObj o
    | [], _ :: _ => JArr a
    | [], [] => JNull
    end /\
  (forall n, obj_find o n = find l (Name n)) /\
  (forall i, nth_error a i = match find l (Index i) with
                             | Some j => Some j
                             | None => if i <? longest l 0 then Some JNull else None
                             end) /\
  length a = longest l 0 /\ (o = [] <-> forall n x, ~ In (Name n, x) l).
Proof.
  intros Hg. unfold joined_json. pose proof (json_parts_are l [] [] Hg) as H.
  destruct (json_parts l [] []) as [o a]. destruct H as [A [B [C D]]]. exists o, a.
  split; [destruct o, a; reflexivity|]. split; [|split; [|split; [exact C|]]].
  - intros n. rewrite A. destruct (find l (Name n)); reflexivity.
  - intros i. rewrite B. destruct (find l (Index i)); [reflexivity|]. destruct i; reflexivity.
  - rewrite D. split; [intros [_ H]; exact H|auto].
Qed.

Lemma joined_placed l i : good_map l ->
  placed l (joined_json l) i
    match find l i with
    | Some j => Some j
    | None => match i with
              | Name _ => None
              | Index k => if k <? longest l 0 then Some JNull else None
              end
    end.
Proof.
  intros Hg. destruct (joined_json_is l Hg) as [o [a [E [A [B [C D]]]]]]. unfold placed.
  assert (Ha : a = [] <-> forall k x, ~ In (Index k, x) l).
  { split.
    - intros -> k x Hin. cbn [length] in C.
      assert (0 < longest l 0) by (apply longest_lt; right; exists k, x; split; [exact Hin|lia]). lia.
    - intros H. destruct a as [|y a]; [reflexivity|]. cbn [length] in C.
      assert (Hl : 0 < longest l 0) by lia. apply longest_lt in Hl.
      destruct Hl as [Hl|[k [x [Hin _]]]]; [lia|]. destruct (H k x Hin). }
  destruct o as [|p o]; [|destruct a as [|y a]].
  - right. split.
    + intros [[n [x Hn]] _]. apply (proj1 D eq_refl n x Hn).
    + destruct i as [n|k].
      * replace (find l (Name n)) with (@None json) by (symmetry; rewrite <- A; reflexivity).
        rewrite E. destruct a; reflexivity.
      * rewrite <- B, E. destruct a; [destruct k; reflexivity|reflexivity].
  - right. split.
    + intros [_ [k [x Hk]]]. apply (proj1 Ha eq_refl k x Hk).
    + destruct i as [n|k].
      * rewrite E. cbn [at_name]. rewrite A. destruct (find l (Name n)); reflexivity.
      * rewrite <- B, E. destruct k; reflexivity.
  - left. split.
    + assert (Hd : (exists n x, In (Name n, x) l) /\ exists k x, In (Index k, x) l).
      { split.
        - destruct p as [n j]. exists n, j. apply find_in. rewrite <- A. cbn [obj_find].
          rewrite String.eqb_refl. reflexivity.
        - cbn [length] in C. assert (Hl : 0 < longest l 0) by lia. apply longest_lt in Hl.
          destruct Hl as [Hl|[k [x [Hin _]]]]; [lia|]. eauto. }
      exact Hd.
    + rewrite E. destruct i as [n|k].
      * exists (JObj (p :: o)). split; [reflexivity|]. cbn [at_name]. rewrite A.
        destruct (find l (Name n)); reflexivity.
      * exists (JArr (y :: a)). split; [reflexivity|]. cbn [at_index]. rewrite B. reflexivity.
Qed.

(** ** Joining a layout *)

Lemma matched r m w : (forall p, In p w -> ok_in r m p <> None) ->
  exists l, map fst l = w /\ (forall p, In p l -> In (fst (fst p), snd p) m) /\
    Forall2 (fun p q => fst (fst p) = fst q /\ downcast r (snd p) (snd (fst p)) = Some (snd q)) l
      (good_in r m w).
Proof.
  induction w as [|[i k] w IH]; intros H.
  - exists []. split; [reflexivity|]. split; [intros p []|constructor].
  - destruct IH as [l [A [B C]]]; [intros p Hp; apply H; right; exact Hp|].
    pose proof (H (i, k) (or_introl eq_refl)) as Ho. cbn [good_in flat_map]. fold (good_in r m w).
    destruct (ok_in r m (i, k)) as [d|] eqn:Eo; [|congruence]. unfold ok_in in Eo. cbn [fst snd] in Eo.
    destruct (find m i) as [b|] eqn:Ef; [|discriminate].
    exists ((i, k, b) :: l). split; [cbn [map fst]; rewrite A; reflexivity|]. split.
    + intros p [<-|Hp]; [|apply B; exact Hp]. cbn [fst snd]. apply find_in. exact Ef.
    + cbn [app]. constructor; [cbn [fst snd]; auto|exact C].
Qed.

Lemma wanted_nodup L m : good_layout L -> good_map m -> NoDup (map fst (wanted L m)).
Proof.
  intros HL Hg. destruct L as [fields|k|k| | |]; cbn [wanted good_layout] in *.
  - rewrite map_map. cbn [fst].
    replace (map (fun x : string * bkind => Name (fst x)) fields) with (map Name (map fst fields))
      by apply map_map.
    apply FinFun.Injective_map_NoDup; [intros x y [= ->]; reflexivity|exact HL].
  - cbn. constructor; [intros []|constructor].
  - rewrite map_map. cbn [fst].
    apply FinFun.Injective_map_NoDup; [intros x y [= ->]; reflexivity|apply seq_NoDup].
  - unfold good_map in Hg. induction m as [|[i b] m IH]; [constructor|]. cbn [map fst] in Hg.
    inversion Hg as [|x y Hx Hy]; subst. cbn [flat_map fst]. rewrite map_app.
    destruct i as [n|n]; cbn [map app fst]; [|apply IH; exact Hy]. constructor; [|apply IH; exact Hy].
    intros Hin. apply Hx. apply in_map_iff in Hin. destruct Hin as [[j k] [E Hj]]. cbn [fst] in E. subst j.
    apply in_flat_map in Hj. destruct Hj as [[j b'] [Hj Hj']]. cbn [fst] in Hj'.
    destruct j as [n'|n']; [|destruct Hj']. destruct Hj' as [[= -> _]|[]].
    apply in_map_iff. exists (Name n, b'). auto.
  - rewrite map_map. exact Hg.
  - rewrite map_map. exact Hg.
Qed.

Lemma map_snd_nodup {A} (m : list (ident * abuf)) (l : list (ident * A * abuf)) :
  NoDup (map (fun p => ab_id (snd p)) m) -> NoDup (map fst (map fst l)) ->
  (forall p, In p l -> In (fst (fst p), snd p) m) ->
  NoDup (map (fun p => ab_id (snd p)) l).
Proof.
  intros Hm. induction l as [|[[i k] b] l IH]; intros Hn Hin; [constructor|].
  cbn [map fst snd] in *. inversion Hn as [|x y Hx Hy]; subst.
  constructor; [|apply IH; [exact Hy|intros p Hp; apply Hin; right; exact Hp]].
  intros H. apply in_map_iff in H. destruct H as [[[i' k'] b'] [E Hp]]. cbn [snd] in E.
  pose proof (Hin (i, k, b) (or_introl eq_refl)) as H1. pose proof (Hin _ (or_intror Hp)) as H2.
  cbn [fst snd] in *.
  assert (Hsame : i = i').
  { clear - Hm E H1 H2. induction m as [|[j c] m IH]; [destruct H1|]. cbn [map snd] in Hm.
    inversion Hm as [|x y Hx Hy]; subst. destruct H1 as [[= -> ->]|H1], H2 as [E2|H2].
    - congruence.
    - destruct Hx. rewrite <- E. apply in_map_iff. exists (i', b'). auto.
    - injection E2 as -> ->. destruct Hx. rewrite E. apply in_map_iff. exists (i, b). auto.
    - apply IH; assumption. }
  subst i'. apply Hx. apply in_map_iff. exists (i, k'). split; [reflexivity|].
  apply in_map_iff. exists (i, k', b'). auto.
Qed.

Section JoinLayout.
Context {V : Type} (ser : nat -> V -> option json).

Lemma join_layout_ok r L m ds types (bufs : emap (bufnode V)) s :
  good_layout L -> good_map m -> NoDup (map (fun p => ab_id (snd p)) m) ->
  try_layout r L m = inr ds ->
  (forall i k b, In (i, k) (wanted L m) -> In (i, b) m ->
     types (ab_id b) = Some (ab_ty b) /\ held bufs (ab_id b) s <> [] /\
     (ab_join b = Clone -> (forall t, k <> KBuf t) /\ r_clone r (ab_ty b) = true) /\
     (k = KJson -> forall v, In v (held bufs (ab_id b) s) -> ser (ab_ty b) v <> None)) ->
  exists bufs' vs, fetch_layout ser r types bufs s ds = (bufs', Some vs) /\
    map fst vs = map fst (wanted L m) /\
    (forall i k b, In (i, k) (wanted L m) -> In (i, b) m ->
       (exists g, In (i, g) vs /\ expected ser k b (held bufs (ab_id b) s) = Some g) /\
       held bufs' (ab_id b) s
       = match effective k b with
         | Pull => tl (held bufs (ab_id b) s)
         | Clone => held bufs (ab_id b) s
         end) /\
    (forall b' s', (s' <> s \/ forall i k b, In (i, k) (wanted L m) -> In (i, b) m -> ab_id b <> b') ->
       held bufs' b' s' = held bufs b' s').
Proof.
  intros HL Hg Hnd Ht Hall.
  destruct (try_layout_cases r L m Hg) as [[E Hok]|[fo [E _]]]; [|congruence].
  rewrite E in Ht. injection Ht as <-.
  destruct (matched r m (wanted L m) Hok) as [l [A [B C]]].
  assert (Hn : NoDup (map (fun p => ab_id (snd p)) l)).
  { apply (map_snd_nodup m l Hnd); [rewrite A; apply wanted_nodup; assumption|exact B]. }
  assert (Hw : forall p, In p l -> In (fst p) (wanted L m)).
  { intros p Hp. rewrite <- A. apply in_map. exact Hp. }
  destruct (fetch_layout_ok ser r types s l _ bufs C Hn) as [bufs' [vs [F [X Y]]]].
  { intros [[i k] b] Hp. cbn [fst snd]. apply (Hall i k b); [apply (Hw _ Hp)|apply (B _ Hp)]. }
  assert (Hfind : forall i k b, In (i, k) (wanted L m) -> In (i, b) m -> In (i, k, b) l).
  { intros i k b Hik Hb. rewrite <- A in Hik. apply in_map_iff in Hik.
    destruct Hik as [[p b'] [Ep Hp]]. cbn [fst] in Ep. subst p. pose proof (B _ Hp) as Hb'.
    cbn [fst snd] in Hb'. pose proof (in_find m _ _ Hg Hb). pose proof (in_find m _ _ Hg Hb').
    replace b with b' by congruence. exact Hp. }
  exists bufs', vs. split; [exact F|]. split; [|split].
  - rewrite <- A. clear - X. induction X as [|p q l vs [H _] _ IH]; [reflexivity|].
    cbn [map]. rewrite IH, H. reflexivity.
  - intros i k b Hik Hb. pose proof (Hfind i k b Hik Hb) as Hl. split.
    + clear - X Hl. induction X as [|p q l vs [H1 H2] _ IH]; [destruct Hl|].
      destruct Hl as [->|Hl].
      * cbn [fst snd] in *. exists (snd q). split; [|exact H2]. left. destruct q. cbn [fst snd] in *. congruence.
      * destruct (IH Hl) as [g [Hg1 Hg2]]. exists g. split; [right; exact Hg1|exact Hg2].
    + rewrite Y, Nat.eqb_refl. cbn [andb].
      destruct (effective k b) eqn:Ee.
      * replace (existsb _ l) with true; [reflexivity|]. symmetry. apply existsb_exists.
        exists (i, k, b). split; [exact Hl|]. cbn [fst snd]. rewrite Nat.eqb_refl, Ee. reflexivity.
      * replace (existsb _ l) with false; [reflexivity|]. symmetry. apply not_true_is_false.
        intros Hx. apply existsb_exists in Hx. destruct Hx as [[[i' k'] b'] [Hp Hx]]. cbn [fst snd] in Hx.
        apply andb_true_iff in Hx. destruct Hx as [Hi Hpull]. apply Nat.eqb_eq in Hi.
        assert (Hsame : (i, k, b) = (i', k', b')).
        { clear - Hn Hl Hp Hi. induction l as [|[[j x] c] l IH]; [destruct Hl|]. cbn [map snd] in Hn.
          inversion Hn as [|u w Hu Hw]; subst. destruct Hl as [E1|Hl], Hp as [E2|Hp].
          - congruence.
          - injection E1 as -> -> ->. destruct Hu. rewrite Hi. apply in_map_iff. exists (i', k', b'). auto.
          - injection E2 as -> -> ->. destruct Hu. rewrite <- Hi. apply in_map_iff. exists (i, k, b). auto.
          - apply IH; assumption. }
        injection Hsame as <- <- <-. rewrite Ee in Hpull. discriminate.
  - intros b' s' Hout. rewrite Y. destruct (Nat.eqb_spec s' s) as [->|]; cbn [andb]; [|reflexivity].
    destruct Hout as [Hout|Hout]; [congruence|].
    replace (existsb _ l) with false; [reflexivity|]. symmetry. apply not_true_is_false.
    intros Hx. apply existsb_exists in Hx. destruct Hx as [[[i k] b] [Hp Hx]]. cbn [fst snd] in Hx.
    apply andb_true_iff in Hx. destruct Hx as [Hi _]. apply Nat.eqb_eq in Hi.
    apply (Hout i k b); [apply (Hw _ Hp)|apply (B _ Hp)|congruence].
Qed.

End JoinLayout.
