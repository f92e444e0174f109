(** Lemmas about layouts of buffers. *)
From Coq Require Import String.
From Verif Require Import Base RosterModel BufferModel GateModel JoinModel JoinSpec JoinProofs
  LayoutModel LayoutSpec.

Lemma ident_eqb_spec a b : reflect (a = b) (ident_eqb a b).
Proof.
  destruct a as [n|i], b as [m|j]; cbn [ident_eqb].
  - destruct (String.eqb_spec n m); constructor; congruence.
  - constructor. discriminate.
  - constructor. discriminate.
  - destruct (Nat.eqb_spec i j); constructor; congruence.
Qed.

Lemma find_in {A} (m : list (ident * A)) i a : find m i = Some a -> In (i, a) m.
Proof.
  induction m as [|[j x] m IH]; cbn [find]; [discriminate|].
  destruct (ident_eqb_spec i j) as [->|]; [intros [= ->]; left; reflexivity|right; auto].
Qed.

Lemma in_find {A} (m : list (ident * A)) i a : good_map m -> In (i, a) m -> find m i = Some a.
Proof.
  unfold good_map. induction m as [|[j x] m IH]; cbn [find map]; intros Hn Hi; [destruct Hi|].
  inversion Hn as [|y l Hy Hl]; subst. destruct Hi as [[= -> ->]|Hi].
  - destruct (ident_eqb_spec i i); [reflexivity|congruence].
  - destruct (ident_eqb_spec i j) as [->|]; [|auto].
    destruct Hy. apply in_map_iff. exists (j, a). auto.
Qed.

Lemma find_none {A} (m : list (ident * A)) i : find m i = None <-> ~ In i (map fst m).
Proof.
  induction m as [|[j x] m IH]; cbn [find map]; [split; [intros _ []|reflexivity]|].
  destruct (ident_eqb_spec i j) as [->|Hn].
  - split; [discriminate|intros H; destruct H; left; reflexivity].
  - rewrite IH. cbn [In fst]. intuition congruence.
Qed.

(** ** Downcasts *)

Lemma downcast_fits r b k : (exists d, downcast r b k = Some d) <-> fits r b k.
Proof.
  destruct k as [|t|t|t|]; cbn [downcast fits].
  - split; [auto|intros _; eauto].
  - destruct (Nat.eqb_spec t (ab_ty b)); split; try (intros [d H]; congruence); intros; eauto; congruence.
  - destruct (Nat.eqb_spec t (ab_ty b)) as [->|].
    + destruct (ab_join b); [split; [split; [reflexivity|discriminate]|eauto]|].
      destruct (r_clone r (ab_ty b)); split; eauto.
      * intros [d H]. discriminate.
      * intros [_ H]. discriminate (H eq_refl).
    + split; [intros [d H]; discriminate|intros [H _]; congruence].
  - destruct (Nat.eqb_spec t (ab_ty b)) as [->|]; cbn [andb].
    + destruct (r_clone r (ab_ty b)); split; eauto; [intros [d H]; discriminate|intros [_ H]; discriminate].
    + split; [intros [d H]; discriminate|intros [H _]; congruence].
  - destruct (r_json r (ab_ty b)); split; eauto; [intros [d H]; discriminate|discriminate].
Qed.

Lemma downcast_is r b k d : downcast r b k = Some d ->
  br_kind d = k /\ br_id d = ab_id b /\ br_ty d = ab_ty b /\
  br_join d = match k with KBuf _ => Pull | KClone _ => Clone | _ => ab_join b end /\
  match k with KBuf t | KFetch t | KClone t => t = ab_ty b | _ => True end.
Proof.
  destruct k as [|t|t|t|]; cbn [downcast].
  - intros [= <-]. auto.
  - destruct (Nat.eqb_spec t (ab_ty b)) as [->|]; [|discriminate]. intros [= <-]. auto.
  - destruct (Nat.eqb_spec t (ab_ty b)) as [->|]; [|discriminate].
    destruct (ab_join b); [intros [= <-]; auto|].
    destruct (r_clone r (ab_ty b)); [intros [= <-]; auto|discriminate].
  - destruct (Nat.eqb_spec t (ab_ty b)) as [->|]; cbn [andb]; [|discriminate].
    destruct (r_clone r (ab_ty b)); [intros [= <-]; auto|discriminate].
  - destruct (r_json r (ab_ty b)); [intros [= <-]; auto|discriminate].
Qed.

Lemma downcast_none r b k : downcast r b k = None <-> ~ fits r b k.
Proof.
  rewrite <- downcast_fits. destruct (downcast r b k); split; try congruence.
  - intros H. destruct H. eauto.
  - intros _ [d H]. discriminate.
Qed.

(** ** Requiring buffers *)

Definition ok_in r (m : bmap) (p : ident * bkind) : option bref :=
  match find m (fst p) with Some b => downcast r b (snd p) | None => None end.

Definition missing_in (m : bmap) (l : list (ident * bkind)) : list ident :=
  map fst (filter (fun p => match find m (fst p) with None => true | _ => false end) l).

Definition wrong_in r (m : bmap) (l : list (ident * bkind)) : list ident :=
  map fst (filter (fun p => match find m (fst p) with
                            | None => false
                            | Some b => match downcast r b (snd p) with None => true | _ => false end
                            end) l).

Definition good_in r (m : bmap) (l : list (ident * bkind)) : list (ident * bref) :=
  flat_map (fun p => match ok_in r m p with Some d => [(fst p, d)] | None => [] end) l.

Lemma require_all_is r m l : forall c,
  require_all r m c l
  = (mk_incompat (ic_missing c ++ missing_in m l) (ic_forbidden c) (ic_wrong c ++ wrong_in r m l),
     good_in r m l).
Proof.
  induction l as [|[i k] l IH]; intros c; cbn [require_all].
  - unfold missing_in, wrong_in, good_in. cbn. rewrite !app_nil_r. destruct c. reflexivity.
  - unfold require. unfold missing_in, wrong_in, good_in. cbn [filter map flat_map fst snd].
    unfold ok_in at 1. cbn [fst snd].
    destruct (find m i) as [b|] eqn:Ef; [destruct (downcast r b k) as [d|] eqn:Ed|]; rewrite IH;
      cbn [ic_missing ic_forbidden ic_wrong map app]; rewrite <- ?app_assoc; reflexivity.
Qed.

Lemma good_in_length r m l : length (good_in r m l) = length l <->
  (forall p, In p l -> ok_in r m p <> None).
Proof.
  assert (Hle : forall l, length (good_in r m l) <= length l).
  { clear l. induction l as [|p l IH]; cbn [good_in flat_map length]; [lia|].
    fold (good_in r m l). rewrite app_length. destruct (ok_in r m p); cbn [length]; lia. }
  induction l as [|p l IH].
  - split; [intros _ p []|reflexivity].
  - cbn [good_in flat_map]. fold (good_in r m l). rewrite app_length. cbn [length].
    specialize (Hle l). destruct (ok_in r m p) as [d|] eqn:Eo; cbn [length]; split.
    + intros H p' [->|Hp]; [congruence|]. apply IH; [lia|exact Hp].
    + intros H. rewrite (proj2 IH); [reflexivity|]. intros p' Hp. apply H. right. exact Hp.
    + lia.
    + intros H. destruct (H p); [left; reflexivity|exact Eo].
Qed.

Lemma good_in_all r m l : (forall p, In p l -> ok_in r m p <> None) ->
  map fst (good_in r m l) = map fst l.
Proof.
  induction l as [|p l IH]; intros H; [reflexivity|]. cbn [good_in flat_map map].
  fold (good_in r m l). destruct (ok_in r m p) as [d|] eqn:Eo.
  - cbn [app map fst]. f_equal. apply IH. intros q Hq. apply H. right. exact Hq.
  - destruct (H p); [left; reflexivity|exact Eo].
Qed.

Lemma good_in_in r m l i d : In (i, d) (good_in r m l) ->
  exists k b, In (i, k) l /\ find m i = Some b /\ downcast r b k = Some d.
Proof.
  unfold good_in. rewrite in_flat_map. intros [[j k] [Hp Hd]]. unfold ok_in in Hd. cbn [fst snd] in Hd.
  destruct (find m j) as [b|] eqn:Ef; [|destruct Hd].
  destruct (downcast r b k) as [d'|] eqn:Ed; [|destruct Hd].
  destruct Hd as [[= -> ->]|[]]. exists k, b. auto.
Qed.

Lemma missing_in_in m l i : In i (missing_in m l) <-> (exists k, In (i, k) l) /\ ~ In i (map fst m).
Proof.
  unfold missing_in. rewrite in_map_iff. split.
  - intros [[j k] [Ej Hp]]. cbn [fst] in Ej. subst j. apply filter_In in Hp. destruct Hp as [Hp Hf].
    cbn [fst] in Hf. destruct (find m i) eqn:Ef; [discriminate|]. split; [eauto|]. apply find_none. exact Ef.
  - intros [[k Hk] Hn]. exists (i, k). split; [reflexivity|]. apply filter_In. split; [exact Hk|].
    cbn [fst]. apply find_none in Hn. rewrite Hn. reflexivity.
Qed.

Lemma wrong_in_in r m l i : good_map m ->
  In i (wrong_in r m l) <-> exists k b, In (i, k) l /\ In (i, b) m /\ ~ fits r b k.
Proof.
  intros Hg. unfold wrong_in. rewrite in_map_iff. split.
  - intros [[j k] [Ej Hp]]. cbn [fst] in Ej. subst j. apply filter_In in Hp. destruct Hp as [Hp Hf].
    cbn [fst snd] in Hf. destruct (find m i) as [b|] eqn:Ef; [|discriminate].
    destruct (downcast r b k) eqn:Ed; [discriminate|]. exists k, b. split; [exact Hp|].
    split; [apply find_in; exact Ef|]. apply downcast_none. exact Ed.
  - intros [k [b [Hk [Hb Hn]]]]. exists (i, k). split; [reflexivity|]. apply filter_In.
    split; [exact Hk|]. cbn [fst snd]. rewrite (in_find m i b Hg Hb).
    apply downcast_none in Hn. rewrite Hn. reflexivity.
Qed.

Lemma ok_in_all r m l : good_map m ->
  (forall p, In p l -> ok_in r m p <> None) <->
  (forall i k, In (i, k) l -> exists b, In (i, b) m /\ fits r b k).
Proof.
  intros Hg. split.
  - intros H i k Hi. specialize (H _ Hi). unfold ok_in in H. cbn [fst snd] in H.
    destruct (find m i) as [b|] eqn:Ef; [|congruence]. exists b. split; [apply find_in; exact Ef|].
    apply downcast_fits. destruct (downcast r b k); [eauto|congruence].
  - intros H [i k] Hi. destruct (H i k Hi) as [b [Hb Hf]]. unfold ok_in. cbn [fst snd].
    rewrite (in_find m i b Hg Hb). apply downcast_fits in Hf. destruct Hf as [d ->]. discriminate.
Qed.

Lemma no_misfits r m l : missing_in m l = [] -> wrong_in r m l = [] ->
  forall p, In p l -> ok_in r m p <> None.
Proof.
  intros Hm Hw [i k] Hp Ho. unfold ok_in in Ho. cbn [fst snd] in Ho.
  destruct (find m i) as [b|] eqn:Ef.
  - assert (Hi : In i (wrong_in r m l)).
    { unfold wrong_in. apply in_map_iff. exists (i, k). split; [reflexivity|]. apply filter_In.
      split; [exact Hp|]. cbn [fst snd]. rewrite Ef, Ho. reflexivity. }
    rewrite Hw in Hi. destruct Hi.
  - assert (Hi : In i (missing_in m l)).
    { apply missing_in_in. split; [eauto|]. apply find_none. exact Ef. }
    rewrite Hm in Hi. destruct Hi.
Qed.

Lemma misfits r m l : good_map m -> (forall p, In p l -> ok_in r m p <> None) ->
  missing_in m l = [] /\ wrong_in r m l = [].
Proof.
  intros Hg H. pose proof (proj1 (ok_in_all r m l Hg) H) as H'. split.
  - destruct (missing_in m l) as [|i x] eqn:E; [reflexivity|].
    assert (Hi : In i (missing_in m l)) by (rewrite E; left; reflexivity).
    apply missing_in_in in Hi. destruct Hi as [[k Hk] Hn]. destruct (H' i k Hk) as [b [Hb _]].
    destruct Hn. apply in_map_iff. exists (i, b). auto.
  - destruct (wrong_in r m l) as [|i x] eqn:E; [reflexivity|].
    assert (Hi : In i (wrong_in r m l)) by (rewrite E; left; reflexivity).
    apply wrong_in_in in Hi; [|exact Hg]. destruct Hi as [k [b [Hk [Hb Hn]]]].
    destruct (H' i k Hk) as [b' [Hb' Hf]].
    pose proof (in_find m i b Hg Hb). pose proof (in_find m i b' Hg Hb'). congruence.
Qed.

(** JSON names: the indices are forbidden, the names are required. *)
Lemma json_names_is r m keys : forall c,
  let l := flat_map (fun i => match i with Name n => [(Name n, KJson)] | Index _ => [] end) keys in
  json_names r m c keys
  = (mk_incompat (ic_missing c ++ missing_in m l)
       (ic_forbidden c ++ flat_map (fun i => match i with Index n => [Index n] | Name _ => [] end) keys)
       (ic_wrong c ++ wrong_in r m l),
     good_in r m l).
Proof.
  induction keys as [|[n|n] keys IH]; intros c; cbn zeta in *; cbn [json_names flat_map].
  - unfold missing_in, wrong_in, good_in. cbn. rewrite !app_nil_r. destruct c. reflexivity.
  - unfold require. unfold missing_in, wrong_in, good_in. cbn [app filter map flat_map fst snd].
    unfold ok_in at 1. cbn [fst snd].
    destruct (find m (Name n)) as [b|] eqn:Ef; [destruct (downcast r b KJson) as [d|] eqn:Ed|]; rewrite IH;
      cbn [ic_missing ic_forbidden ic_wrong map app]; rewrite <- ?app_assoc; reflexivity.
  - rewrite IH. cbn [app ic_missing ic_forbidden ic_wrong]. rewrite <- app_assoc. reflexivity.
Qed.

Lemma as_result_ok mi fo wr : as_result (mk_incompat mi fo wr) = true <-> mi = [] /\ wr = [].
Proof.
  unfold as_result. cbn. destruct mi, wr; split; try discriminate; auto; intros []; discriminate.
Qed.

(** What a layout gives, in one form for all layouts. *)
Lemma try_layout_cases r L m : good_map m ->
  (try_layout r L m = inr (good_in r m (wanted L m)) /\
   forall p, In p (wanted L m) -> ok_in r m p <> None) \/
  (exists fo, try_layout r L m
     = inl (mk_incompat (missing_in m (wanted L m)) fo (wrong_in r m (wanted L m))) /\
   ~ forall p, In p (wanted L m) -> ok_in r m p <> None).
Proof.
  intros Hg.
  assert (Hall : forall l fo,
    ((if as_result (mk_incompat (missing_in m l) fo (wrong_in r m l))
      then inr (good_in r m l) else inl (mk_incompat (missing_in m l) fo (wrong_in r m l)))
     = @inr incompat _ (good_in r m l) /\ forall p, In p l -> ok_in r m p <> None) \/
    ((if as_result (mk_incompat (missing_in m l) fo (wrong_in r m l))
      then inr (good_in r m l) else inl (mk_incompat (missing_in m l) fo (wrong_in r m l)))
     = inl (mk_incompat (missing_in m l) fo (wrong_in r m l)) /\
     ~ forall p, In p l -> ok_in r m p <> None)).
  { intros l fo. destruct (as_result _) eqn:Ea.
    - apply as_result_ok in Ea. destruct Ea as [Em Ew]. left. split; [reflexivity|].
      apply no_misfits; assumption.
    - right. split; [reflexivity|]. intros H. destruct (misfits r m l Hg H) as [Em Ew].
      rewrite Em, Ew in Ea. discriminate. }
  destruct L as [fields|k|k| | |]; cbn [try_layout wanted].
  - rewrite require_all_is. cbn [no_incompat ic_missing ic_forbidden ic_wrong app].
    set (l := map _ fields). replace (length fields) with (length l) by apply map_length.
    destruct (Nat.eqb_spec (length (good_in r m l)) (length l)) as [E|E].
    + left. split; [reflexivity|]. apply good_in_length. exact E.
    + right. eexists. split; [reflexivity|]. intros H. apply E. apply good_in_length. exact H.
  - unfold require, good_in, missing_in, wrong_in, ok_in. cbn [flat_map filter fst snd].
    destruct (find m (Index 0)) as [b|] eqn:Ef; [destruct (downcast r b k) as [d|] eqn:Ed|].
    + left. split; [reflexivity|]. intros p [<-|[]]. cbn [fst snd]. rewrite Ef, Ed. discriminate.
    + right. eexists. split; [reflexivity|]. intros H. apply (H (Index 0, k)); [left; reflexivity|].
      cbn [fst snd]. rewrite Ef. exact Ed.
    + right. eexists. split; [reflexivity|]. intros H. apply (H (Index 0, k)); [left; reflexivity|].
      cbn [fst snd]. rewrite Ef. reflexivity.
  - rewrite require_all_is. cbn [no_incompat ic_missing ic_forbidden ic_wrong app].
    destruct (Hall (map (fun i => (Index i, k)) (seq 0 (length m))) []) as [H|H]; [left; exact H|].
    right. eexists. exact H.
  - rewrite json_names_is. cbn [no_incompat ic_missing ic_forbidden ic_wrong app].
    replace (flat_map (fun p : ident * abuf => match fst p with Name n => [(Name n, KJson)] | Index _ => [] end) m)
      with (flat_map (fun i => match i with Name n => [(Name n, KJson)] | Index _ => [] end) (map fst m)).
    + match goal with |- context [as_result (mk_incompat (missing_in m ?l) ?fo _)] => destruct (Hall l fo) as [H|H] end;
        [left; exact H|right; eexists; exact H].
    + clear. induction m as [|[i b] m IH]; [reflexivity|]. cbn [map flat_map fst]. rewrite IH. reflexivity.
  - rewrite require_all_is. cbn [no_incompat ic_missing ic_forbidden ic_wrong app].
    destruct (Hall (map (fun p : ident * abuf => (fst p, KJson)) m) []) as [H|H]; [left; exact H|].
    right. eexists. exact H.
  - left. split.
    + f_equal. unfold good_in.
      assert (H : forall m', incl m' m -> 
        map (fun p : ident * abuf => (fst p, mk_bref KAny (ab_id (snd p)) (ab_join (snd p)) (ab_ty (snd p)))) m'
        = flat_map (fun p => match ok_in r m p with Some d => [(fst p, d)] | None => [] end)
            (map (fun p : ident * abuf => (fst p, KAny)) m')).
      { induction m' as [|[i b] m' IH]; intros Hi; [reflexivity|]. cbn [map flat_map fst snd].
        unfold ok_in at 1. cbn [fst snd]. rewrite (in_find m i b Hg (Hi _ (or_introl eq_refl))).
        cbn [downcast app]. f_equal. apply IH. intros x Hx. apply Hi. right. exact Hx. }
      apply H. apply incl_refl.
    + intros p Hp. apply in_map_iff in Hp. destruct Hp as [[i b] [<- Hb]]. unfold ok_in. cbn [fst snd].
      rewrite (in_find m i b Hg Hb). discriminate.
Qed.

Lemma vector_wanted r k (m : bmap) : good_map m ->
  (forall i k', In (i, k') (wanted (LVec k) m) -> exists b, In (i, b) m /\ fits r b k') <->
  Permutation (map fst m) (map Index (seq 0 (length m))) /\ (forall i b, In (i, b) m -> fits r b k).
Proof.
  intros Hg. cbn [wanted]. split.
  - intros H.
    assert (Hincl : incl (map Index (seq 0 (length m))) (map fst m)).
    { intros i Hi. apply in_map_iff in Hi. destruct Hi as [n [<- Hn]].
      destruct (H (Index n) k) as [b [Hb _]].
      - apply in_map_iff. exists n. auto.
      - apply in_map_iff. exists (Index n, b). auto. }
    assert (Hnd : NoDup (map Index (seq 0 (length m)))).
    { apply FinFun.Injective_map_NoDup; [intros x y [= ->]; reflexivity|apply seq_NoDup]. }
    assert (Hp : Permutation (map Index (seq 0 (length m))) (map fst m)).
    { apply NoDup_Permutation_bis; [exact Hnd| |exact Hincl].
      rewrite !map_length, seq_length. lia. }
    split; [apply Permutation_sym; exact Hp|].
    intros i b Hi. assert (Hi' : In i (map Index (seq 0 (length m)))).
    { eapply Permutation_in; [apply Permutation_sym; exact Hp|]. apply in_map_iff. exists (i, b). auto. }
    apply in_map_iff in Hi'. destruct Hi' as [n [<- Hn]].
    destruct (H (Index n) k) as [b' [Hb' Hf]]; [apply in_map_iff; exists n; auto|].
    pose proof (in_find m _ b Hg Hi). pose proof (in_find m _ b' Hg Hb'). congruence.
  - intros [Hp Hf] i k' Hi. apply in_map_iff in Hi. destruct Hi as [n [[= <- <-] Hn]].
    assert (Hin : In (Index n) (map fst m)).
    { eapply Permutation_in; [apply Permutation_sym; exact Hp|]. apply in_map. exact Hn. }
    apply in_map_iff in Hin. destruct Hin as [[i b] [E Hb]]. cbn [fst] in E. subst i.
    exists b. split; [exact Hb|]. eapply Hf. exact Hb.
Qed.

Lemma wanted_asks L m i k : In (i, k) (wanted L m) -> asks L i k.
Proof.
  destruct L as [fields|k'|k'| | |]; cbn [wanted asks].
  - intros H. apply in_map_iff in H. destruct H as [[n x] [[= <- <-] Hp]]. exists n. auto.
  - intros [[= <- <-]|[]]. auto.
  - intros H. apply in_map_iff in H. destruct H as [n [[= <- <-] _]]. eauto.
  - intros H. apply in_flat_map in H. destruct H as [[j b] [_ H]]. cbn [fst] in H.
    destruct j as [n|n]; [|destruct H]. destruct H as [[= <- <-]|[]]. eauto.
  - intros H. apply in_map_iff in H. destruct H as [p [[= _ <-] _]]. reflexivity.
  - intros H. apply in_map_iff in H. destruct H as [p [[= _ <-] _]]. reflexivity.
Qed.

Lemma asks_one L i k k' : good_layout L -> asks L i k -> asks L i k' -> k = k'.
Proof.
  destruct L as [fields|x|x| | |]; cbn [asks good_layout]; intros Hg.
  - intros [n [-> Hn]] [n' [[= <-] Hn']].
    clear - Hg Hn Hn'. induction fields as [|[a b] fields IH]; [destruct Hn|].
    cbn [map fst] in Hg. inversion Hg as [|y l Hy Hl]; subst.
    destruct Hn as [E|Hn], Hn' as [E'|Hn'].
    + congruence.
    + destruct Hy. apply in_map_iff. exists (n, k'). injection E as -> ->. auto.
    + destruct Hy. apply in_map_iff. exists (n, k). injection E' as -> ->. auto.
    + apply IH; assumption.
  - intros [_ ->] [_ ->]. reflexivity.
  - intros [_ ->] [_ ->]. reflexivity.
  - intros [_ ->] [_ ->]. reflexivity.
  - intros -> ->. reflexivity.
  - intros -> ->. reflexivity.
Qed.

(** ** Conversions *)

Lemma convert_good r b c r' b' : good_ref b -> convert r b c = Some (r', b') ->
  good_ref b' /\ br_id b' = br_id b /\ br_ty b' = br_ty b /\
  (sets_join c = false -> br_join b' = br_join b).
Proof.
  intros Hg.
  assert (Hd : forall k d, downcast r (to_any b) k = Some d ->
    good_ref d /\ br_id d = br_id b /\ br_ty d = br_ty b /\
    (sets_join (CvDowncast k) = false -> br_join d = br_join b)).
  { intros k d Ed. apply downcast_is in Ed. destruct Ed as [Hk [Hi [Ht [Hj Hm]]]].
    cbn [to_any ab_id ab_ty ab_join] in *.
    split; [|split; [exact Hi|split; [exact Ht|]]].
    - unfold good_ref. rewrite Hk. destruct k as [|t|t|t|]; auto; subst t; auto.
    - destruct k; try discriminate; auto. }
  destruct c as [k|t| |]; cbn [convert].
  - destruct (downcast r (to_any b) k) as [d|] eqn:Ed; [|discriminate]. intros [= <- <-]. auto.
  - intros H. assert (Hx : exists d, downcast r (to_any b) (KBuf t) = Some d /\ (r', b') = (r, d)).
    { destruct (br_kind b); try discriminate; destruct (downcast r (to_any b) (KBuf t)); try discriminate;
        injection H as <- <-; eauto. }
    destruct Hx as [d [Ed [= -> ->]]]. destruct (Hd _ _ Ed) as [A [B [C _]]]. repeat split; auto. discriminate.
  - unfold good_ref in Hg. destruct (br_kind b) as [|t|t|t|] eqn:Ek; try discriminate.
    + destruct (r_clone r (br_ty b)); [|discriminate]. intros [= <- <-]. repeat split; auto. discriminate.
    + intros [= <- <-]. destruct Hg as [-> Hj]. repeat split; auto. discriminate.
    + intros [= <- <-]. repeat split; auto. discriminate.
  - unfold good_ref in Hg. destruct (br_kind b) as [|t|t|t|] eqn:Ek; try discriminate.
    + intros [= <- <-]. repeat split; auto. discriminate.
    + intros [= <- <-]. destruct Hg as [-> Hj]. repeat split; auto. discriminate.
    + intros [= <- <-]. repeat split; auto. discriminate.
Qed.

Lemma converts_good cs : forall r b r' b', good_ref b -> converts r b cs = Some (r', b') ->
  good_ref b' /\ br_id b' = br_id b /\ br_ty b' = br_ty b /\
  (existsb sets_join cs = false -> br_join b' = br_join b).
Proof.
  induction cs as [|c cs IH]; intros r b r' b' Hg; cbn [converts existsb].
  - intros [= <- <-]. auto.
  - destruct (convert r b c) as [[r1 b1]|] eqn:Ec; [|discriminate]. intros H.
    destruct (convert_good _ _ _ _ _ Hg Ec) as [G1 [I1 [T1 J1]]].
    destruct (IH _ _ _ _ G1 H) as [G2 [I2 [T2 J2]]].
    split; [exact G2|]. split; [congruence|]. split; [congruence|].
    intros E. apply orb_false_iff in E. destruct E as [E1 E2]. rewrite J2, J1; auto.
Qed.

(** ** Hints *)

Section HintProofs.
Context (ta tj : nat).

Lemma set_hint_in e i h : In i (he_todo e) ->
  set_hint e i h = mk_heval (filter (fun j => negb (ident_eqb i j)) (he_todo e)) ((i, h) :: he_done e)
    (he_compat e).
Proof.
  intros Hi. unfold set_hint. replace (existsb (ident_eqb i) (he_todo e)) with true; [reflexivity|].
  symmetry. apply existsb_exists. exists i. split; [exact Hi|]. destruct (ident_eqb_spec i i); congruence.
Qed.

Lemma set_hint_out e i h : ~ In i (he_todo e) ->
  set_hint e i h = mk_heval (he_todo e) (he_done e)
    (mk_incompat (ic_missing (he_compat e) ++ [i]) (ic_forbidden (he_compat e)) (ic_wrong (he_compat e))).
Proof.
  intros Hi. unfold set_hint. destruct (existsb (ident_eqb i) (he_todo e)) eqn:Ee; [|reflexivity].
  apply existsb_exists in Ee. destruct Ee as [j [Hj Ej]]. destruct (ident_eqb_spec i j); [|discriminate].
  subst. contradiction.
Qed.

Lemma filter_out_head i (l : list ident) : ~ In i l -> filter (fun j => negb (ident_eqb i j)) l = l.
Proof.
  induction l as [|j l IH]; intros H; [reflexivity|]. cbn [filter].
  destruct (ident_eqb_spec i j) as [->|]; [destruct H; left; reflexivity|].
  cbn [negb]. f_equal. apply IH. intros Hi. apply H. right. exact Hi.
Qed.

(** Giving the same hint to everything that is left. *)
Lemma hint_rest h l : forall d c, NoDup l ->
  fold_left (fun e i => set_hint e i h) l (mk_heval l d c)
  = mk_heval [] (rev (map (fun i => (i, h)) l) ++ d) c.
Proof.
  induction l as [|i l IH]; intros d c Hn; [reflexivity|]. inversion Hn as [|x y Hx Hy]; subst.
  cbn [fold_left]. rewrite set_hint_in by (left; reflexivity). cbn [he_todo he_done he_compat filter].
  destruct (ident_eqb_spec i i) as [_|]; [|congruence]. cbn [negb]. rewrite filter_out_head by exact Hx.
  rewrite IH by exact Hy. cbn [map rev]. rewrite <- app_assoc. reflexivity.
Qed.

Lemma NoDup_filter' {A} (f : A -> bool) l : NoDup l -> NoDup (filter f l).
Proof. apply NoDup_filter. Qed.

Lemma hint_all_is keep h ids : NoDup ids ->
  evaluate (hint_all keep h (mk_heval ids [] no_incompat))
  = inr (rev (map (fun i => (i, h)) (filter keep ids))).
Proof.
  intros Hn. unfold hint_all, forbid. cbn [he_todo he_done he_compat no_incompat].
  rewrite hint_rest by (apply NoDup_filter; exact Hn).
  unfold evaluate. cbn [he_todo he_done he_compat ic_missing ic_forbidden ic_wrong app].
  unfold as_result. cbn [ic_missing ic_wrong]. rewrite app_nil_r. reflexivity.
Qed.

(** Hints for given identifiers. *)
Definition set_all (l : list (ident * hint)) (e : heval) : heval :=
  fold_left (fun e p => set_hint e (fst p) (snd p)) l e.

Lemma set_all_is l : forall e, NoDup (map fst l) ->
  (forall i, In i (he_todo (set_all l e)) <-> In i (he_todo e) /\ ~ In i (map fst l)) /\
  (forall i h, In (i, h) (he_done (set_all l e))
     <-> In (i, h) (he_done e) \/ (In (i, h) l /\ In i (he_todo e))) /\
  (forall i, In i (ic_missing (he_compat (set_all l e)))
     <-> In i (ic_missing (he_compat e)) \/ (In i (map fst l) /\ ~ In i (he_todo e))) /\
  ic_wrong (he_compat (set_all l e)) = ic_wrong (he_compat e).
Proof.
  induction l as [|[i h] l IH]; intros e Hn.
  - cbn. repeat split; intuition.
  - cbn [map fst] in Hn. inversion Hn as [|x y Hx Hy]; subst. cbn [set_all fold_left fst snd map].
    fold (set_all l (set_hint e i h)).
    destruct (IH (set_hint e i h) Hy) as [A [B [C D]]].
    assert (Hdec : In i (he_todo e) \/ ~ In i (he_todo e)).
    { destruct (in_dec (fun a b => match ident_eqb_spec a b with ReflectT _ H => left H | ReflectF _ H => right H end)
        i (he_todo e)); auto. }
    destruct Hdec as [Hi|Hi].
    + rewrite (set_hint_in e i h Hi) in *. cbn [he_todo he_done he_compat] in *.
      assert (F : forall j, In j (filter (fun j => negb (ident_eqb i j)) (he_todo e))
                  <-> In j (he_todo e) /\ j <> i).
      { intros j. rewrite filter_In. destruct (ident_eqb_spec i j) as [->|]; cbn [negb]; intuition congruence. }
      split; [|split; [|split]].
      * intros j. rewrite A, F. cbn [In]. intuition congruence.
      * intros j k. rewrite B, F. cbn [In]. split.
        -- intros [[[= <- <-]|H]|[H [H1 H2]]]; auto.
        -- intros [H|[[[= <- <-]|H] H1]]; auto. right. split; [exact H|]. split; [exact H1|].
           intros ->. apply Hx. apply in_map_iff. exists (i, k). auto.
      * intros j. rewrite C, F. cbn [In]. split.
        -- intros [H|[H H1]]; [auto|]. right. split; [auto|]. intros H2. apply H1. split; [exact H2|].
           intros ->. contradiction.
        -- intros [H|[[<-|H] H1]]; [auto|contradiction|]. right. split; [exact H|]. intros [H2 _]. contradiction.
      * exact D.
    + rewrite (set_hint_out e i h Hi) in *. cbn [he_todo he_done he_compat ic_missing ic_wrong] in *.
      split; [|split; [|split]].
      * intros j. rewrite A. cbn [In]. intuition congruence.
      * intros j k. rewrite B. cbn [In]. split.
        -- intros [H|[H H1]]; auto.
        -- intros [H|[[[= <- <-]|H] H1]]; auto. contradiction.
      * intros j. rewrite C, in_app_iff. cbn [In]. intuition congruence.
      * exact D.
Qed.

Lemma set_all_done l ids : NoDup (map fst l) ->
  match evaluate (set_all l (mk_heval ids [] no_incompat)) with
  | inr h => (forall i, In i (map fst l) -> In i ids) /\
             (forall i x, In (i, x) h <-> In (i, x) l /\ In i ids)
  | inl c => (exists i, In i (ic_missing c)) /\
             (forall i, In i (ic_missing c) <-> In i (map fst l) /\ ~ In i ids)
  end.
Proof.
  intros Hn. destruct (set_all_is l (mk_heval ids [] no_incompat) Hn) as [A [B [C D]]].
  cbn [he_todo he_done he_compat no_incompat ic_missing ic_wrong] in *.
  unfold evaluate. destruct (as_result _) eqn:Ea.
  - apply as_result_ok in Ea. destruct Ea as [Em _]. split.
    + intros i Hi.
      destruct (in_dec (fun a b => match ident_eqb_spec a b with ReflectT _ H => left H | ReflectF _ H => right H end)
        i ids) as [H|H]; [exact H|].
      assert (In i (ic_missing (he_compat (set_all l (mk_heval ids [] no_incompat))))) as Hm
        by (apply C; auto). rewrite Em in Hm. destruct Hm.
    + intros i x. rewrite B. cbn [In]. intuition.
  - cbn [ic_missing]. split.
    + destruct (ic_missing (he_compat (set_all l (mk_heval ids [] no_incompat)))) as [|i t] eqn:Em.
      * unfold as_result in Ea. cbn [ic_missing ic_wrong] in Ea. rewrite D in Ea. discriminate.
      * exists i. left. reflexivity.
    + intros i. rewrite C. cbn [In]. intuition.
Qed.

End HintProofs.
