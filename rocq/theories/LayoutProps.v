(** Property theorems C68 to C71: maps of buffers, layouts, hints and joined JSON. *)
From Coq Require Import String.
From Verif Require Import Base RosterModel BufferModel GateModel JoinModel JoinSpec
  LayoutModel LayoutSpec LayoutProofs LayoutProofs2.
Local Open Scope string_scope.
Local Open Scope list_scope.

(** Witnesses: messages of type 4 can be serialised and cloned, those of type 5 neither;
    type 6 is JsonMessage and type 7 AnyMessageBox. *)
Definition lregs : regs := mk_regs (fun t => Nat.eqb t 4 || Nat.eqb t 6) (fun t => Nat.eqb t 4 || Nat.eqb t 6).
Definition lmap : bmap :=
  [(Name "a", mk_abuf 1 Clone 4); (Name "b", mk_abuf 2 Pull 5); (Index 0, mk_abuf 3 Pull 4)].
Definition lstruct : layout := LStruct [("a", KFetch 4); ("b", KBuf 5)].
Definition lnode (q : list nat) : bufnode nat :=
  mk_bufnode (mk_storage KeepAll (fun s => if Nat.eqb s 8 then Some q else None)) (fun _ => None) [].
Definition lbufs : emap (bufnode nat) :=
  fun b => match b with
           | 1 => Some (lnode [11; 10]) | 2 => Some (lnode [21; 20]) | 3 => Some (lnode [30])
           | _ => None
           end.
Definition ltypes : emap nat := fun b => match b with 1 => Some 4 | 2 => Some 5 | 3 => Some 4 | _ => None end.
Definition lser (_ v : nat) : option json := Some (JLeaf v).

Lemma lmap_good : good_map lmap.
Proof. repeat constructor; cbn; intuition discriminate. Qed.

(** C68. A map of buffers is accepted for a layout exactly if each buffer the layout needs
    is in the map and can be used in the way the layout needs it. *)
Theorem C68_layout_accepts_exactly_what_fits :
  forall (r : regs) (L : layout) (m : bmap), good_map m ->
  ((exists ds, try_layout r L m = inr ds) <->
   (forall i k, In (i, k) (wanted L m) -> exists b, In (i, b) m /\ fits r b k)).
Proof.
  intros r L m Hg. rewrite <- (ok_in_all r m _ Hg).
  destruct (try_layout_cases r L m Hg) as [[E H]|[fo [E H]]]; rewrite E; split; auto.
  - intros _. eauto.
  - intros [ds D]. discriminate.
  - intros H'. contradiction.
Qed.
Print Assumptions C68_layout_accepts_exactly_what_fits.

Example C68_layout_accepts_exactly_what_fits_case :
  good_map lmap /\
  try_layout lregs lstruct lmap
  = inr [(Name "a", mk_bref (KFetch 4) 1 Clone 4); (Name "b", mk_bref (KBuf 5) 2 Pull 5)] /\
  try_layout lregs LJsonAll lmap = inl (mk_incompat [] [] [Name "b"]).
Proof. split; [apply lmap_good|]. split; reflexivity. Qed.

(** C68. The buffers an accepted layout holds are those of the map with the identifiers it
    needs, in its order, each as the kind of buffer it needs. *)
Theorem C68_layout_holds_the_buffers_of_the_map :
  forall (r : regs) (L : layout) (m : bmap) (ds : list (ident * bref)),
  good_map m -> try_layout r L m = inr ds ->
  map fst ds = map fst (wanted L m) /\
  forall i d, In (i, d) ds -> exists b k, In (i, b) m /\ In (i, k) (wanted L m) /\
    br_kind d = k /\ br_id d = ab_id b /\ br_ty d = ab_ty b.
Proof.
  intros r L m ds Hg Ht.
  destruct (try_layout_cases r L m Hg) as [[E H]|[fo [E _]]]; rewrite E in Ht; [|discriminate].
  injection Ht as <-. split; [apply good_in_all; exact H|].
  intros i d Hd. apply good_in_in in Hd. destruct Hd as [k [b [Hk [Hf Hd]]]].
  apply downcast_is in Hd. destruct Hd as [A [B [C _]]].
  exists b, k. repeat split; auto. apply find_in. exact Hf.
Qed.
Print Assumptions C68_layout_holds_the_buffers_of_the_map.

Example C68_layout_holds_the_buffers_of_the_map_case :
  exists ds, try_layout lregs lstruct lmap = inr ds /\ length ds = 2.
Proof. eexists. split; reflexivity. Qed.

(** C68. The error names the missing buffers and those that cannot be used, all of them,
    and no others. *)
Theorem C68_errors_name_what_does_not_fit :
  forall (r : regs) (L : layout) (m : bmap) (c : incompat),
  good_map m -> try_layout r L m = inl c ->
  (forall i, In i (ic_missing c) <-> (exists k, In (i, k) (wanted L m)) /\ ~ In i (map fst m)) /\
  (forall i, In i (ic_wrong c) <-> exists k b, In (i, k) (wanted L m) /\ In (i, b) m /\ ~ fits r b k).
Proof.
  intros r L m c Hg Ht.
  destruct (try_layout_cases r L m Hg) as [[E H]|[fo [E _]]]; rewrite E in Ht; [discriminate|].
  injection Ht as <-. cbn [ic_missing ic_wrong]. split.
  - apply missing_in_in.
  - intros i. apply wrong_in_in. exact Hg.
Qed.
Print Assumptions C68_errors_name_what_does_not_fit.

Example C68_errors_name_what_does_not_fit_case :
  try_layout lregs (LStruct [("x", KAny); ("b", KFetch 4); ("a", KJson)]) lmap
  = inl (mk_incompat [Name "x"] [] [Name "b"]).
Proof. reflexivity. Qed.

(** C68. A map can be used as a vector exactly if its identifiers are the indices from 0 on
    without a gap and every buffer fits. *)
Theorem C68_vectors_need_every_index :
  forall (r : regs) (k : bkind) (m : bmap), good_map m ->
  ((exists ds, try_layout r (LVec k) m = inr ds) <->
   Permutation (map fst m) (map Index (seq 0 (length m))) /\ (forall i b, In (i, b) m -> fits r b k)).
Proof.
  intros r k m Hg. rewrite C68_layout_accepts_exactly_what_fits by exact Hg. apply vector_wanted. exact Hg.
Qed.
Print Assumptions C68_vectors_need_every_index.

Example C68_vectors_need_every_index_case :
  try_layout lregs (LVec (KBuf 4)) [(Index 1, mk_abuf 1 Pull 4); (Index 0, mk_abuf 3 Pull 4)]
  = inr [(Index 0, mk_bref (KBuf 4) 3 Pull 4); (Index 1, mk_bref (KBuf 4) 1 Pull 4)] /\
  try_layout lregs (LVec (KBuf 4)) lmap = inl (mk_incompat [Index 1; Index 2] [] []).
Proof. split; reflexivity. Qed.

(** C68. Every buffer of the map is used by vectors and by maps (for JSON with any
    identifiers or for messages of any type). Missing: structs, single buffers and maps
    from names to JSON, for which it is false (next theorem). *)
Theorem C68_every_buffer_is_used_partial :
  forall (r : regs) (L : layout) (m : bmap) (ds : list (ident * bref)),
  good_map m -> ((exists k, L = LVec k) \/ L = LJsonAll \/ L = LMap) ->
  try_layout r L m = inr ds -> Permutation (map fst m) (map fst ds).
Proof.
  intros r L m ds Hg HL Ht.
  destruct (C68_layout_holds_the_buffers_of_the_map r L m ds Hg Ht) as [-> _].
  destruct HL as [[k ->]|[->| ->]].
  - assert (He : exists ds, try_layout r (LVec k) m = inr ds) by eauto.
    apply C68_vectors_need_every_index in He; [|exact Hg]. destruct He as [Hp _].
    cbn [wanted]. rewrite map_map. exact Hp.
  - cbn [wanted]. rewrite map_map. apply Permutation_refl.
  - cbn [wanted]. rewrite map_map. apply Permutation_refl.
Qed.
Print Assumptions C68_every_buffer_is_used_partial.

Example C68_every_buffer_is_used_partial_case :
  exists ds, try_layout lregs LMap lmap = inr ds /\ length ds = 3.
Proof. eexists. split; reflexivity. Qed.

(** C68. Structs, single buffers and maps from names to JSON values accept maps with
    buffers they do not use, without an error, whatever those buffers are. *)
Theorem C68_every_buffer_is_used_refuted :
  (forall (r : regs) (L : layout) (m : bmap) (i : ident) (b : abuf) (ds : list (ident * bref)),
   good_map ((i, b) :: m) -> (forall k, ~ asks L i k) -> (exists f, L = LStruct f) \/ L = LJsonNames ->
   try_layout r L m = inr ds -> try_layout r L ((i, b) :: m) = inr ds) /\
  (exists (m : bmap) (ds : list (ident * bref)),
   try_layout lregs LJsonNames m = inr ds /\ length m = 2 /\ length ds = 1) /\
  (exists (m : bmap) (ds : list (ident * bref)),
   try_layout lregs (LOne (KBuf 4)) m = inr ds /\ length m = 3 /\ length ds = 1).
Proof.
  split; [|split].
  - intros r L m i b ds Hg Ha HL Ht.
    assert (Hg' : good_map m) by (unfold good_map in *; cbn in Hg; inversion Hg; assumption).
    assert (Hw : wanted L ((i, b) :: m) = wanted L m).
    { destruct HL as [[f ->]| ->]; [reflexivity|]. cbn [wanted flat_map fst].
      destruct i as [n|n]; [|reflexivity]. destruct (Ha KJson). cbn [asks]. eauto. }
    assert (Hf : forall j k, In (j, k) (wanted L m) -> ok_in r ((i, b) :: m) (j, k) = ok_in r m (j, k)).
    { intros j k Hj. unfold ok_in. cbn [fst snd find]. destruct (ident_eqb_spec j i) as [->|]; [|reflexivity].
      destruct (Ha k). apply (wanted_asks L m). exact Hj. }
    destruct (try_layout_cases r L m Hg') as [[E H]|[fo [E _]]]; rewrite E in Ht; [|discriminate].
    injection Ht as <-.
    destruct (try_layout_cases r L ((i, b) :: m) Hg) as [[E' H']|[fo [E' H']]]; rewrite E', Hw in *.
    + f_equal. unfold good_in. clear - Hf. induction (wanted L m) as [|[j k] w IH]; [reflexivity|].
      cbn [flat_map]. rewrite Hf by (left; reflexivity). f_equal. apply IH.
      intros j' k' Hj'. apply Hf. right. exact Hj'.
    + destruct H'. intros [j k] Hj. rewrite Hf by exact Hj. apply H. exact Hj.
  - exists [(Name "a", mk_abuf 1 Pull 4); (Index 3, mk_abuf 2 Pull 5)]. eexists. repeat split; reflexivity.
  - exists lmap. eexists. repeat split; reflexivity.
Qed.
Print Assumptions C68_every_buffer_is_used_refuted.

Example C68_every_buffer_is_used_refuted_case :
  good_map ((Name "z", mk_abuf 9 Pull 5) :: lmap) /\ (forall k, ~ asks lstruct (Name "z") k) /\
  exists ds, try_layout lregs lstruct lmap = inr ds.
Proof.
  split; [|split].
  - repeat constructor; cbn; intuition discriminate.
  - intros k [n [[= <-] [H|[H|[]]]]]; discriminate.
  - eexists. reflexivity.
Qed.

(** ** C69 *)

(** C69. Converting references to a buffer, in any sequence, gives references to the same
    buffer with the same message type, and what a join does with the buffer stays the same
    unless a conversion says otherwise. Missing: conversions to [Buffer<T>] count as saying
    so, although only the message type was asked for. *)
Theorem C69_conversions_keep_the_buffer_partial :
  forall (r r' : regs) (b b' : bref) (cs : list conv),
  good_ref b -> converts r b cs = Some (r', b') ->
  br_id b' = br_id b /\ br_ty b' = br_ty b /\
  (existsb sets_join cs = false -> br_join b' = br_join b).
Proof. intros r r' b b' cs Hg H. apply (converts_good cs r b r' b' Hg H). Qed.
Print Assumptions C69_conversions_keep_the_buffer_partial.

Example C69_conversions_keep_the_buffer_partial_case :
  exists r', converts lregs (mk_bref (KClone 4) 1 Clone 4)
    [CvDowncast KAny; CvDowncast KJson; CvDowncast (KFetch 4); CvDowncast KAny]
  = Some (r', mk_bref KAny 1 Clone 4).
Proof. eexists. reflexivity. Qed.

(** C69. A join over an accepted layout takes the oldest message of each buffer it needs,
    removes it if the buffer is to be pulled from, leaves the buffer as it is if it is to
    be cloned from, and changes nothing else; for JSON the message is serialised and,
    for a clone, is the newest one. Missing: buffers that the layout needs as [Buffer<T>]
    are pulled from in any case (next theorem); messages that cannot be serialised; clones of
    types for which cloning was not registered (last theorem). *)
Theorem C69_join_takes_what_was_asked_partial :
  forall (V : Type) (ser : nat -> V -> option json) (r : regs) (L : layout) (m : bmap)
         (ds : list (ident * bref)) (types : emap nat) (bufs : emap (bufnode V)) (s : entity),
  good_layout L -> good_map m -> NoDup (map (fun p => ab_id (snd p)) m) ->
  try_layout r L m = inr ds ->
  (forall i k b, In (i, k) (wanted L m) -> In (i, b) m ->
     types (ab_id b) = Some (ab_ty b) /\ held bufs (ab_id b) s <> [] /\
     (ab_join b = Clone -> (forall t, k <> KBuf t) /\ r_clone r (ab_ty b) = true) /\
     (k = KJson -> forall v, In v (held bufs (ab_id b) s) -> ser (ab_ty b) v <> None)) ->
  exists bufs' vs, fetch_layout ser r types bufs s ds = (bufs', Some vs) /\
    map fst vs = map fst (wanted L m) /\
    (forall i k b, In (i, k) (wanted L m) -> In (i, b) m ->
       (exists g, In (i, g) vs /\ expected ser k b (held bufs (ab_id b) s) = Some g) /\
       held bufs' (ab_id b) s
       = match effective k b with
         | Pull => tl (held bufs (ab_id b) s)
         | Clone => held bufs (ab_id b) s
         end) /\
    (forall b' s', (s' <> s \/ forall i k b, In (i, k) (wanted L m) -> In (i, b) m -> ab_id b <> b') ->
       held bufs' b' s' = held bufs b' s').
Proof. exact @join_layout_ok. Qed.
Print Assumptions C69_join_takes_what_was_asked_partial.

Example C69_join_takes_what_was_asked_partial_case :
  good_layout lstruct /\ NoDup (map (fun p => ab_id (snd p)) lmap) /\
  (forall i k b, In (i, k) (wanted lstruct lmap) -> In (i, b) lmap ->
     ltypes (ab_id b) = Some (ab_ty b) /\ held lbufs (ab_id b) 8 <> [] /\
     (ab_join b = Clone -> (forall t, k <> KBuf t) /\ r_clone lregs (ab_ty b) = true) /\
     (k = KJson -> forall v, In v (held lbufs (ab_id b) 8) -> lser (ab_ty b) v <> None)) /\
  exists ds bufs', try_layout lregs lstruct lmap = inr ds /\
    fetch_layout lser lregs ltypes lbufs 8 ds
    = (bufs', Some [(Name "a", GVal 10); (Name "b", GVal 20)]) /\
    held bufs' 1 8 = [10; 11] /\ held bufs' 2 8 = [21].
Proof.
  split; [repeat constructor; cbn; intuition discriminate|].
  split; [repeat constructor; cbn; intuition discriminate|].
  split.
  - cbn [wanted lstruct map fst snd lmap In]. intros i k b Hw Hm.
    destruct Hw as [[= <- <-]|[[= <- <-]|[]]]; destruct Hm as [Hm|[Hm|[Hm|[]]]];
      injection Hm; intros; subst; try discriminate; repeat split; try discriminate; try reflexivity.
  - eexists. eexists. repeat split; reflexivity.
Qed.

(** C69. A join into a vector (Vec<T>, SmallVec<[T; N]>) from a map of buffers removes the
    messages also from the buffers that were to be cloned from. *)
Theorem C69_vector_join_clones_refuted :
  (forall (r : regs) (t : nat) (m : bmap) (ds : list (ident * bref)), good_map m ->
   try_layout r (LVec (KBuf t)) m = inr ds -> forall i d, In (i, d) ds -> br_join d = Pull) /\
  exists (m : bmap) (ds : list (ident * bref)) (bufs' : emap (bufnode nat)),
    m = [(Index 0, mk_abuf 1 Clone 4); (Index 1, mk_abuf 3 Pull 4)] /\
    try_layout lregs (LVec (KBuf 4)) m = inr ds /\
    fetch_layout lser lregs ltypes lbufs 8 ds = (bufs', Some [(Index 0, GVal 10); (Index 1, GVal 30)]) /\
    held lbufs 1 8 = [10; 11] /\ held bufs' 1 8 = [11].
Proof.
  split.
  - intros r t m ds Hg Ht i d Hd.
    destruct (try_layout_cases r (LVec (KBuf t)) m Hg) as [[E _]|[fo [E _]]]; rewrite E in Ht; [|discriminate].
    injection Ht as <-. apply good_in_in in Hd. destruct Hd as [k [b [Hk [_ Hd]]]].
    apply (wanted_asks (LVec (KBuf t)) m) in Hk. destruct Hk as [_ ->]. apply downcast_is in Hd. apply Hd.
  - eexists. eexists. eexists. split; [reflexivity|]. repeat split; reflexivity.
Qed.
Print Assumptions C69_vector_join_clones_refuted.

(** C69. The message that is cloned depends on whether the result is JSON: the oldest
    message of a buffer if not, the newest one if so. *)
Theorem C69_clones_the_same_message_refuted :
  exists (m : bmap) (ds1 ds2 : list (ident * bref)),
    m = [(Name "a", mk_abuf 1 Clone 4)] /\ held lbufs 1 8 = [10; 11] /\
    try_layout lregs (LStruct [("a", KFetch 4)]) m = inr ds1 /\
    try_layout lregs LJsonAll m = inr ds2 /\
    snd (fetch_layout lser lregs ltypes lbufs 8 ds1) = Some [(Name "a", GVal 10)] /\
    snd (fetch_layout lser lregs ltypes lbufs 8 ds2) = Some [(Name "a", GJson (JLeaf 11))].
Proof. eexists. eexists. eexists. split; [reflexivity|]. repeat split; reflexivity. Qed.
Print Assumptions C69_clones_the_same_message_refuted.

(** C69. A [JsonBuffer] can be set to be cloned from although cloning of its messages was
    never registered; used as a buffer of any messages it is then accepted, and the join
    fails whatever the buffers hold. *)
Theorem C69_cloning_is_checked_refuted :
  (forall (V : Type) (ser : nat -> V -> option json) (r : regs) (b : bref) (i : ident)
          (types : emap nat) (bufs : emap (bufnode V)) (s : entity),
   br_kind b = KJson -> r_clone r (br_ty b) = false ->
   exists b', convert r b CvCloning = Some (r, b') /\
   exists ds, try_layout r LMap [(i, to_any b')] = inr ds /\
     snd (fetch_layout ser r types bufs s ds) = None) /\
  exists (r : regs) (b : bref), br_kind b = KJson /\ good_ref b /\
    r_json r (br_ty b) = true /\ r_clone r (br_ty b) = false.
Proof.
  split.
  - intros V ser r b i types bufs s Hk Hc. eexists. split; [cbn [convert]; rewrite Hk; reflexivity|].
    eexists. split; [reflexivity|].
    assert (Hn : snd (fetch_ref ser r types bufs s (mk_bref KAny (br_id b) Clone (br_ty b))) = None).
    { unfold fetch_ref. cbn [br_id br_ty br_kind br_join].
      destruct (bufs (br_id b)); [|reflexivity]. destruct (types (br_id b)) as [t|]; [|reflexivity].
      destruct (Nat.eqb_spec t (br_ty b)) as [->|]; [|reflexivity]. rewrite Hc. reflexivity. }
    cbn. destruct (fetch_ref _ _ _ _ _ _) as [bufs1 o]. cbn in Hn. subst o. reflexivity.
  - exists (mk_regs (fun _ => true) (fun _ => false)), (mk_bref KJson 1 Pull 4). repeat split.
Qed.
Print Assumptions C69_cloning_is_checked_refuted.

(** ** C70 *)

(** C70. The hints say for each identifier that the layout asks for, and for no other, the
    message type of the kind of buffer it is asked for. *)
Theorem C70_hints_are_for_the_layout :
  forall (ta tj : nat) (L : layout) (ids : list ident) (h : list (ident * hint)),
  good_layout L -> NoDup ids -> hints ta tj L ids = inr h ->
  forall i x, In (i, x) h <-> In i ids /\ exists k, asks L i k /\ x = kind_hint ta tj k.
Proof.
  intros ta tj L ids h HL Hn Hh. pose proof (hints_are ta tj L ids HL Hn) as H. rewrite Hh in H. apply H.
Qed.
Print Assumptions C70_hints_are_for_the_layout.

Example C70_hints_are_for_the_layout_case :
  hints 7 6 (LStruct [("a", KFetch 4); ("b", KJson)]) [Name "b"; Name "z"; Name "a"]
  = inr [(Name "b", Fallback 6); (Name "a", Exact 4)].
Proof. reflexivity. Qed.

(** C70. If hints were given and the buffers have the types of the hints, the layout accepts
    the buffers (JsonMessage is registered for JSON, clones are registered). Missing:
    vectors need the indices from 0 on, which the hints do not check (below). *)
Theorem C70_hinted_buffers_fit_partial :
  forall (ta tj : nat) (r : regs) (L : layout) (m : bmap) (h : list (ident * hint)),
  good_layout L -> good_map m -> hints ta tj L (map fst m) = inr h ->
  r_json r tj = true ->
  (forall i b, In (i, b) m -> ab_join b = Clone -> r_clone r (ab_ty b) = true) ->
  (forall i t, asks L i (KClone t) -> r_clone r t = true) ->
  (forall i b x, In (i, b) m -> In (i, x) h -> follows b x) ->
  (forall k n, L = LVec k -> n < length m -> In (Index n) (map fst m)) ->
  exists ds, try_layout r L m = inr ds.
Proof.
  intros ta tj r L m h HL Hg Hh Hj Hc Hk Hf Hv.
  pose proof (hints_are ta tj L (map fst m) HL Hg) as H. rewrite Hh in H. destruct H as [H1 H2].
  apply C68_layout_accepts_exactly_what_fits; [exact Hg|]. intros i k Hw.
  assert (Hi : In i (map fst m)).
  { destruct L as [f|k'|k'| | |].
    - eapply H2; [|exact Hw|left; eauto]. left. apply wanted_asks in Hw. destruct Hw as [n [-> _]]. eauto.
    - assert (k' = k) by (apply wanted_asks in Hw; destruct Hw; congruence). subst k'.
      eapply H2; [right; reflexivity|exact Hw|right; reflexivity].
    - cbn [wanted] in Hw. apply in_map_iff in Hw. destruct Hw as [n [[= <- <-] Hn]].
      apply in_seq in Hn. apply (Hv k' n eq_refl). lia.
    - cbn [wanted] in Hw. apply in_flat_map in Hw. destruct Hw as [[j b] [Hb Hw]]. cbn [fst] in Hw.
      destruct j as [n|n]; [|destruct Hw]. destruct Hw as [[= <- <-]|[]].
      apply in_map_iff. exists (Name n, b). auto.
    - cbn [wanted] in Hw. apply in_map_iff in Hw. destruct Hw as [[j b] [[= <- <-] Hb]].
      apply in_map_iff. exists (j, b). auto.
    - cbn [wanted] in Hw. apply in_map_iff in Hw. destruct Hw as [[j b] [[= <- <-] Hb]].
      apply in_map_iff. exists (j, b). auto. }
  pose proof (wanted_asks _ _ _ _ Hw) as Ha.
  assert (Hx : In (i, kind_hint ta tj k) h) by (apply H1; split; [exact Hi|eauto]).
  apply in_map_iff in Hi. destruct Hi as [[j b] [E Hb]]. cbn [fst] in E. subst j.
  exists b. split; [exact Hb|]. specialize (Hf i b _ Hb Hx).
  destruct k as [|t|t|t|]; cbn [kind_hint follows fits] in *; auto.
  - split; [exact Hf|]. intros E. rewrite <- Hf. eapply Hc; eauto.
  - split; [exact Hf|]. eapply Hk. exact Ha.
  - rewrite Hf. exact Hj.
Qed.
Print Assumptions C70_hinted_buffers_fit_partial.

Example C70_hinted_buffers_fit_partial_case :
  let m := [(Index 1, mk_abuf 1 Clone 4); (Index 0, mk_abuf 3 Pull 4)] in
  let h := [(Index 0, Exact 4); (Index 1, Exact 4)] in
  hints 7 6 (LVec (KFetch 4)) (map fst m) = inr h /\ good_map m /\ r_json lregs 6 = true /\
  (forall i b, In (i, b) m -> ab_join b = Clone -> r_clone lregs (ab_ty b) = true) /\
  (forall i b x, In (i, b) m -> In (i, x) h -> follows b x) /\
  (forall n, n < length m -> In (Index n) (map fst m)).
Proof.
  cbv zeta. split; [reflexivity|]. split; [repeat constructor; cbn; intuition discriminate|].
  split; [reflexivity|]. split; [|split].
  - intros i b [[= <- <-]|[[= <- <-]|[]]] _; reflexivity.
  - intros i b x [[= <- <-]|[[= <- <-]|[]]] [Hx|[Hx|[]]]; try discriminate; injection Hx as <-; reflexivity.
  - intros [|[|n]] Hl; cbn in *; auto. lia.
Qed.

(** C70. If no hints are given for a set of identifiers, no buffers with these identifiers
    are accepted by the layout, and the identifier in the error is one it needs. *)
Theorem C70_refused_identifiers_never_fit :
  forall (ta tj : nat) (r : regs) (L : layout) (m : bmap) (c : incompat),
  good_layout L -> good_map m -> hints ta tj L (map fst m) = inl c ->
  (exists c', try_layout r L m = inl c') /\
  exists i k, In i (ic_missing c) /\ ~ In i (map fst m) /\ In (i, k) (wanted L m).
Proof.
  intros ta tj r L m c HL Hg Hh.
  pose proof (hints_are ta tj L (map fst m) HL Hg) as H. rewrite Hh in H.
  destruct H as [i [k [Hi [Hm Hw]]]]. split; [|exists i, k; auto].
  destruct (try_layout r L m) as [c'|ds] eqn:E; [eauto|].
  assert (He : exists ds, try_layout r L m = inr ds) by eauto.
  apply (proj1 (C68_layout_accepts_exactly_what_fits r L m Hg)) with (i := i) (k := k) in He; [|apply Hw].
  destruct He as [b [Hb _]]. destruct Hi. apply in_map_iff. exists (i, b). auto.
Qed.
Print Assumptions C70_refused_identifiers_never_fit.

Example C70_refused_identifiers_never_fit_case :
  hints 7 6 (LStruct [("a", KFetch 4); ("x", KJson)]) (map fst lmap)
  = inl (mk_incompat [Name "x"] [Name "b"; Index 0] []).
Proof. reflexivity. Qed.

(** C70. Hints are also given, without an error, for identifiers that the layout then
    refuses (a gap in the indices of a vector, names in a vector), and identifiers for which
    there is no hint do not lead to an error. *)
Theorem C70_hints_refuse_what_does_not_fit_refuted :
  (exists (ids : list ident) (h : list (ident * hint)), NoDup ids /\
     hints 7 6 (LVec (KBuf 4)) ids = inr h /\
     (forall i, In i ids -> exists x, In (i, x) h) /\
     forall r m, map fst m = ids -> exists c, try_layout r (LVec (KBuf 4)) m = inl c) /\
  (exists (ids : list ident) (h : list (ident * hint)), NoDup ids /\
     hints 7 6 (LVec (KBuf 4)) ids = inr h /\ (exists n, In (Name n) ids) /\
     forall r m, map fst m = ids -> exists c, try_layout r (LVec (KBuf 4)) m = inl c) /\
  (forall ta tj f ids h i, NoDup (map fst f) -> NoDup ids -> ~ In i ids ->
     (forall k, ~ asks (LStruct f) i k) -> hints ta tj (LStruct f) ids = inr h ->
     exists h', hints ta tj (LStruct f) (i :: ids) = inr h' /\ forall x, ~ In (i, x) h').
Proof.
  assert (Hno : forall ids, NoDup ids -> (exists n, n < length ids /\ ~ In (Index n) ids) ->
    forall r m, map fst m = ids -> exists c, try_layout r (LVec (KBuf 4)) m = inl c).
  { intros ids Hn [n [Hl Hi]] r m <-. destruct (try_layout r (LVec (KBuf 4)) m) as [c|ds] eqn:E; [eauto|].
    assert (He : exists ds, try_layout r (LVec (KBuf 4)) m = inr ds) by eauto.
    apply C68_vectors_need_every_index in He; [|exact Hn]. destruct He as [Hp _]. destruct Hi.
    eapply Permutation_in; [apply Permutation_sym; exact Hp|]. apply in_map. apply in_seq.
    rewrite map_length in Hl. lia. }
  split; [|split].
  - assert (Hd : NoDup [Index 0; Index 2]) by (repeat constructor; cbn; intuition discriminate).
    exists [Index 0; Index 2]. eexists. split; [exact Hd|]. split; [reflexivity|]. split.
    + intros i [<-|[<-|[]]]; eexists; cbn; eauto.
    + apply Hno; [exact Hd|]. exists 1. split; [cbn; lia|]. intros [H|[H|[]]]; discriminate.
  - assert (Hd : NoDup [Index 0; Name "a"]) by (repeat constructor; cbn; intuition discriminate).
    exists [Index 0; Name "a"]. eexists. split; [exact Hd|]. split; [reflexivity|]. split.
    + exists "a". right. left. reflexivity.
    + apply Hno; [exact Hd|]. exists 1. split; [cbn; lia|]. intros [H|[H|[]]]; discriminate.
  - intros ta tj f ids h i Hf Hn Hi Ha Hh.
    assert (Hn' : NoDup (i :: ids)) by (constructor; assumption).
    pose proof (hints_are ta tj (LStruct f) (i :: ids) Hf Hn') as H.
    pose proof (hints_are ta tj (LStruct f) ids Hf Hn) as H0. rewrite Hh in H0. destruct H0 as [_ H0].
    destruct (hints ta tj (LStruct f) (i :: ids)) as [c|h'].
    + destruct H as [j [k [Hj [_ Hw]]]]. destruct Hj. right. pose proof (wanted_asks _ _ _ _ (Hw [])) as Hk.
      destruct Hk as [n [-> Hin]]. eapply H0; [left; eauto|apply (Hw [])|left; eauto].
    + exists h'. split; [reflexivity|]. intros x Hx. apply H in Hx. destruct Hx as [_ [k [Hk _]]].
      apply (Ha k Hk).
Qed.
Print Assumptions C70_hints_refuse_what_does_not_fit_refuted.

(** ** C71 *)

(** C71. Joining into a JSON value puts the value of each buffer in its place: at its index
    or under its name, both under "array" and "object" if there are both. There is nothing
    else except nulls at unused indices below the largest one. The order in which the map is
    iterated does not matter. *)
Theorem C71_joined_json_places_every_value :
  forall (l : list (ident * json)), good_map l ->
  (forall i j, In (i, j) l -> placed l (joined_json l) i (Some j)) /\
  (forall n, ~ In (Name n) (map fst l) -> placed l (joined_json l) (Name n) None) /\
  (forall k, ~ In (Index k) (map fst l) ->
     placed l (joined_json l) (Index k)
       (if existsb (fun p => match fst p with Index k' => Nat.ltb k k' | Name _ => false end) l
        then Some JNull else None)).
Proof.
  intros l Hg. split; [|split].
  - intros i j Hij. pose proof (joined_placed l i Hg) as H. rewrite (in_find l i j Hg Hij) in H. exact H.
  - intros n Hn. pose proof (joined_placed l (Name n) Hg) as H. apply find_none in Hn. rewrite Hn in H. exact H.
  - intros k Hk. pose proof (joined_placed l (Index k) Hg) as H. pose proof Hk as Hk'. apply find_none in Hk'.
    rewrite Hk' in H.
    replace (existsb _ l) with (Nat.ltb k (longest l 0)); [exact H|].
    apply eq_true_iff_eq. rewrite Nat.ltb_lt, longest_lt, existsb_exists. split.
    + intros [Hlt|[i [x [Hi Hle]]]]; [lia|]. exists (Index i, x). split; [exact Hi|]. cbn [fst].
      apply Nat.ltb_lt. assert (k <> i); [|lia]. intros ->. apply Hk. apply in_map_iff.
      exists (Index i, x). auto.
    + intros [[[n|i] x] [Hi Hlt]]; cbn [fst] in Hlt; [discriminate|]. apply Nat.ltb_lt in Hlt.
      right. exists i, x. split; [exact Hi|lia].
Qed.
Print Assumptions C71_joined_json_places_every_value.

Example C71_joined_json_places_every_value_case :
  joined_json [(Index 2, JLeaf 5); (Name "x", JLeaf 6); (Index 0, JLeaf 7)]
  = JObj [("array", JArr [JLeaf 7; JNull; JLeaf 5]); ("object", JObj [("x", JLeaf 6)])] /\
  good_map [(Index 2, JLeaf 5); (Name "x", JLeaf 6); (Index 0, JLeaf 7)].
Proof. split; [reflexivity|]. repeat constructor; cbn; intuition discriminate. Qed.

(** C71. A join of an accepted map of buffers into a JSON value: the value of each buffer is
    found in its place (the oldest message, or the newest one if the buffer is cloned from),
    and the buffers which are not to be cloned from lose the message. *)
Theorem C71_join_into_json :
  forall (V : Type) (ser : nat -> V -> option json) (r : regs) (m : bmap)
         (ds : list (ident * bref)) (types : emap nat) (bufs : emap (bufnode V)) (s : entity),
  good_map m -> NoDup (map (fun p => ab_id (snd p)) m) ->
  try_layout r LJsonAll m = inr ds ->
  (forall i b, In (i, b) m ->
     types (ab_id b) = Some (ab_ty b) /\ held bufs (ab_id b) s <> [] /\
     (ab_join b = Clone -> r_clone r (ab_ty b) = true) /\
     (forall v, In v (held bufs (ab_id b) s) -> ser (ab_ty b) v <> None)) ->
  exists bufs' vs js, fetch_layout ser r types bufs s ds = (bufs', Some vs) /\
    vs = map (fun p => (fst p, GJson (snd p))) js /\
    forall i b, In (i, b) m -> exists v j,
      match ab_join b with Pull => hd_error (held bufs (ab_id b) s) | Clone => last_opt (held bufs (ab_id b) s) end
        = Some v /\
      ser (ab_ty b) v = Some j /\ placed m (joined_json js) i (Some j) /\
      held bufs' (ab_id b) s
        = match ab_join b with Pull => tl (held bufs (ab_id b) s) | Clone => held bufs (ab_id b) s end.
Proof.
  intros V ser r m ds types bufs s Hg Hnd Ht Hall.
  assert (Hw : forall i k, In (i, k) (wanted LJsonAll m) -> k = KJson)
    by (intros i k H; apply wanted_asks in H; exact H).
  destruct (join_layout_ok ser r LJsonAll m ds types bufs s I Hg Hnd Ht) as [bufs' [vs [F [E [A _]]]]].
  { intros i k b Hk Hb. rewrite (Hw i k Hk). destruct (Hall i b Hb) as [H1 [H2 [H3 H4]]].
    repeat split; auto. discriminate. }
  assert (Evs : map fst vs = map fst m) by (rewrite E; cbn [wanted]; rewrite map_map; reflexivity).
  assert (Hgv : NoDup (map fst vs)) by (rewrite Evs; exact Hg).
  assert (Hjs : forall l, incl l vs -> exists js, l = map (fun p => (fst p, GJson (snd p))) js).
  { induction l as [|[i g] l IH]; intros Hl; [exists []; reflexivity|].
    destruct IH as [js ->]; [intros x Hx; apply Hl; right; exact Hx|].
    assert (Hi : In i (map fst m)).
    { rewrite <- Evs. apply in_map_iff. exists (i, g). split; [reflexivity|apply Hl; left; reflexivity]. }
    apply in_map_iff in Hi. destruct Hi as [[j b] [Ej Hb]]. cbn [fst] in Ej. subst j.
    destruct (A i KJson b) as [[g' [Hg' He]] _]; [|exact Hb|].
    - cbn [wanted]. apply in_map_iff. exists (i, b). auto.
    - assert (g = g').
      { pose proof (in_find vs i g Hgv (Hl _ (or_introl eq_refl))). pose proof (in_find vs i g' Hgv Hg'). congruence. }
      subst g'. cbn [expected] in He.
      destruct (match ab_join b with Pull => _ | Clone => _ end) as [v|]; [|discriminate].
      destruct (ser (ab_ty b) v) as [x|]; [|discriminate]. injection He as <-.
      exists ((i, x) :: js). reflexivity. }
  destruct (Hjs vs (incl_refl _)) as [js Ejs].
  exists bufs', vs, js. split; [exact F|]. split; [exact Ejs|].
  assert (Ek : map fst js = map fst m).
  { rewrite <- Evs, Ejs, map_map. reflexivity. }
  intros i b Hb. destruct (A i KJson b) as [[g [Hgi He]] Hh]; [|exact Hb|].
  { cbn [wanted]. apply in_map_iff. exists (i, b). auto. }
  cbn [expected] in He.
  destruct (match ab_join b with Pull => _ | Clone => _ end) as [v|]; [|discriminate].
  destruct (ser (ab_ty b) v) as [x|] eqn:Es; [|discriminate]. injection He as <-.
  exists v, x. split; [reflexivity|]. split; [exact Es|]. split; [|exact Hh].
  assert (Hij : In (i, x) js).
  { rewrite Ejs in Hgi. apply in_map_iff in Hgi. destruct Hgi as [[i' x'] [E' Hx']]. cbn [fst snd] in E'.
    injection E' as -> ->. exact Hx'. }
  assert (Hgj : good_map js) by (unfold good_map; rewrite Ek; exact Hg).
  destruct (C71_joined_json_places_every_value js Hgj) as [P _]. specialize (P i x Hij).
  assert (Hmix : mixed js <-> mixed m).
  { assert (Hin : forall j, (exists y, In (j, y) js) <-> (exists y, In (j, y) m)).
    { intros j. transitivity (In j (map fst m)).
      - rewrite <- Ek, in_map_iff. split; [intros [y Hy]; exists (j, y); auto|].
        intros [[j' y] [Ej Hy]]. cbn [fst] in Ej. subst j'. eauto.
      - rewrite in_map_iff. split; [|intros [y Hy]; exists (j, y); auto].
        intros [[j' y] [Ej Hy]]. cbn [fst] in Ej. subst j'. eauto. }
    unfold mixed. split; (intros [[n Hn] [k Hk]]; split; [exists n; apply Hin; exact Hn|exists k; apply Hin; exact Hk]). }
  unfold placed in *. destruct P as [[P1 P2]|[P1 P2]]; [left|right]; rewrite <- Hmix; auto.
Qed.
Print Assumptions C71_join_into_json.

Example C71_join_into_json_case :
  let m := [(Index 1, mk_abuf 3 Pull 4); (Name "x", mk_abuf 1 Clone 4)] in
  exists ds, try_layout lregs LJsonAll m = inr ds /\ good_map m /\
    NoDup (map (fun p => ab_id (snd p)) m) /\
    (forall i b, In (i, b) m ->
       ltypes (ab_id b) = Some (ab_ty b) /\ held lbufs (ab_id b) 8 <> [] /\
       (ab_join b = Clone -> r_clone lregs (ab_ty b) = true) /\
       (forall v, In v (held lbufs (ab_id b) 8) -> lser (ab_ty b) v <> None)).
Proof.
  cbv zeta. eexists. split; [reflexivity|]. split; [repeat constructor; cbn; intuition discriminate|].
  split; [repeat constructor; cbn; intuition discriminate|].
  intros i b [[= <- <-]|[[= <- <-]|[]]]; repeat split; try discriminate; intros v; discriminate.
Qed.

(** C71. The joined value does not always tell which buffer a value is from: buffers
    named "array" and "object" can give the same value as other names and indices; a null at
    an index may be a value or the absence of a buffer; so may a null on its own. *)
Theorem C71_joined_json_is_unambiguous_refuted :
  exists (l1 l2 l3 l4 : list (ident * json)),
    good_map l1 /\ good_map l2 /\ good_map l3 /\ good_map l4 /\
    joined_json l1 = joined_json l2 /\ ~ Permutation (map fst l1) (map fst l2) /\
    joined_json l3 = joined_json l4 /\ ~ Permutation (map fst l3) (map fst l4).
Proof.
  exists [(Index 0, JLeaf 1); (Name "a", JLeaf 2)],
    [(Name "object", JObj [("a", JLeaf 2)]); (Name "array", JArr [JLeaf 1])],
    [(Index 1, JLeaf 1)], [(Index 0, JNull); (Index 1, JLeaf 1)].
  do 4 (split; [repeat constructor; cbn; intuition discriminate|]).
  split; [reflexivity|]. split; [|split; [reflexivity|]].
  - intros H. apply (Permutation_in (Index 0)) in H; [|left; reflexivity].
    destruct H as [H|[H|[]]]; discriminate.
  - intros H. apply Permutation_length in H. discriminate.
Qed.
Print Assumptions C71_joined_json_is_unambiguous_refuted.
