(** Consequences of the invariant of [DiagramProofs10] for a finished construction. *)
From Verif Require Import Base DiagramModel DiagramSpec DiagramSpec2 DiagramProofs DiagramProofs2 DiagramProofs3 DiagramProofs4
  DiagramProofs5 DiagramProofs6 DiagramProofs7 DiagramProofs9 DiagramProofs10 DiagramProofs11 DiagramProofs12.

Section Finished.
Variable d : diagram.
Variable g : registry.
Variables q p : nat.
Variable ss : list (nat * nat).

Definition final2 (log : list entry) : Prop :=
  exists c, c_log c = log /\ ginv d g q p ss [] c /\ idc d [] c /\ (forall r o, ~ waits (c_outs c) r o).

Lemma builds_final2 log : builds g d q p ss log -> final2 log.
Proof.
  intros (ord & max & c & Ho & H & E). exists c. split; [exact E|].
  destruct (create_idc d g q p ss ord Ho _ _ H) as (A & B & C). auto.
Qed.

Variable log : list entry.
Hypothesis Fin : final2 log.
Hypothesis Fin1 : final d g q p ss log.

Lemma final_role i x y : role_of log i x -> role_of log i y -> x = y.
Proof. destruct Fin as (c & <- & _ & I & _). apply (i_fun _ _ _ _ _ I). Qed.

Lemma final_request : exists o, In (LPut (named [] (d_start d)) o) log /\ o_ty o = q /\ o_scope o = 0 /\ forall x, ~ role_of log (o_id o) x.
Proof.
  pose proof (final_entries _ _ _ _ _ _ Fin1) as En. destruct Fin as (c & <- & _ & I & _).
  destruct (i_pos _ _ _ _ _ I) as (_ & P & o & A & B). exists o. split; [exact A|].
  assert (N : forall x, ~ role_of (c_log c) (o_id o) x).
  { intros x X. specialize (P _ _ X). lia. }
  destruct (En _ A) as [(_ & E1 & E2)|(u & ins & bufs & outs & t & X & Y & _)]; [auto|exfalso].
  destruct (In_nth _ _ (t, o) Y) as (n & Ln & Nn).
  apply (N (IsOutput (u_ns u) (u_id u) n)). exists (LBuilt u ins bufs outs). split; [exact X|]. cbn. unfold numbered.
  replace (o_id o, IsOutput (u_ns u) (u_id u) n) with (nth n (combine (map (fun x => o_id (snd x)) outs) (map (IsOutput (u_ns u) (u_id u)) (seq 0 (length outs)))) (0, IsConvIn)).
  - apply nth_In. rewrite combine_length, !map_length, seq_length. lia.
  - rewrite combine_nth by (rewrite !map_length, seq_length; reflexivity). f_equal.
    + rewrite (nth_indep _ 0 (o_id (snd (t, o)))) by (rewrite map_length; exact Ln).
      rewrite (map_nth (fun x : option next_op * output => o_id (snd x))). rewrite Nn. reflexivity.
    + rewrite (nth_indep _ IsConvIn (IsOutput (u_ns u) (u_id u) 0)) by (rewrite map_length, seq_length; exact Ln).
      rewrite map_nth, seq_nth by exact Ln. reflexivity.
Qed.

Lemma final_slot r s s' : In (LSlot r s) log -> In (LSlot r s') log -> s = s' \/ r = RCancel [].
Proof.
  destruct Fin as (c & <- & _ & I & _). intros A B.
  destruct (i_one _ _ _ _ _ I _ _ A) as (t & T & X). destruct (i_one _ _ _ _ _ I _ _ B) as (t' & T' & Y).
  rewrite T in T'. injection T' as <-. pose proof (i_wf _ _ _ _ _ I _ _ T) as W.
  destruct (t_conn t) as [x| |q1 j1 s1 js1 ss1 ts1|to seen|scid en start [x|]|scid term ex par nx [x|]|scid par to [x|]]; cbn in X, Y; try contradiction; try (left; congruence).
  right. apply W.
Qed.

(** An input belongs to one reference only. *)
Lemma final_owner r r' s s' : In (LSlot r s) log -> In (LSlot r' s') log -> s_id s = s_id s' -> r = r'.
Proof.
  intros A B E. assert (X : IsInput r = IsInput r').
  { apply (final_role (s_id s)); [exists (LSlot r s)|exists (LSlot r' s')]; (split; [assumption|left; rewrite ?E; reflexivity]). }
  congruence.
Qed.

(** ** Scopes *)
Lemma final_placed ns sc sc' : placed log ns sc -> placed log ns sc' -> sc = sc'.
Proof.
  destruct Fin as (c & <- & _ & I & _). intros A B.
  destruct (i_ins _ _ _ _ _ I _ _ A) as [[E1 E2]|(N & t & T & X)], (i_ins _ _ _ _ _ I _ _ B) as [[E3 E4]|(N' & t' & T' & X')]; try congruence; contradiction.
Qed.

Lemma final_lies r sc sc' : lies log r sc -> lies log r sc' -> sc = sc'.
Proof. intros (ns & A & B) (ns' & A' & B'). rewrite A in A'. injection A' as <-. eapply final_placed; eauto. Qed.

Lemma final_built_placed u ins bufs outs : In (LBuilt u ins bufs outs) log -> placed log (u_ns u) (u_scope u).
Proof. destruct Fin as (c & <- & _ & I & _). apply (i_built _ _ _ _ _ I). Qed.

Lemma final_section ns id pr cn sc : occurs d ns id (OSection pr cn) -> placed log ns sc <-> placed log (ns ++ [id]) sc.
Proof.
  intros H. destruct (final_built _ _ _ _ _ _ Fin1 _ _ _ H) as (u & ins & bufs & outs & A & <- & <- & E & _).
  pose proof (final_built_placed _ _ _ _ A) as P. pose proof (placed_section _ _ _ _ _ _ _ A E) as P'.
  split; intros X; [rewrite (final_placed _ _ _ X P); exact P'|rewrite (final_placed _ _ _ X P'); exact P].
Qed.

Lemma named_lies ns t sc : named ns t <> RDispose -> placed log ns sc -> lies log (named ns t) sc.
Proof. intros N P. exists ns. split; [|exact P]. destruct t as [n|[]|s n]; cbn in *; congruence. Qed.

Lemma goes_lies r r' sc : goes d r r' -> r' <> RDispose -> lies log r sc -> lies log r' sc.
Proof.
  intros (ns & id & o & Oc & Al) N (ns' & E & P). destruct Al; cbn in E; injection E as <-.
  - apply named_lies; [exact N|]. apply (final_section _ _ _ _ _ Oc). exact P.
  - apply named_lies; [exact N|]. apply (final_section _ _ _ _ _ Oc). exact P.
  - apply named_lies; [exact N|]. apply (final_section _ _ _ _ _ Oc). exact P.
  - congruence.
  - exists ns. split; [reflexivity|]. apply (final_section _ _ _ _ _ Oc). exact P.
  - exists ns. split; [reflexivity|exact P].
Qed.

Lemma leadsto_dispose r : leadsto d RDispose r -> r = RDispose.
Proof. intros H. inversion H as [|a b c (ns & id & o & _ & X)]; subst; [reflexivity|]. inversion X. Qed.

Lemma leadsto_lies r r' sc : leadsto d r r' -> r' <> RDispose -> lies log r sc -> lies log r' sc.
Proof.
  induction 1 as [r|r1 r2 r3 G L IH]; intros N P; [exact P|]. apply IH; [exact N|]. eapply goes_lies; eauto.
  intros ->. apply leadsto_dispose in L. contradiction.
Qed.

Notation stray := (stray log).

Lemma source_lies r o : accounted_for d log q r o \/ born d log r o -> r <> RDispose -> stray o \/ lies log r (o_scope o).
Proof.
  intros H N. destruct H as [[(-> & _ & E)|(u & ins & bufs & outs & t & A & B & C)]|H].
  - right. rewrite E. apply named_lies; [exact N|constructor].
  - pose proof (final_entries _ _ _ _ _ _ Fin1 _ A) as D. cbn in D. pose proof (final_built_placed _ _ _ _ A) as P.
    destruct (ad_scope _ _ _ _ _ _ _ D) as [_ Es]. specialize (Es _ _ B). rewrite <- Es in P.
    assert (Dir : r = directed d (u_ns u) t -> t <> None -> lies log r (o_scope o)).
    { intros -> Nt. destruct t as [t|]; [|congruence]. cbn in *. apply named_lies; auto. }
    pose proof (ad_targets _ _ _ _ _ _ _ D) as T.
    assert (In t (declares g (u_op u))) as Dt by (rewrite <- T; change t with (fst (t, o)); apply in_map; exact B).
    unfold put_to in C. destruct (u_op u) as [b next streams|[b|tt] connect|start ops streams next|n|nexts|nexts|ok er|keyed seq rem|next sel ser|next on_error|ser|next sel|next sel] eqn:Eo; cbn [declares] in Dt;
      try (right; apply Dir; [exact C|]; intros ->; clear - Dt).
    + destruct Dt as [Dt|Dt]; [discriminate|]. apply in_map_iff in Dt as (? & ? & _). discriminate.
    + destruct (r_section g b) as [[[i o] f]|]; [|destruct Dt]. apply in_flat_map in Dt as (x & _ & X). destruct (find (fst x) connect); [destruct X as [X|[]]; discriminate|destruct X].
    + destruct Dt.
    + destruct Dt.
    + destruct Dt.
    + apply in_map_iff in Dt as (? & ? & _). discriminate.
    + apply in_map_iff in Dt as (? & ? & _). discriminate.
    + destruct Dt as [Dt|[Dt|[]]]; discriminate.
    + rewrite !in_app_iff in Dt. destruct Dt as [Dt|[Dt|Dt]]; [apply in_map_iff in Dt as (? & ? & _); discriminate|apply in_map_iff in Dt as (? & ? & _); discriminate|].
      destruct rem; [destruct Dt as [Dt|[]]; discriminate|destruct Dt].
    + destruct Dt as [Dt|[]]; discriminate.
    + destruct (o_ty o =? TFailed) eqn:Et.
      * apply Nat.eqb_eq in Et.
        (* the error output is the second one *)
        assert (t = on_error).
        { pose proof (ad_shape _ _ _ _ _ _ _ D) as Sh. rewrite Eo in Sh. inversion Sh as [| | | | | |? ? s ? E1 E2| | | | | | |]; subst.
          cbn in T. destruct outs as [|[t1 o1] [|[t2 o2] [|]]]; cbn in *; try discriminate. injection E2 as X1 X2. injection T as -> ->.
          destruct B as [B|[B|[]]]; injection B as <- <-; [|reflexivity]. rewrite Et in X1. discriminate. }
        subst t. destruct (u_ns u) as [|x l] eqn:En.
        -- rewrite in_ns_nil in C. right. destruct on_error as [t|]; cbn in C.
           ++ subst r. apply named_lies; auto.
           ++ subst r. destruct (d_implicit d) as [t|]; cbn in *; [apply named_lies; auto|exists []; auto].
        -- left. right. exists u, ins, bufs, outs, next, on_error. rewrite En. split; [exact A|]. split; [exact Eo|]. split; [discriminate|]. auto.
      * assert (t = Some next).
        { pose proof (ad_shape _ _ _ _ _ _ _ D) as Sh. rewrite Eo in Sh. inversion Sh as [| | | | | |? ? s ? E1 E2| | | | | | |]; subst.
          cbn in T. destruct outs as [|[t1 o1] [|[t2 o2] [|]]]; cbn in *; try discriminate. injection E2 as X1 X2. injection T as -> ->.
          destruct B as [B|[B|[]]]; injection B as <- <-; [reflexivity|]. rewrite X2 in Et. discriminate. }
        subst t. right. apply Dir; [exact C|discriminate].
    + destruct Dt.
    + destruct Dt as [Dt|[]]; discriminate.
    + destruct Dt as [Dt|[]]; discriminate.
  - destruct H as [k i ok o H|u sc en te ex st ops strs nx o A E1 E2 E3|u sc en te ex st ops strs nx o A E1 E2 E3|u sc en te ex st ops strs nx n t s o A E1 B C E3].
    + left. left. eauto.
    + right. rewrite E3. apply named_lies; [exact N|]. econstructor. exact A.
    + right. rewrite E3. apply named_lies; [exact N|]. destruct (final_entries _ _ _ _ _ _ Fin1 _ A) as (_ & Bu & _). eapply final_built_placed; eauto.
    + right. rewrite E3. apply named_lies; [exact N|]. destruct (final_entries _ _ _ _ _ _ Fin1 _ A) as (_ & Bu & _). eapply final_built_placed; eauto.
Qed.

(** Every connection, with the reference whose input it leads to *)
Lemma final_link2 o s : In (LConnect o s) log ->
  exists r s0, In (LSlot r s0) log /\ slot_of log p ss r s0 /\
    ((s = s0 /\ exists k i er, In (LConv k i o er) log /\ (o_scope o = s_scope s \/ way_out d r)) \/
     ((exists r0, (accounted_for d log q r0 o \/ born d log r0 o) /\ leadsto d r0 r) /\ (stray o \/ o_scope o = s_scope s0) /\
      (s = s0 \/ exists k out er, In (LConv k s out er) log /\ In (LConnect out s0) log /\ (s_scope s = s_scope s0 \/ way_out d r)))).
Proof.
  intros H. pose proof (final_entries _ _ _ _ _ _ Fin1) as En. pose proof source_lies as Sl. pose proof final_lies as Fl. pose proof leadsto_lies as Ll.
  destruct Fin as (c & <- & G & I & _). destruct (gi_binv _ _ _ _ _ _ _ G) as (V & _).
  destruct (i_link _ _ _ _ _ I o s H) as (r & s0 & t & A & T & B). exists r, s0. split; [exact A|]. split; [exact (En _ A)|].
  pose proof (i_slots _ _ _ _ _ I _ _ A) as P0.
  assert (Nd : r <> RDispose) by (intros ->; destruct P0 as (ns & X & _); discriminate).
  assert (Sc : t_scope t = s_scope s0 \/ way_out d r).
  { pose proof (i_place _ _ _ _ _ I _ _ T) as P. pose proof (i_wf _ _ _ _ _ I _ _ T) as W.
    destruct (i_one _ _ _ _ _ I _ _ A) as (t' & T' & X). rewrite T in T'. injection T' as <-. unfold place_ok in P.
    destruct (t_conn t) as [x| |q1 j1 s1 js1 ss1 ts1|to seen|scid en start ox|scid term ex par nx ox|scid par to ox]; cbn in X; try contradiction;
      try (left; eapply Fl; [exact P|exact P0]).
    - destruct W as (u & en & st & ops & strs & nx' & W1 & W2 & -> & _). right. econstructor. rewrite <- W2. destruct (En _ W1) as (Oc & _). exact Oc.
    - destruct W as (u & en & te & ex & st & ops & strs & nx' & n & tt & W1 & W2 & W3 & -> & _). right. econstructor. rewrite <- W2. destruct (En _ W1) as (Oc & _). exact Oc. }
  destruct B as [(-> & k & i & er & B1 & B2)|[B1 B2]].
  - left. split; [reflexivity|]. exists k, i, er. split; [exact B1|]. rewrite B2. exact Sc.
  - right. destruct (source_origin d g _ _ _ _ V (v_hand _ _ _ _ V _ _ B1)) as (r0 & X & L).
    assert (Y : accounted_for d (c_log c) q r0 o \/ born d (c_log c) r0 o) by (destruct X as [X|X]; [left; exact (En _ X)|auto]).
    split; [exists r0; auto|]. split.
    + destruct (Sl r0 o Y) as [Z|Z]; [|auto|].
      * intros ->. apply leadsto_dispose in L. contradiction.
      * right. eapply Fl; [|exact P0]. eapply Ll; eauto.
    + destruct B2 as [B2|(k & out & er & B2 & B3 & B4)]; [auto|right]. exists k, out, er. rewrite B4. auto.
Qed.

End Finished.
