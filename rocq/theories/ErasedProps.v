(** C66, C67: access to buffers through [AnyBufferKey] and [JsonBufferKey]. *)
From Verif Require Import Base RosterModel BufferModel BufferSpec InputModel InputSpec GateModel GateSpec
  GateProps ErasedModel ErasedSpec ErasedProofs.

(** In [gwit] (GateProps) buffer 1 has messages of type 4 here. *)
Definition etypes : emap nat := fun b => if Nat.eqb b 1 then Some 4 else None.
Definition ekwit : ekey := mk_ekey 4 1 8 (Some 11).

Lemma ekwit_opens : exists n, opens etypes gwit ekwit n /\ session_ok n 8 /\
  ready gwit 1 8 /\ gate_reads gwit 1 8 = Some Open /\ gw_cmds gwit = [].
Proof.
  eexists. repeat split; try reflexivity; try apply gwit_ready; [eexists; reflexivity|lazy; lia|discriminate].
Qed.

(** C66. The calls made through an access that does not know the message type do to the
    contents what the typed calls are documented to do, give back the messages with their
    type, refuse messages of another type without changing anything, and leave other
    buffers, other sessions, gates and listeners alone. This is so for both ways to get
    the access. (Positions of drained ranges: see C05.) *)
Theorem C66_any_access_effect :
  forall (V : Type) (types : emap nat) (w : gworld V) (k : ekey) (n : bufnode V) (cs : list (acall V)),
  opens types w k n -> session_ok n (ek_sess k) ->
  let R := any_spec_run (policy (bn_store n)) (ek_ty k) (buf_contents w (ek_buf k) (ek_sess k)) cs in
  snd (any_edit types w k cs) = Some (snd R) /\
  snd (world_any_buffer_mut types w k cs) = Some (snd R) /\
  forall w', w' = fst (any_edit types w k cs) \/ w' = fst (world_any_buffer_mut types w k cs) ->
  forall b s, buf_contents w' b s
    = (if Nat.eqb b (ek_buf k) && Nat.eqb s (ek_sess k) then fst R else buf_contents w b s) /\
    gate_reads w' b s = gate_reads w b s /\ targets_of w' b = targets_of w b.
Proof. exact @any_edit_effect. Qed.
Print Assumptions C66_any_access_effect.

Example C66_any_access_effect_case :
  any_spec_run (KeepLast 2) 4 []
    [ACPush (mk_box 4 1); ACPush (mk_box 5 9); ACPushAny (mk_box 4 2); ACPushAny (mk_box 4 3);
     ACOldestMut 4 S; ACNewestMut 5 S; ACPull]
  = ([3], [AOPushed None; AORefused (mk_box 5 9); AOPushed None; AOPushed (Some (mk_box 4 1));
           AOBox (Some (mk_box 4 2)); AOBox (Some (mk_box 4 3)); AOBox (Some (mk_box 4 3))]) /\
  exists n, opens etypes gwit ekwit n /\ session_ok n 8.
Proof. split; [reflexivity|]. destruct ekwit_opens as [n [A [B _]]]. exists n. auto. Qed.

(** C66. A key for another type or for a buffer that does not exist opens nothing: the
    caller gets an error and nothing changes. *)
Theorem C66_other_keys_open_nothing :
  forall (V : Type) (types : emap nat) (w : gworld V) (k : ekey) (cs : list (acall V)),
  (forall n, ~ opens types w k n) ->
  any_edit types w k cs = (w, None) /\
  snd (world_any_buffer_mut types w k cs) = None /\
  gw_bufs (fst (world_any_buffer_mut types w k cs)) = gw_bufs w.
Proof.
  intros V types w k cs H.
  assert (E : storage_of types w k = None).
  { unfold storage_of. destruct (types (ek_buf k)) as [t|] eqn:Et; [|reflexivity].
    destruct (Nat.eqb_spec t (ek_ty k)) as [->|]; [|reflexivity].
    destruct (gw_bufs w (ek_buf k)) as [n|] eqn:En; [|reflexivity].
    destruct (H n). split; assumption. }
  unfold world_any_buffer_mut, any_edit. rewrite E. auto.
Qed.
Print Assumptions C66_other_keys_open_nothing.

Example C66_other_keys_open_nothing_case :
  (forall n, ~ opens etypes gwit (mk_ekey 5 1 8 (Some 11)) n) /\
  (forall n, ~ opens etypes gwit (mk_ekey 4 2 8 (Some 11)) n).
Proof. split; intros n [A B]; discriminate. Qed.

(** C66. Converting keys to other kinds of keys, in any sequence, gives keys to the same
    session of the same buffer with the same type and the same accessor; a typed key is
    only given out for the type of the messages. *)
Theorem C66_keys_keep_their_buffer :
  forall (json : nat -> bool) (cs : list keyconv) (kk kk' : keykind) (k k' : ekey),
  convert_keys json cs (kk, k) = Some (kk', k') ->
  k' = k /\ forall t, In (KvForMessage t) cs -> t = ek_ty k.
Proof.
  intros json cs kk kk' k k' H. split.
  - eapply convert_keys_same. exact H.
  - eapply convert_keys_typed. exact H.
Qed.
Print Assumptions C66_keys_keep_their_buffer.

Example C66_keys_keep_their_buffer_case :
  convert_keys (fun _ => true) [KvToAny; KvDowncast KkJson 0; KvDeepClone; KvToAny; KvForMessage 4]
    (KkTyped, ekwit) = Some (KkTyped, ekwit) /\
  convert_keys (fun _ => true) [KvToAny; KvForMessage 5] (KkTyped, ekwit) = None.
Proof. split; reflexivity. Qed.

(** C66. An access through the parameter of a system wakes each listener except the
    accessor once if a message was pushed with [push] or [push_as_oldest], taken, borrowed
    mutably or the access was pulsed, and nobody otherwise; also if a [drain] panics, as the
    access is dropped then too. Missing: [push_any] and [push_any_as_oldest], which do not
    count (next theorem). *)
Theorem C66_access_notifies_partial :
  forall (V : Type) (types : emap nat) (w : gworld V) (k : ekey) (n : bufnode V) (cs : list (acall V)),
  opens types w k n -> gw_cmds w = [] -> ready w (ek_buf k) (ek_sess k) ->
  gate_reads w (ek_buf k) (ek_sess k) = Some Open ->
  Forall (fun c => boxed_push c = false) cs ->
  forall t s', wakes (apply_next (fst (any_edit types w k cs))) t s'
    = wakes w t s' +
      (if existsb (any_wakes (ek_ty k)) cs && Nat.eqb s' (ek_sess k)
       then (if match ek_acc k with Some a => Nat.eqb a t | None => false end
             then 0 else count_occ Nat.eq_dec (targets_of w (ek_buf k)) t)
       else 0).
Proof.
  intros V types w k n cs Ho Hc Hr Hg Hb t s'.
  rewrite (any_edit_wakes types w k n cs Ho Hc Hr Hg).
  assert (E : existsb (any_flag (ek_ty k)) cs = existsb (any_wakes (ek_ty k)) cs); [|rewrite E; reflexivity].
  induction cs as [|c cs IH]; [reflexivity|]. inversion Hb; subst. cbn [existsb].
  rewrite IH by assumption. unfold any_flag. rewrite H1. cbn [negb]. rewrite andb_true_r. reflexivity.
Qed.
Print Assumptions C66_access_notifies_partial.

Example C66_access_notifies_partial_case :
  let w' cs := apply_next (fst (any_edit etypes gwit ekwit cs)) in
  let look cs := (wakes (w' cs) 11 8, wakes (w' cs) 12 8) in
  look [ACLen; ACPush (mk_box 5 1)] = (0, 0) /\
  look [ACPush (mk_box 4 1); ACPull; ACDrainAll] = (0, 1) /\
  look [ACPush (mk_box 4 1); ACDrain 0 9; ACLen] = (0, 1) /\
  snd (any_edit etypes gwit ekwit [ACPush (mk_box 4 1); ACDrain 0 9; ACLen])
    = Some [AOPushed None; AOPanic].
Proof. repeat split; reflexivity. Qed.

(** C66. A message put in with [push_any] or [push_any_as_oldest] alone wakes nobody,
    whatever else is only read. *)
Theorem C66_boxed_push_notifies_refuted :
  (forall (V : Type) (types : emap nat) (w : gworld V) (k : ekey) (n : bufnode V) (cs : list (acall V)),
   opens types w k n -> gw_cmds w = [] -> ready w (ek_buf k) (ek_sess k) ->
   gate_reads w (ek_buf k) (ek_sess k) = Some Open ->
    Forall (fun c => boxed_push c = true \/ any_wakes (ek_ty k) c = false) cs ->
   forall t s', wakes (apply_next (fst (any_edit types w k cs))) t s' = wakes w t s') /\
  exists (types : emap nat) (w : gworld nat) (k : ekey) (n : bufnode nat) (c : acall nat),
    opens types w k n /\ gw_cmds w = [] /\ ready w (ek_buf k) (ek_sess k) /\
    gate_reads w (ek_buf k) (ek_sess k) = Some Open /\ boxed_push c = true /\
    snd (any_edit types w k [c]) = Some [AOPushed None] /\
    buf_contents (apply_next (fst (any_edit types w k [c]))) (ek_buf k) (ek_sess k) = [5] /\
    In 12 (targets_of w (ek_buf k)) /\ ek_acc k <> Some 12 /\
    wakes (apply_next (fst (any_edit types w k [c]))) 12 (ek_sess k) = wakes w 12 (ek_sess k).
Proof.
  split.
  - intros V types w k n cs Ho Hc Hr Hg Hb t s'.
    rewrite (any_edit_wakes types w k n cs Ho Hc Hr Hg).
    assert (E : existsb (any_flag (ek_ty k)) cs = false); [|rewrite E; cbn [andb]; lia].
    induction cs as [|c cs IH]; [reflexivity|]. inversion Hb; subst. cbn [existsb].
    rewrite IH by assumption. unfold any_flag. destruct H1 as [H1|H1]; rewrite H1; cbn [negb andb orb];
      rewrite ?andb_false_r; reflexivity.
  - destruct ekwit_opens as [n [A [_ [B [C D]]]]].
    exists etypes, gwit, ekwit, n, (ACPushAny (mk_box 4 5)).
    repeat split; try apply A; try apply B; try reflexivity; try discriminate.
    right. left. reflexivity.
Qed.
Print Assumptions C66_boxed_push_notifies_refuted.

(** C66. An access through the world wakes nobody, whatever is done with it. *)
Theorem C66_world_access_notifies_refuted :
  (forall (V : Type) (types : emap nat) (w : gworld V) (k : ekey) (cs : list (acall V)),
   gw_cmds (fst (world_any_buffer_mut types w k cs)) = gw_cmds w /\
   forall t s', wakes (fst (world_any_buffer_mut types w k cs)) t s' = wakes w t s') /\
  exists (types : emap nat) (w : gworld nat) (k : ekey) (cs : list (acall nat)),
    buf_contents (fst (world_any_buffer_mut types w k cs)) (ek_buf k) (ek_sess k)
      <> buf_contents w (ek_buf k) (ek_sess k) /\
    gate_reads w (ek_buf k) (ek_sess k) = Some Open /\ targets_of w (ek_buf k) <> [].
Proof.
  split; [exact @world_any_silent|].
  exists etypes, gwit, ekwit, [ACPush (mk_box 4 5)]. repeat split; discriminate.
Qed.
Print Assumptions C66_world_access_notifies_refuted.

(** ** JSON *)

(** Messages below 100 can be serialised; JSON values below 200 are messages. *)
Definition jser (_ : nat) (v : nat) : option nat := if v <? 100 then Some v else None.
Definition jde (_ : nat) (j : nat) : option nat := if j <? 200 then Some j else None.

(** C67. The calls made through a JSON access do to the contents what the typed calls do
    with the deserialised messages and return the serialised ones; pushes of values that
    do not deserialise and failing changes in place have no effect; other buffers, other
    sessions, gates and listeners are left alone. Missing: [push_as_oldest] and
    [push_json_as_oldest], for which it is false (next theorem). *)
Theorem C67_json_access_effect_partial :
  forall (V J : Type) (ser : nat -> V -> option J) (de : nat -> J -> option V) (types : emap nat)
         (w : gworld V) (k : ekey) (n : bufnode V) (cs : list (jcall J)),
  opens types w k n -> session_ok n (ek_sess k) ->
  Forall (fun c => json_pushes_oldest c = false) cs ->
  let R := json_spec_run ser de (policy (bn_store n)) (ek_ty k)
             (buf_contents w (ek_buf k) (ek_sess k)) cs in
  snd (world_json_buffer_mut ser de types w k cs) = Some (snd R) /\
  forall b s, buf_contents (fst (world_json_buffer_mut ser de types w k cs)) b s
    = (if Nat.eqb b (ek_buf k) && Nat.eqb s (ek_sess k) then fst R else buf_contents w b s) /\
    gate_reads (fst (world_json_buffer_mut ser de types w k cs)) b s = gate_reads w b s /\
    targets_of (fst (world_json_buffer_mut ser de types w k cs)) b = targets_of w b.
Proof. exact @json_edit_effect. Qed.
Print Assumptions C67_json_access_effect_partial.

Example C67_json_access_effect_partial_case :
  json_spec_run jser jde (KeepLast 2) 4 []
    [JCPushJson 1; JCPushJson 300; JCPush None; JCPush (Some 2); JCPushJson 150;
     JCOldestMut (JMReplace 7); JCNewestMut (JMReplace 8); JCOldestMut (JMModify S);
     JCOldestMut (JMModify (fun _ => 250)); JCGet 0; JCPullNewest; JCLen]
  = ([8], [JOVal None; JOErr; JOErr; JOVal None; JOVal (Some 1); JOVal (Some 2); JOErr; JOUnit;
           JOErr; JOVal (Some 8); JOErr; JOLen 1]) /\
  exists n, opens etypes gwit ekwit n /\ session_ok n 8.
Proof. split; [reflexivity|]. destruct ekwit_opens as [n [A [B _]]]. exists n. auto. Qed.

(** C67. [push_as_oldest] and [push_json_as_oldest] put the message in as the newest one. *)
Theorem C67_push_as_oldest_refuted :
  (forall (V J : Type) (ser : nat -> V -> option J) (de : nat -> J -> option V) (types : emap nat)
          (w : gworld V) (k : ekey) (j : J),
   world_json_buffer_mut ser de types w k [JCPushJsonOldest j]
     = world_json_buffer_mut ser de types w k [JCPushJson j] /\
   world_json_buffer_mut ser de types w k [JCPushOldest (Some j)]
     = world_json_buffer_mut ser de types w k [JCPushJson j]) /\
  exists (types : emap nat) (w : gworld nat) (k : ekey) (n : bufnode nat) (cs : list (jcall nat)),
    opens types w k n /\ session_ok n (ek_sess k) /\
    buf_contents (fst (world_json_buffer_mut jser jde types w k cs)) (ek_buf k) (ek_sess k) = [1; 2] /\
    fst (json_spec_run jser jde (policy (bn_store n)) (ek_ty k)
           (buf_contents w (ek_buf k) (ek_sess k)) cs) = [2; 1].
Proof.
  split; [intros; split; reflexivity|].
  destruct ekwit_opens as [n [A [B _]]].
  exists etypes, gwit, ekwit, n, [JCPushJson 1; JCPushJsonOldest 2].
  split; [exact A|]. split; [exact B|]. split; [reflexivity|].
  destruct A as [_ A]. injection A as <-. reflexivity.
Qed.
Print Assumptions C67_push_as_oldest_refuted.

(** C67. If a value is refused because it is not a message of the buffer, or a change of a
    message in place fails, nothing changes. *)
Theorem C67_refused_values_change_nothing :
  forall (V J : Type) (ser : nat -> V -> option J) (de : nat -> J -> option V) (types : emap nat)
         (w : gworld V) (k : ekey) (n : bufnode V) (c : jcall J),
  opens types w k n -> session_ok n (ek_sess k) -> json_puts c = true ->
  (match c with
   | JCPush (Some j) | JCPushJson j | JCPushOldest (Some j) | JCPushJsonOldest j => de (ek_ty k) j = None
   | _ => True
   end) ->
  snd (world_json_buffer_mut ser de types w k [c]) = Some [JOErr] ->
  forall b s, buf_contents (fst (world_json_buffer_mut ser de types w k [c])) b s = buf_contents w b s.
Proof.
  intros V J ser de types w k n c Ho Hs Hp Hd He b s.
  destruct (session_sess n (ek_sess k) Hs) as [S K].
  unfold world_json_buffer_mut, json_edit in *. rewrite (storage_of_opens _ _ _ _ Ho) in *.
  cbn [json_calls] in *.
  pose proof (json_call_error ser de (ek_ty k) (bn_store n) (ek_sess k) _ _ false c S K Hp Hd) as G.
  destruct (json_call ser de (ek_ty k) (bn_store n) (ek_sess k) false c) as [[st m] o].
  cbn [fst snd] in G.
  assert (Eo : o = JOErr).
  { destruct o; cbn [fst snd] in He; try discriminate. reflexivity. }
  subst o. cbn [fst snd] in *. specialize (G eq_refl).
  destruct (close_access_effect types w k n st m _ Ho G _ eq_refl b s) as [E _].
  transitivity (buf_contents (close_access w n k st m) b s); [reflexivity|]. rewrite E.
  destruct (Nat.eqb_spec b (ek_buf k)) as [->|]; cbn [andb]; [|reflexivity].
  destruct (Nat.eqb_spec s (ek_sess k)) as [->|]; [|reflexivity].
  unfold buf_contents. rewrite (proj2 Ho). reflexivity.
Qed.
Print Assumptions C67_refused_values_change_nothing.

Example C67_refused_values_change_nothing_case :
  snd (world_json_buffer_mut jser jde etypes gwit ekwit [JCPushJsonOldest 300]) = Some [JOErr] /\
  jde 4 300 = None /\
  let w1 := fst (world_json_buffer_mut jser jde etypes gwit ekwit [JCPushJson 150]) in
  snd (world_json_buffer_mut jser jde etypes w1 ekwit [JCNewestMut (JMReplace 3)]) = Some [JOErr].
Proof. repeat split; reflexivity. Qed.

(** C67. An error may be returned although the contents changed: a message that is pulled
    but cannot be serialised (or read as the type asked for) is gone; a message is stored
    and the displaced one gone if the latter cannot be serialised. *)
Theorem C67_errors_change_nothing_refuted :
  exists (types : emap nat) (k : ekey) (w1 w2 : gworld nat),
    (buf_contents w1 (ek_buf k) (ek_sess k) = [150] /\
     snd (world_json_buffer_mut jser jde types w1 k [JCPull]) = Some [JOErr] /\
     buf_contents (fst (world_json_buffer_mut jser jde types w1 k [JCPull])) (ek_buf k) (ek_sess k) = []) /\
    (buf_contents w2 (ek_buf k) (ek_sess k) = [1] /\
     snd (world_json_buffer_mut jser jde types w2 k [JCPullAs (fun _ => false)]) = Some [JOErr] /\
     buf_contents (fst (world_json_buffer_mut jser jde types w2 k [JCPullAs (fun _ => false)]))
       (ek_buf k) (ek_sess k) = []) /\
    (snd (world_json_buffer_mut jser jde types w1 k [JCPushJson 1; JCPushJson 2])
       = Some [JOVal None; JOErr] /\
     buf_contents (fst (world_json_buffer_mut jser jde types w1 k [JCPushJson 1; JCPushJson 2]))
       (ek_buf k) (ek_sess k) = [1; 2]).
Proof.
  exists etypes, ekwit,
    (fst (world_json_buffer_mut jser jde etypes gwit ekwit [JCPushJson 150])),
    (fst (world_json_buffer_mut jser jde etypes gwit ekwit [JCPushJson 1])).
  repeat split; reflexivity.
Qed.
Print Assumptions C67_errors_change_nothing_refuted.

(** C67. A JSON access wakes nobody, whatever is done with it, [pulse] included. *)
Theorem C67_json_access_notifies_refuted :
  (forall (V J : Type) (ser : nat -> V -> option J) (de : nat -> J -> option V) (types : emap nat)
          (w : gworld V) (k : ekey) (cs : list (jcall J)),
   gw_cmds (fst (world_json_buffer_mut ser de types w k cs)) = gw_cmds w /\
   forall t s', wakes (fst (world_json_buffer_mut ser de types w k cs)) t s' = wakes w t s') /\
  exists (types : emap nat) (w : gworld nat) (k : ekey) (cs : list (jcall nat)),
    buf_contents (fst (world_json_buffer_mut jser jde types w k cs)) (ek_buf k) (ek_sess k)
      <> buf_contents w (ek_buf k) (ek_sess k) /\
    gate_reads w (ek_buf k) (ek_sess k) = Some Open /\ targets_of w (ek_buf k) <> [].
Proof.
  split; [exact @world_json_silent|].
  exists etypes, gwit, ekwit, [JCPushJson 5]. repeat split; discriminate.
Qed.
Print Assumptions C67_json_access_notifies_refuted.

(** C67. Iterating over a JSON view yields the serialised messages of the session from the
    oldest to the newest, an error in the place of each one that cannot be serialised,
    and then ends. *)
Theorem C67_iteration_yields_the_messages :
  forall (V J : Type) (ser : nat -> V -> option J) (T : nat) (st : storage V) (s : entity) (more : nat),
  json_iter ser T st s 0 (length (iter st s) + more)
  = map (fun v => match ser T v with Some j => JOVal (Some j) | None => JOErr end) (iter st s)
    ++ repeat (JOVal None) more.
Proof.
  intros V J ser T st s more. rewrite json_iter_ok, seq_app, map_app. f_equal.
  - induction (iter st s) as [|x l IH]; [reflexivity|]. cbn [length seq map nth_error as_json].
    f_equal. rewrite <- seq_shift, map_map. exact IH.
  - cbn [plus]. assert (H : forall i, length (iter st s) <= i ->
      map (fun k => as_json ser T (nth_error (iter st s) k)) (seq i more) = repeat (JOVal None) more).
    { induction more as [|m IH]; intros i Hi; cbn [seq map repeat]; [reflexivity|].
      rewrite IH by lia. replace (nth_error (iter st s) i) with (@None V); [reflexivity|].
      symmetry. apply nth_error_None. exact Hi. }
    apply H. lia.
Qed.
Print Assumptions C67_iteration_yields_the_messages.

Example C67_iteration_yields_the_messages_case :
  json_iter jser 4 (mk_storage KeepAll (fun s => if Nat.eqb s 8 then Some [3; 150; 1] else None)) 8 0 5
  = [JOVal (Some 1); JOErr; JOVal (Some 3); JOVal None; JOVal None].
Proof. reflexivity. Qed.
