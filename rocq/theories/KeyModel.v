(** Keys to buffers and how their use is tracked: src/buffer/buffer_access_lifecycle.rs,
    src/buffer/buffer_key_builder.rs, [BufferKeyTag] of src/buffer.rs, [get_access_keys] and
    [buffer_key_usage] of src/operation/operate_buffer_access.rs, [cleanup_buffer_access] of
    src/operation/cleanup.rs.

    One operation that hands out keys ([OperateBufferAccess] or [Listen]) for a fixed list of
    buffers. Holders of keys may be on other threads: dropping the last copy of a key is two steps,
    the notice ([kdrop]) and the release of the tracker ([krelease]). Dropping the receiver of the
    channel is not modelled. *)
From Verif Require Import Base.

(** What can be observed. *)
Inductive kevent :=
| KvActive (s b : entity)         (* buffer b was made active for session s *)
| KvKey (s k b : entity)          (* key k to buffer b went out for session s *)
| KvCopied (s k : entity)         (* the holder copied key k *)
| KvDropped (s k : entity)        (* the holder dropped a copy of key k *)
| KvCheck (s : entity) (use : bool) (* reachability of session s was checked because of a dropped key,
                                       with this answer for the keys *)
| KvClean (s : entity).           (* the scope cleaned up session s *)

(** buffer_access_lifecycle.rs 31-42 [BufferAccessLifecycle] inside of its [Arc] (src/buffer.rs 388):
    [lf_refs] counts the copies of the key; 0 if [Drop] has run but the fields were not dropped. *)
Record life := mk_life { lf_sess : entity; lf_buf : entity; lf_trk : entity; lf_refs : nat }.

Record kworld := mk_kworld {
  kw_next : entity;
  kw_held : emap entity;                 (* [BufferAccessStorage::keys]: the tracker of the session *)
  kw_count : entity -> nat;              (* strong counts of trackers *)
  kw_lives : list (entity * life);       (* of the keys that went out *)
  kw_chan : list (entity * entity);      (* notices in the channel: session and buffer *)
  kw_disposed : list entity;             (* [roster.disposed] for the accessor, last one first *)
  kw_log : list kevent }.

Section Keys.
  (** The buffers of the accessor. *)
  Variable bs : list entity.

  Definition set_count (f : entity -> nat) (t c : entity) : entity -> nat :=
    fun t' => if Nat.eqb t' t then c else f t'.

  (** src/buffer.rs 396-403 [deep_clone] of the key to buffer b: a new lifecycle with the same
      tracker. *)
  Definition hand_out (s t : entity) (w : kworld) (b : entity) : kworld :=
    let k := kw_next w in
    mk_kworld (S k) (kw_held w) (set_count (kw_count w) t (S (kw_count w t)))
      (kw_lives w ++ [(k, mk_life s b t 1)]) (kw_chan w) (kw_disposed w) (kw_log w ++ [KvKey s k b]).

  (** operate_buffer_access.rs 135-175 [get_access_keys]. A new key has a lifecycle for each buffer
      (buffer_key_builder.rs 33-49), and all share the tracker of the builder. Keys go out after the
      session was made active (170-171). *)
  Definition kaccess (s : entity) (w : kworld) : kworld :=
    match kw_held w s with
    | Some t => fold_left (hand_out s t) bs w
    | None =>
        let t := kw_next w in
        fold_left (hand_out s t) bs
          (mk_kworld (S t) (emap_set (kw_held w) s (Some t)) (set_count (kw_count w) t (length bs))
             (kw_lives w) (kw_chan w) (kw_disposed w) (kw_log w ++ map (KvActive s) bs))
    end.

  Definition get_life (k : entity) (w : kworld) : option life :=
    match find (fun p => Nat.eqb (fst p) k) (kw_lives w) with Some (_, l) => Some l | None => None end.

  Definition set_refs (n : nat) (l : life) : life := mk_life (lf_sess l) (lf_buf l) (lf_trk l) n.

  Definition put_refs (k : entity) (n : nat) (ls : list (entity * life)) : list (entity * life) :=
    map (fun p => if Nat.eqb (fst p) k then (fst p, set_refs n (snd p)) else p) ls.

  (** src/buffer.rs 383: [Clone] of a key, which copies the [Arc]. Also conversions of keys. *)
  Definition kcopy (k : entity) (w : kworld) : kworld :=
    match get_life k w with
    | Some l =>
        match lf_refs l with
        | 0 => w
        | S _ =>
            mk_kworld (kw_next w) (kw_held w) (kw_count w) (put_refs k (S (lf_refs l)) (kw_lives w))
              (kw_chan w) (kw_disposed w) (kw_log w ++ [KvCopied (lf_sess l) k])
        end
    | None => w
    end.

  (** A copy of the key is dropped; for the last one buffer_access_lifecycle.rs 68-89 [Drop]. *)
  Definition kdrop (k : entity) (w : kworld) : kworld :=
    match get_life k w with
    | Some l =>
        match lf_refs l with
        | 0 => w
        | S n =>
            mk_kworld (kw_next w) (kw_held w) (kw_count w) (put_refs k n (kw_lives w))
              (match n with
               | 0 => if Nat.ltb 1 (kw_count w (lf_trk l)) then kw_chan w ++ [(lf_sess l, lf_buf l)] else kw_chan w
               | S _ => kw_chan w
               end)
              (kw_disposed w) (kw_log w ++ [KvDropped (lf_sess l) k])
        end
    | None => w
    end.

  (** After [Drop::drop] the fields are dropped: the tracker is released. *)
  Definition krelease (k : entity) (w : kworld) : kworld :=
    match get_life k w with
    | Some l =>
        match lf_refs l with
        | 0 =>
            mk_kworld (kw_next w) (kw_held w)
              (set_count (kw_count w) (lf_trk l) (pred (kw_count w (lf_trk l))))
              (filter (fun p => negb (Nat.eqb (fst p) k)) (kw_lives w))
              (kw_chan w) (kw_disposed w) (kw_log w)
        | S _ => w
        end
    | None => w
    end.

  (** The flush takes a notice from the channel (src/flush.rs 191-197) and emits the disposal
      (buffer_access_lifecycle.rs 75-79, src/disposal.rs 598-617), which goes to [roster.disposed]. *)
  Definition knotice (w : kworld) : kworld :=
    match kw_chan w with
    | [] => w
    | (s, _) :: rest =>
        mk_kworld (kw_next w) (kw_held w) (kw_count w) (kw_lives w) rest (s :: kw_disposed w) (kw_log w)
    end.

  (** operate_buffer_access.rs 177-198 [buffer_key_usage]: the keys are in use if one of the
      lifecycles held by the accessor has a tracker with another owner
      (buffer_access_lifecycle.rs 63-65; src/buffer/buffering.rs 534-540, 657-666 for several). *)
  Definition key_usage (w : kworld) (s : entity) : bool :=
    match kw_held w s with
    | None => false
    | Some t => existsb (fun _ => Nat.ltb 1 (kw_count w t)) bs
    end.

  (** src/flush.rs 283-322: the next disposal makes the scope check what is reachable in the session;
      the buffers ask the accessor (operate_buffer_access.rs 215-234). *)
  Definition kcheck (w : kworld) : kworld :=
    match kw_disposed w with
    | [] => w
    | s :: rest =>
        mk_kworld (kw_next w) (kw_held w) (kw_count w) (kw_lives w) (kw_chan w) rest
          (kw_log w ++ [KvCheck s (key_usage w s)])
    end.

  (** The lifecycle which the accessor holds for buffer b is dropped. *)
  Definition drop_held (s t : entity) (w : kworld) (b : entity) : kworld :=
    mk_kworld (kw_next w) (kw_held w) (set_count (kw_count w) t (pred (kw_count w t))) (kw_lives w)
      (if Nat.ltb 1 (kw_count w t) then kw_chan w ++ [(s, b)] else kw_chan w) (kw_disposed w) (kw_log w).

  (** cleanup.rs 99-120 [cleanup_buffer_access]; [scope] says whether the scope is the cleaner. *)
  Definition kclean (scope : bool) (s : entity) (w : kworld) : kworld :=
    if scope then
      let w1 :=
        mk_kworld (kw_next w) (emap_set (kw_held w) s None) (kw_count w) (kw_lives w) (kw_chan w)
          (kw_disposed w) (kw_log w ++ [KvClean s]) in
      match kw_held w s with
      | None => w1
      | Some t => fold_left (drop_held s t) bs w1
      end
    else w.

  (** What happens, in any order. *)
  Inductive kop :=
  | KAccess (s : entity)
  | KCopy (k : entity)
  | KDrop (k : entity)
  | KRelease (k : entity)
  | KNotice
  | KCheck
  | KClean (scope : bool) (s : entity).

  Definition kstep (w : kworld) (o : kop) : kworld :=
    match o with
    | KAccess s => kaccess s w
    | KCopy k => kcopy k w
    | KDrop k => kdrop k w
    | KRelease k => krelease k w
    | KNotice => knotice w
    | KCheck => kcheck w
    | KClean scope s => kclean scope s w
    end.

  Definition kfresh (n : entity) : kworld := mk_kworld n emap_empty (fun _ => 0) [] [] [] [].

  Definition krun (w : kworld) (os : list kop) : kworld := fold_left kstep os w.
End Keys.
