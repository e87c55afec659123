(** Specification of block storage WITHOUT a cache (independent of Cache.v's buffer heads, MRU list
    and eviction).  The only things known to this specification are: for every block, the contents
    stored last; which blocks the client currently holds, through which pointer; and the client's
    bookkeeping that any write-back cache requires (which blocks were modified since the last flush,
    which ones have been used since they were last discarded). *)
From Verif Require Import Base Crc Endian Cache.

(** What a block holds.
    [Raw x]: exactly the bytes [x].
    [Node t x]: a metadata node of type [t] with the body of [x]; the 16 header bytes are maintained
    by the storage layer and unspecified.
    [Unknown]: nothing is promised (a modification was thrown away, or a direct write failed). *)
Inductive cont := Unknown | Raw (x : list N) | Node (t : btype) (x : list N).

Definition same_body (x y : list N) : Prop := length x = length y /\ skipn 16 x = skipn 16 y.
(** the bytes [y] are a faithful image of the contents *)
Definition shows (k : cont) (y : list N) : Prop :=
  match k with Unknown => True | Raw x => y = x | Node _ x => same_body x y end.

(** an acquired buffer: its block, the number of acquisitions, and whether it may be written to *)
Record hnd := mkHnd { h_vol : N; h_blk : N; h_cnt : N; h_wr : bool }.

Record spec := mkSpec {
  s_cont : N -> N -> cont;        (* contents of block b of volume v *)
  s_used : N -> N -> bool;        (* used since it was last discarded *)
  s_pend : N -> N -> bool;        (* modified since it was last flushed *)
  s_hand : nat -> option hnd }.   (* pointers held by the client *)

Definition upd2 {A} (f : N -> N -> A) (v b : N) (x : A) : N -> N -> A :=
  fun v' b' => if (v' =? v) && (b' =? b) then x else f v' b'.
Definition updr {A} (f : N -> N -> A) (v st n : N) (g : N -> A) : N -> N -> A :=
  fun v' b' => if (v' =? v) && (st <=? b') && (b' <? st + n) then g b' else f v' b'.

Definition at_blk (h : hnd) (v b : N) : Prop := h_vol h = v /\ h_blk h = b.
Definition held (s : spec) (v b : N) : Prop := exists p h, s_hand s p = Some h /\ at_blk h v b.
(** after a flush of a range, the buffers of the range must be dirtied again before being written to *)
Definition no_write (hs : nat -> option hnd) (v st n : N) : nat -> option hnd := fun p =>
  match hs p with
  | Some h => if (h_vol h =? v) && (st <=? h_blk h) && (h_blk h <? st + n)
              then Some (mkHnd (h_vol h) (h_blk h) (h_cnt h) false) else Some h
  | None => None
  end.

Section Spec.
Variable NB BS : nat.
Variable NV : N.
Variable bc : N -> N.
Variable mounted : N -> bool.
Variable seq0 : N -> N.     (* the volumes' sequence numbers when the cache was initialized *)

Definition blk_ok (x : list N) : Prop := length x = BS /\ bytes_ok x.
Definition range_ok (v st n : N) : Prop := st < bc v /\ n <= bc v - st /\ n <> 0.

(** [x] carries the signature of [t] and a correct checksum *)
Definition well_formed (t : btype) (x : list N) : Prop :=
  node_sig x = sig_of t /\ node_crc x = crc_node x.
(** ... and is not from the future *)
Definition surely_valid (v : N) (t : btype) (x : list N) : Prop :=
  well_formed t x /\ (mounted v = true -> node_seq x < seq0 v).

(** The rules a client of the storage must keep. *)
Definition allowed (s : spec) (k : cmd) : Prop :=
  match k with
  | CGet v b t new dirty =>
      v < NV
      /\ (forall p h, s_hand s p = Some h -> at_blk h v b -> h_cnt h < 255)
      /\ (b < bc v ->
          if new then dirty = true /\ s_used s v b = false
          else match s_cont s v b with
               | Unknown => False
               | Raw _ => t = TData \/ s_used s v b = false
               | Node t' _ => t = t'
               end)
  | CPut v p | CDirty v p => exists h, s_hand s p = Some h /\ h_vol h = v
  | CBranch v p b' =>
      exists h, s_hand s p = Some h /\ h_vol h = v /\ b' < bc v /\ s_used s v b' = false /\ s_pend s v (h_blk h) = false
  | CDiscard v p => exists h, s_hand s p = Some h /\ h_vol h = v /\ h_cnt h = 1
  | CFlush v _ _ | CDirectRead v _ _ | CSeq v => v < NV
  | CDiscardRange v st n => v < NV /\ forall b, st <= b < st + n -> ~ held s v b
  | CPeek p => s_hand s p <> None
  | CPoke p x => blk_ok x /\ exists h, s_hand s p = Some h /\ h_wr h = true
  | CDirectWrite v st xs => v < NV /\ Forall blk_ok xs /\ forall b, st <= b < st + lenN xs -> ~ held s v b
  end.

Definition zeros (t : btype) : cont := if is_meta t then Node t (repeat 0 BS) else Raw (repeat 0 BS).
Definition typed (t : btype) (k : cont) : cont :=
  match k with Raw x => if is_meta t then Node t x else Raw x | _ => k end.
Definition poked (k : cont) (x : list N) : cont :=
  match k with Node t _ => Node t x | _ => Raw x end.

(** One command.  [env]: an I/O call failed or a sequence number ran out during the command. *)
Inductive sstep (env : Prop) (s : spec) : cmd -> out -> spec -> Prop :=
(* acquiring a block: the pointer is the one already held for this block, or a free one *)
| S_get v b t (new dirty : bool) p :
    b < bc v ->
    match s_hand s p with Some h => at_blk h v b | None => ~ held s v b end ->
    (new = false -> forall x, s_cont s v b = Raw x -> is_meta t = true -> well_formed t x) ->
    sstep env s (CGet v b t new dirty) (OBuf (Ok p))
      (mkSpec (upd2 (s_cont s) v b (if new then zeros t else typed t (s_cont s v b)))
              (upd2 (s_used s) v b true)
              (upd2 (s_pend s) v b (s_pend s v b || dirty))
              (updn (s_hand s) p (Some match s_hand s p with
                                       | Some h => mkHnd v b (h_cnt h + 1) (h_wr h || dirty)
                                       | None => mkHnd v b 1 dirty
                                       end)))
| S_get_bad v b t new dirty : bc v <= b -> sstep env s (CGet v b t new dirty) (OBuf (Err EINVAL)) s
| S_get_busy v b t new dirty :     (* every buffer is held, and none of them is for this block *)
    ~ held s v b -> (forall p, (p < NB)%nat -> s_hand s p <> None) ->
    sstep env s (CGet v b t new dirty) (OBuf (Err EBUSY)) s
| S_get_invalid v b t dirty x :    (* not a valid node of the requested type *)
    s_cont s v b = Raw x -> is_meta t = true -> ~ surely_valid v t x ->
    sstep env s (CGet v b t false dirty) (OBuf (Err EIO)) s
| S_get_env v b t new dirty e : env -> sstep env s (CGet v b t new dirty) (OBuf (Err e)) s
| S_put v p h :
    s_hand s p = Some h ->
    sstep env s (CPut v p) ONone
      (mkSpec (s_cont s) (s_used s) (s_pend s)
         (updn (s_hand s) p (if h_cnt h =? 1 then None else Some (mkHnd (h_vol h) (h_blk h) (h_cnt h - 1) (h_wr h)))))
| S_dirty v p h :
    s_hand s p = Some h ->
    sstep env s (CDirty v p) ONone
      (mkSpec (s_cont s) (s_used s) (upd2 (s_pend s) v (h_blk h) true)
         (updn (s_hand s) p (Some (mkHnd v (h_blk h) (h_cnt h) true))))
(* copy-on-write: the buffer now stands for block b'; the old block keeps its contents *)
| S_branch v p h b' :
    s_hand s p = Some h ->
    sstep env s (CBranch v p b') ONone
      (mkSpec (upd2 (s_cont s) v b' (s_cont s v (h_blk h)))
              (upd2 (upd2 (s_used s) v (h_blk h) false) v b' true)
              (upd2 (s_pend s) v b' true)
              (updn (s_hand s) p (Some (mkHnd v b' (h_cnt h) true))))
| S_discard v p h :
    s_hand s p = Some h ->
    sstep env s (CDiscard v p) ONone
      (mkSpec (upd2 (s_cont s) v (h_blk h) (if s_pend s v (h_blk h) then Unknown else s_cont s v (h_blk h)))
              (upd2 (s_used s) v (h_blk h) false) (upd2 (s_pend s) v (h_blk h) false)
              (updn (s_hand s) p None))
| S_flush v st n :
    range_ok v st n ->
    sstep env s (CFlush v st n) (ODone (Ok tt))
      (mkSpec (s_cont s) (s_used s) (updr (s_pend s) v st n (fun _ => false)) (no_write (s_hand s) v st n))
| S_flush_bad v st n : ~ range_ok v st n -> sstep env s (CFlush v st n) (ODone (Err EINVAL)) s
| S_flush_env v st n e :
    env -> range_ok v st n ->
    sstep env s (CFlush v st n) (ODone (Err e))
      (mkSpec (s_cont s) (s_used s) (s_pend s) (no_write (s_hand s) v st n))
| S_drange v st n :
    range_ok v st n ->
    sstep env s (CDiscardRange v st n) (ODone (Ok tt))
      (mkSpec (updr (s_cont s) v st n (fun b => if s_pend s v b then Unknown else s_cont s v b))
              (updr (s_used s) v st n (fun _ => false)) (updr (s_pend s) v st n (fun _ => false)) (s_hand s))
| S_drange_bad v st n : ~ range_ok v st n -> sstep env s (CDiscardRange v st n) (ODone (Err EINVAL)) s
(* reading the memory of a held buffer shows the contents of its block *)
| S_peek p h x :
    s_hand s p = Some h -> shows (s_cont s (h_vol h) (h_blk h)) x ->
    s_cont s (h_vol h) (h_blk h) <> Unknown ->
    sstep env s (CPeek p) (OBytes x) s
(* writing the memory of a held buffer stores into its block *)
| S_poke p h x :
    s_hand s p = Some h ->
    sstep env s (CPoke p x) ONone
      (mkSpec (upd2 (s_cont s) (h_vol h) (h_blk h) (poked (s_cont s (h_vol h) (h_blk h)) x))
              (s_used s) (s_pend s) (s_hand s))
| S_dread v st n xs :
    range_ok v st n -> lenN xs = n ->
    (forall i, i < n -> shows (s_cont s v (st + i)) (nthN xs i [])) ->
    sstep env s (CDirectRead v st n) (ORead (Ok xs))
      (mkSpec (s_cont s) (s_used s) (updr (s_pend s) v st n (fun _ => false)) (no_write (s_hand s) v st n))
| S_dread_bad v st n : ~ range_ok v st n -> sstep env s (CDirectRead v st n) (ORead (Err EINVAL)) s
| S_dread_env v st n e :
    env -> range_ok v st n ->
    sstep env s (CDirectRead v st n) (ORead (Err e))
      (mkSpec (s_cont s) (s_used s) (s_pend s) (no_write (s_hand s) v st n))
| S_dwrite v st xs :
    range_ok v st (lenN xs) ->
    sstep env s (CDirectWrite v st xs) (ODone (Ok tt))
      (mkSpec (updr (s_cont s) v st (lenN xs) (fun b => Raw (nthN xs (b - st) [])))
              (updr (s_used s) v st (lenN xs) (fun _ => false)) (updr (s_pend s) v st (lenN xs) (fun _ => false)) (s_hand s))
| S_dwrite_bad v st xs : ~ range_ok v st (lenN xs) -> sstep env s (CDirectWrite v st xs) (ODone (Err EINVAL)) s
| S_dwrite_env v st xs e :
    env -> range_ok v st (lenN xs) ->
    sstep env s (CDirectWrite v st xs) (ODone (Err e))
      (mkSpec (updr (s_cont s) v st (lenN xs) (fun _ => Unknown)) (s_used s) (s_pend s) (s_hand s))
| S_seq v r : (r = Ok tt \/ env) -> sstep env s (CSeq v) (ODone r) s.

(** nothing held, nothing modified; every block holds what is on the disk *)
Definition spec0 (disk : N -> N -> list N) : spec :=
  mkSpec (fun v b => Raw (disk v b)) (fun _ _ => false) (fun _ _ => false) (fun _ => None).
End Spec.
