(** Model of core/driver/buffer.c (the block buffer cache) together with the direct block I/O of
    core/driver/inodedata.c, which bypasses it.

    Simplifications: a buffer pointer is the index of the buffer; the flag word is split into the
    node type, BFLAG_NEW and BFLAG_DIRTY, so that the BFLAG_MASK check always succeeds; all node
    types are compiled in; REDCONF_ENDIAN_SWAP is not defined and the host is little-endian;
    REDASSERT, REDERROR and CRITICAL_ERROR have no effect (the state of the volume's read-only flag
    is not part of this model); one call of RedIoRead or RedIoWrite (Bdev.v) is one event with an
    arbitrary outcome. *)
From Verif Require Import Base Crc Endian.

(** redcore.h:67-83 BFLAG_META_*; [TData] is the absence of BFLAG_META. *)
Inductive btype := TData | TMaster | TImap | TInode | TIndir | TDindir.
Definition btype_eqb (a b : btype) : bool :=
  match a, b with
  | TData, TData | TMaster, TMaster | TImap, TImap | TInode, TInode | TIndir, TIndir | TDindir, TDindir => true
  | _, _ => false
  end.
Definition is_meta (t : btype) : bool := negb (btype_eqb t TData).

(** redcore.h:38-43 META_SIG_*; buffer.c:833-862: 0 for a buffer that is not metadata *)
Definition sig_of (t : btype) : N :=
  match t with
  | TData => 0 | TMaster => 0x5453414D | TImap => 0x50414D49 | TInode => 0x444F4E49
  | TDindir => 0x494C4244 | TIndir => 0x49444E49
  end.

(** buffer.c:104 BBLK_INVALID *)
Definition BBLK_INVALID : N := UINT32_MAX.

(** buffer.c:112-119 BUFFERHEAD *)
Record head := mkHead { hd_blk : N; hd_vol : N; hd_ref : N; hd_type : btype; hd_dirty : bool }.

(** buffer.c:124-155 BUFFERCTX, the contents of the disks, the volumes' ullSequence, and the number
    of I/O calls made so far. *)
Record cst := mkCst {
  c_used : N; c_mru : list nat; c_head : nat -> head; c_buf : nat -> list N;
  c_disk : N -> N -> list N; c_seq : N -> N; c_io : N }.

Definition set_used (c : cst) x := mkCst x (c_mru c) (c_head c) (c_buf c) (c_disk c) (c_seq c) (c_io c).
Definition set_mru (c : cst) x := mkCst (c_used c) x (c_head c) (c_buf c) (c_disk c) (c_seq c) (c_io c).
Definition updn {A} (f : nat -> A) (i : nat) (v : A) : nat -> A := fun j => if Nat.eqb j i then v else f j.
Definition set_head (c : cst) i x := mkCst (c_used c) (c_mru c) (updn (c_head c) i x) (c_buf c) (c_disk c) (c_seq c) (c_io c).
Definition set_buf (c : cst) i x := mkCst (c_used c) (c_mru c) (c_head c) (updn (c_buf c) i x) (c_disk c) (c_seq c) (c_io c).
Definition set_disk (c : cst) v b x :=
  mkCst (c_used c) (c_mru c) (c_head c) (c_buf c) (upd (c_disk c) v (upd (c_disk c v) b x)) (c_seq c) (c_io c).
Definition set_seq (c : cst) v x := mkCst (c_used c) (c_mru c) (c_head c) (c_buf c) (c_disk c) (upd (c_seq c) v x) (c_io c).
Definition tick (c : cst) := mkCst (c_used c) (c_mru c) (c_head c) (c_buf c) (c_disk c) (c_seq c) (c_io c + 1).

Definition with_blk (h : head) b := mkHead b (hd_vol h) (hd_ref h) (hd_type h) (hd_dirty h).
Definition with_ref (h : head) r := mkHead (hd_blk h) (hd_vol h) r (hd_type h) (hd_dirty h).
Definition with_dirty (h : head) d := mkHead (hd_blk h) (hd_vol h) (hd_ref h) (hd_type h) d.

Section Cache.
Variable NB : nat.                       (* REDCONF_BUFFER_COUNT *)
Variable BS : nat.                       (* REDCONF_BLOCK_SIZE *)
Variable NV : N.                         (* REDCONF_VOLUME_COUNT *)
Variable bc : N -> N.                    (* gaRedVolume[].ulBlockCount *)
Variable mounted : N -> bool.            (* gaRedVolume[].fMounted *)
(** outcome of the n-th I/O call: success, or failure with the bytes it leaves behind *)
Variable orc : N -> option (N -> list N).

(** buffer.c:176-190 RedBufferInit; the disks and sequence numbers are whatever they are *)
Definition RedBufferInit (disk : N -> N -> list N) (seq : N -> N) : cst :=
  mkCst 0 (map (fun i => (NB - i - 1)%nat) (List.seq 0 NB))
    (fun _ => mkHead BBLK_INVALID 0 0 TData false) (fun _ => repeat 0 BS) disk seq 0.

(** blockio.c:56-97 RedIoRead and blockio.c:114-155 RedIoWrite for one block *)
Definition io_read (v b : N) (c : cst) : res (list N) * cst :=
  match orc (c_io c) with
  | None => (Ok (c_disk c v b), tick c)
  | Some _ => (Err EIO, tick c)
  end.
(** the bytes left in the caller's buffer by a failing read *)
Definition io_read_junk (c : cst) (b : N) : list N :=
  match orc (c_io c) with None => [] | Some j => j b end.
Definition io_write (v b : N) (x : list N) (c : cst) : res unit * cst :=
  match orc (c_io c) with
  | None => (Ok tt, tick (set_disk c v b x))
  | Some j => (Err EIO, tick (set_disk c v b (j b)))
  end.

(** rednodes.h:31-45 NODEHEADER fields *)
Definition node_sig (x : list N) : N := of_le_bytes (firstn 4 x).
Definition node_crc (x : list N) : N := of_le_bytes (firstn 4 (skipn 4 x)).
Definition node_seq (x : list N) : N := of_le_bytes (firstn 8 (skipn 8 x)).
Definition crc_node (x : list N) : N := RedCrcNode RedCrc32Update_bitwise x.

(** buffer.c:628-718 BufferIsValid *)
Definition BufferIsValid (v : N) (c : cst) (x : list N) (t : btype) : bool :=
  is_meta t && (node_sig x =? sig_of t)
  && (node_crc x =? crc_node x)
  && negb (mounted v && (c_seq c v <=? node_seq x)).

(** volume.c:720-748 RedVolSeqNumIncrement *)
Definition RedVolSeqNumIncrement (v : N) (c : cst) : res unit * cst :=
  if NV <=? v then (Err EINVAL, c)
  else if c_seq c v =? UINT64_MAX then (Err EFUBAR, c)
  else (Ok tt, set_seq c v (c_seq c v + 1)).

(** buffer.c:875-887: signature, sequence number, then the CRC *)
Definition stamp (t : btype) (sq : N) (x : list N) : list N :=
  let y := le_bytes 4 (sig_of t) ++ firstn 4 (skipn 4 x) ++ le_bytes 8 sq ++ skipn 16 x in
  firstn 4 y ++ le_bytes 4 (crc_node y) ++ skipn 8 y.
(** buffer.c:818-890 BufferFinalize *)
Definition BufferFinalize (i : nat) (v : N) (t : btype) (c : cst) : res unit * cst :=
  if NV <=? v then (Err EINVAL, c)
  else if sig_of t =? 0 then (Err EINVAL, c)
  else
    let sq := c_seq c v in
    match RedVolSeqNumIncrement v c with
    | (Ok _, c1) => (Ok tt, set_buf c1 i (stamp t sq (c_buf c1 i)))
    | (Err e, c1) => (Err e, c1)
    end.

(** buffer.c:762-795 BufferWrite *)
Definition BufferWrite (i : nat) (c : cst) : res unit * cst :=
  if (i <? NB)%nat then
    let h := c_head c i in
    let '(r, c1) := if is_meta (hd_type h) then BufferFinalize i (hd_vol h) (hd_type h) c else (Ok tt, c) in
    match r with
    | Ok _ => io_write (hd_vol h) (hd_blk h) (c_buf c1 i) c1
    | Err e => (Err e, c1)
    end
  else (Err EINVAL, c).

(** position of [i] among the entries of [l], counting from 0 *)
Fixpoint position (i : nat) (l : list nat) : option nat :=
  match l with
  | [] => None
  | x :: r => if Nat.eqb i x then Some O else option_map S (position i r)
  end.
(** buffer.c:1074-1115 BufferMakeLRU: the first position holding [i], not counting the last slot;
    RedMemMove of the entries after it, then the last slot. *)
Definition BufferMakeLRU (i : nat) (c : cst) : cst :=
  if (NB <=? i)%nat then c
  else if Nat.eqb i (nth (NB - 1) (c_mru c) O) then c
  else match position i (firstn (NB - 1) (c_mru c)) with
       | Some k => set_mru c (firstn k (c_mru c) ++ skipn (S k) (c_mru c) ++ [i])
       | None => c
       end.
(** buffer.c:1122-1163 BufferMakeMRU: the first position holding [i], not counting slot 0;
    RedMemMove of the entries before it, then slot 0. *)
Definition BufferMakeMRU (i : nat) (c : cst) : cst :=
  if (NB <=? i)%nat then c
  else if Nat.eqb i (nth O (c_mru c) O) then c
  else match position i (skipn 1 (c_mru c)) with
       | Some k => set_mru c (i :: firstn (S k) (c_mru c) ++ skipn (S (S k)) (c_mru c))
       | None => c
       end.

(** buffer.c:1193-1204: the scan of the buffer heads for the current volume and block *)
Fixpoint find_from (v b : N) (hs : nat -> head) (n i : nat) : option nat :=
  match n with
  | O => None
  | S m => if (hd_vol (hs i) =? v) && (hd_blk (hs i) =? b) then Some i else find_from v b hs m (S i)
  end.
(** buffer.c:1178-1209 BufferFind *)
Definition BufferFind (v b : N) (c : cst) : option nat :=
  if bc v <=? b then None else find_from v b (c_head c) NB O.

(** buffer.c:720-751 BufferToIdx *)
Definition BufferToIdx (v : N) (p : nat) (c : cst) : bool :=
  (p <? NB)%nat && negb (hd_blk (c_head c p) =? BBLK_INVALID) && (hd_vol (c_head c p) =? v).

(** buffer.c:256-263: from slot [k] down to slot 0, the first unreferenced buffer *)
Fixpoint victim_slot (c : cst) (k : nat) : nat :=
  match k with
  | O => O
  | S m => if hd_ref (c_head c (nth k (c_mru c) O)) =? 0 then k else victim_slot c m
  end.

(** buffer.c:268-343: write out the victim [i] if it is dirty, then fill it for block [b] *)
Definition get_fill (v b : N) (t : btype) (new : bool) (i : nat) (c : cst) : res unit * cst :=
  let h := c_head c i in
  let '(r, c1) :=
    if hd_ref h =? 0 then
      if hd_dirty h && negb (hd_blk h =? BBLK_INVALID) then BufferWrite i c else (Ok tt, c)
    else (Err EBUSY, c) in
  match r with
  | Err e => (Err e, c1)
  | Ok _ =>
    let '(r2, c2) :=
      if new then (Ok tt, set_buf c1 i (repeat 0 BS))
      else
        let c1 := set_head c1 i (with_blk (c_head c1 i) BBLK_INVALID) in
        match io_read v b c1 with
        | (Err e, c') => (Err e, set_buf c' i (io_read_junk c1 b))
        | (Ok x, c') =>
          let c' := set_buf c' i x in
          if is_meta t && negb (BufferIsValid v c' x t) then (Err EIO, c') else (Ok tt, c')
        end in
    match r2 with
    | Err e => (Err e, c2)
    | Ok _ => (Ok tt, set_head c2 i (mkHead b v (hd_ref (c_head c2 i)) TData false))
    end
  end.
(** buffer.c:350-369: reference the buffer, update its flags, promote it *)
Definition get_ref (t : btype) (dirty : bool) (i : nat) (c : cst) : cst :=
  let h := c_head c i in
  let r := u8 (hd_ref h + 1) in
  let c1 := if r =? 1 then set_used c (u16 (c_used c + 1)) else c in
  (* uFlags |= (uFlags & ~BFLAG_NEW): the type bits are either equal or were just cleared *)
  BufferMakeMRU i (set_head c1 i (mkHead (hd_blk h) (hd_vol h) r
    (if btype_eqb (hd_type h) TData then t else hd_type h) (hd_dirty h || dirty))).

(** buffer.c:209-373 RedBufferGet, for current volume [v] *)
Definition RedBufferGet (v b : N) (t : btype) (new dirty : bool) (c : cst) : res nat * cst :=
  if bc v <=? b then (Err EINVAL, c)
  else
    match BufferFind v b c with
    | Some i =>
      if new || negb (btype_eqb t (hd_type (c_head c i))) then (Err EFUBAR, c)
      else (Ok i, get_ref t dirty i c)
    | None =>
      if c_used c =? N.of_nat NB then (Err EBUSY, c)
      else
        let i := nth (victim_slot c (NB - 1)) (c_mru c) O in
        match get_fill v b t new i c with
        | (Err e, c1) => (Err e, c1)
        | (Ok _, c1) => (Ok i, get_ref t dirty i c1)
        end
    end.

(** buffer.c:380-400 RedBufferPut *)
Definition RedBufferPut (v : N) (p : nat) (c : cst) : cst :=
  if BufferToIdx v p c then
    let h := c_head c p in
    let r := u8 (hd_ref h + 255) in
    let c1 := set_head c p (with_ref h r) in
    if r =? 0 then set_used c1 (u16 (c_used c + 65535)) else c1
  else c.

(** buffer.c:433-452: the loop over the buffer heads *)
Definition in_range (v st n : N) (h : head) : bool :=
  (hd_vol h =? v) && negb (hd_blk h =? BBLK_INVALID) && (st <=? hd_blk h) && (hd_blk h <? u32 (st + n)).
Fixpoint flush_from (v st n : N) (k i : nat) (c : cst) : res unit * cst :=
  match k with
  | O => (Ok tt, c)
  | S k' =>
    if in_range v st n (c_head c i) && hd_dirty (c_head c i) then
      match BufferWrite i c with
      | (Ok _, c1) => flush_from v st n k' (S i) (set_head c1 i (with_dirty (c_head c1 i) false))
      | (Err e, c1) => (Err e, c1)
      end
    else flush_from v st n k' (S i) c
  end.
Definition bad_range (v st n : N) : bool := (bc v <=? st) || (bc v - st <? n) || (n =? 0).
(** buffer.c:416-456 RedBufferFlushRange *)
Definition RedBufferFlushRange (v st n : N) (c : cst) : res unit * cst :=
  if bad_range v st n then (Err EINVAL, c) else flush_from v st n NB O c.

(** buffer.c:465-481 RedBufferDirty *)
Definition RedBufferDirty (v : N) (p : nat) (c : cst) : cst :=
  if BufferToIdx v p c then set_head c p (with_dirty (c_head c p) true) else c.

(** buffer.c:488-508 RedBufferBranch *)
Definition RedBufferBranch (v : N) (p : nat) (b' : N) (c : cst) : cst :=
  if negb (BufferToIdx v p c) || (bc v <=? b') then c
  else set_head c p (with_blk (with_dirty (c_head c p) true) b').

(** buffer.c:517-537 RedBufferDiscard *)
Definition RedBufferDiscard (v : N) (p : nat) (c : cst) : cst :=
  if BufferToIdx v p c then
    BufferMakeLRU p (set_used (set_head c p (with_blk (with_ref (c_head c p) 0) BBLK_INVALID)) (u16 (c_used c + 65535)))
  else c.

(** buffer.c:572-604: the loop over the buffer heads *)
Fixpoint discard_from (v st n : N) (k i : nat) (c : cst) : res unit * cst :=
  match k with
  | O => (Ok tt, c)
  | S k' =>
    if in_range v st n (c_head c i) then
      if hd_ref (c_head c i) =? 0 then
        discard_from v st n k' (S i) (BufferMakeLRU i (set_head c i (with_blk (c_head c i) BBLK_INVALID)))
      else (Err EBUSY, c)
    else discard_from v st n k' (S i) c
  end.
(** buffer.c:555-611 RedBufferDiscardRange *)
Definition RedBufferDiscardRange (v st n : N) (c : cst) : res unit * cst :=
  if bad_range v st n then (Err EINVAL, c) else discard_from v st n NB O c.

(** RedIoRead and RedIoWrite of several blocks (blockio.c:56-155) *)
Definition io_read_range (v st n : N) (c : cst) : res (list (list N)) * cst :=
  if bad_range v st n then (Err EINVAL, c)
  else match orc (c_io c) with
       | None => (Ok (map (fun k => c_disk c v (st + N.of_nat k)) (List.seq 0 (N.to_nat n))), tick c)
       | Some _ => (Err EIO, tick c)
       end.
Definition put_blocks (disk : N -> N -> list N) (v st : N) (n : N) (f : N -> list N) : N -> N -> list N :=
  fun v' b' => if (v' =? v) && (st <=? b') && (b' <? st + n) then f b' else disk v' b'.
Definition io_write_range (v st : N) (xs : list (list N)) (c : cst) : res unit * cst :=
  let n := lenN xs in
  let w f := tick (mkCst (c_used c) (c_mru c) (c_head c) (c_buf c) (put_blocks (c_disk c) v st n f) (c_seq c) (c_io c)) in
  if bad_range v st n then (Err EINVAL, c)
  else match orc (c_io c) with
       | None => (Ok tt, w (fun b' => nthN xs (b' - st) []))
       | Some j => (Err EIO, w j)
       end.
(** inodedata.c:1250-1263 ReadAligned: flush the extent, then read it from the disk *)
Definition direct_read (v st n : N) (c : cst) : res (list (list N)) * cst :=
  match RedBufferFlushRange v st n c with
  | (Err e, c1) => (Err e, c1)
  | (Ok _, c1) => io_read_range v st n c1
  end.
(** inodedata.c:1443-1457 WriteAligned: write the extent, then discard its buffers *)
Definition direct_write (v st : N) (xs : list (list N)) (c : cst) : res unit * cst :=
  match io_write_range v st xs c with
  | (Err e, c1) => (Err e, c1)
  | (Ok _, c1) => RedBufferDiscardRange v st (lenN xs) c1
  end.

(** Everything the driver does to the cache.  [CPeek] and [CPoke] are the accesses to the memory of
    an acquired buffer through its pointer; [CSeq] are the increments of the sequence number done
    elsewhere (volume.c:531 RedVolTransact). *)
Inductive cmd :=
| CGet (v b : N) (t : btype) (new dirty : bool)
| CPut (v : N) (p : nat)
| CDirty (v : N) (p : nat)
| CBranch (v : N) (p : nat) (b' : N)
| CDiscard (v : N) (p : nat)
| CFlush (v st n : N)
| CDiscardRange (v st n : N)
| CPeek (p : nat)
| CPoke (p : nat) (x : list N)
| CDirectRead (v st n : N)
| CDirectWrite (v st : N) (xs : list (list N))
| CSeq (v : N).
Inductive out :=
| OBuf (r : res nat) | ONone | ODone (r : res unit) | OBytes (x : list N) | ORead (r : res (list (list N))).

Definition exec (k : cmd) (c : cst) : out * cst :=
  match k with
  | CGet v b t new dirty => let '(r, c') := RedBufferGet v b t new dirty c in (OBuf r, c')
  | CPut v p => (ONone, RedBufferPut v p c)
  | CDirty v p => (ONone, RedBufferDirty v p c)
  | CBranch v p b' => (ONone, RedBufferBranch v p b' c)
  | CDiscard v p => (ONone, RedBufferDiscard v p c)
  | CFlush v st n => let '(r, c') := RedBufferFlushRange v st n c in (ODone r, c')
  | CDiscardRange v st n => let '(r, c') := RedBufferDiscardRange v st n c in (ODone r, c')
  | CPeek p => (OBytes (c_buf c p), c)
  | CPoke p x => (ONone, set_buf c p x)
  | CDirectRead v st n => let '(r, c') := direct_read v st n c in (ORead r, c')
  | CDirectWrite v st xs => let '(r, c') := direct_write v st xs c in (ODone r, c')
  | CSeq v => let '(r, c') := RedVolSeqNumIncrement v c in (ODone r, c')
  end.
End Cache.
