(** Byte-level model of the metaroot handling of core/driver/volume.c.

    The host is little-endian; [swap] tells whether REDCONF_ENDIAN_SWAP is defined, so that the
    on-disk format is big-endian if [swap] holds.  CRCs are those of the bitwise variant (C11: the
    other variants compute the same).  REDASSERT has no effect. *)
From Verif Require Import Base Endian Crc Cache.

Definition crc32 : N -> list N -> N := RedCrc32Update_bitwise.

(** [n] bytes at offset [off], and replacing the bytes at offset [off] *)
Definition getb (x : list N) (off n : nat) : list N := firstn n (skipn off x).
Definition putb (x : list N) (off : nat) (y : list N) : list N := firstn off x ++ y ++ skipn (off + length y) x.
(** loads and stores of structure members *)
Definition get16 (x : list N) off : N := of_le_bytes (getb x off 2).
Definition get32 (x : list N) off : N := of_le_bytes (getb x off 4).
Definition get64 (x : list N) off : N := of_le_bytes (getb x off 8).
Definition put16 (x : list N) off (v : N) : list N := putb x off (le_bytes 2 v).
Definition put32 (x : list N) off (v : N) : list N := putb x off (le_bytes 4 v).
Definition put64 (x : list N) off (v : N) : list N := putb x off (le_bytes 8 v).

(** redcore.h:39 *)
Definition META_SIG_METAROOT : N := 0x4154454D.

(** rednodes.h:88-106 METAROOT: offsets of the members *)
Definition o_sig := 0%nat.
Definition o_crc := 4%nat.
Definition o_seq := 8%nat.
Definition o_scrc := 16%nat.
Definition o_free := 20%nat.
Definition o_freei := 24%nat.
Definition o_next (posix : bool) : nat := if posix then 28%nat else 24%nat.
Definition o_ent (posix : bool) : nat := if posix then 32%nat else 28%nat.

(** aMR[2], bCurMR (redcorevol.h), ullSequence, fMounted, fReadOnly (redvolume.h) and the two
    metaroot blocks of the device *)
Record bst := mkB { b_mr : bool -> list N; b_cur : bool; b_seq : N; b_mnt : bool; b_ro : bool; b_disk : bool -> list N }.
Definition updb {A} (f : bool -> A) (i : bool) (x : A) : bool -> A := fun j => if Bool.eqb j i then x else f j.
Definition bset_mr (s : bst) i x := mkB (updb (b_mr s) i x) (b_cur s) (b_seq s) (b_mnt s) (b_ro s) (b_disk s).
Definition bset_seq (s : bst) q := mkB (b_mr s) (b_cur s) q (b_mnt s) (b_ro s) (b_disk s).
Definition bset_cur (s : bst) i := mkB (b_mr s) i (b_seq s) (b_mnt s) (b_ro s) (b_disk s).
Definition bset_disk (s : bst) i x := mkB (b_mr s) (b_cur s) (b_seq s) (b_mnt s) (b_ro s) (updb (b_disk s) i x).
(** RedVolCriticalError, volume.c:686-707 *)
Definition bcritical (s : bst) := mkB (b_mr s) (b_cur s) (b_seq s) (b_mnt s) true (b_disk s).

Section Metaroot.
Variable BS SS : nat.        (* REDCONF_BLOCK_SIZE, gaRedBdevInfo[].ulSectorSize *)
Variable posix : bool.       (* REDCONF_API_POSIX == 1 *)
Variable swap : bool.        (* REDCONF_ENDIAN_SWAP *)
Variable atom : bool.        (* gpRedVolConf->fAtomicSectorWrite *)

Definition w32 (v : N) : N := if swap then RedRev32 v else v.

(** volume.c:662-683 MetaRootEndianSwap; the CRC of the header is not swapped *)
Definition rev32_at (off : nat) (x : list N) : list N := put32 x off (RedRev32 (get32 x off)).
Definition rev64_at (off : nat) (x : list N) : list N := put64 x off (RedRev64 (get64 x off)).
Definition MetaRootEndianSwap (x : list N) : list N :=
  let x := rev32_at o_sig x in
  let x := rev64_at o_seq x in
  let x := rev32_at o_scrc x in
  let x := rev32_at o_free x in
  let x := if posix then rev32_at o_freei x else x in
  rev32_at (o_next posix) x.
Definition mswap (x : list N) : list N := if swap then MetaRootEndianSwap x else x.

(** volume.c:446-502 MetarootIsValid: validity, validity of the first sector, and the buffer with
    its ulSectorCRC cleared *)
Definition MetarootIsValid (x : list N) : bool * bool * list N :=
  if negb (w32 (get32 x o_sig) =? META_SIG_METAROOT) then (false, false, x)
  else
    let ulSectorCRC := w32 (get32 x o_scrc) in
    let x := put32 x o_scrc 0 in
    let ulCRC := crc32 0 (getb x 8 (SS - 8)) in
    if ulCRC =? ulSectorCRC then
      (w32 (crc32 ulCRC (getb x SS (BS - SS))) =? get32 x o_crc, true, x)
    else (false, false, x).

(** volume.c:720-748 RedVolSeqNumIncrement (the volume number is valid) *)
Definition SeqNumIncrement (s : bst) : res unit * bst :=
  if b_seq s =? UINT64_MAX then (Err EFUBAR, bcritical s) else (Ok tt, bset_seq s (b_seq s + 1)).

(** volume.c:326-390: from the two blocks as read to the state with the selected metaroot *)
Definition select (s : bst) : res bool * bst :=
  let '(v0, s0, x0) := MetarootIsValid (b_mr s false) in
  let s := bset_mr s false (if v0 then mswap x0 else x0) in
  if negb v0 && (atom && negb s0) then (Err EIO, s)
  else
    let '(v1, s1, x1) := MetarootIsValid (b_mr s true) in
    let s := bset_mr s true (if v1 then mswap x1 else x1) in
    if v1 then
      if negb v0 || (get64 (b_mr s false) o_seq <? get64 (b_mr s true) o_seq)
      then (Ok true, bset_cur s true)
      else (Ok false, bset_cur s false)
    else if atom && negb s1 then (Err EIO, s)
    else if v0 then (Ok false, bset_cur s false)
    else (Err EIO, s).

(** volume.c:302-432 RedVolMountMetaroot.  [e0], [e1]: results of the two RedIoRead calls.  On entry
    [b_seq] is the sequence number of the master block.  fUseReservedBlocks and ulAlmostFreeBlocks
    are not part of this model (FsVolume.v). *)
Definition RedVolMountMetaroot (ro : bool) (e0 e1 : res unit) (s : bst) : res unit * bst :=
  match e0 with
  | Err e => (Err e, s)
  | Ok _ =>
    let s := bset_mr s false (b_disk s false) in
    match e1 with
    | Err e => (Err e, s)
    | Ok _ =>
      let s := bset_mr s true (b_disk s true) in
      match select s with
      | (Err e, s) => (Err e, s)
      | (Ok i, s) =>
        let q := get64 (b_mr s i) o_seq in
        let s := if b_seq s <? q then bset_seq s q else s in
        match SeqNumIncrement s with
        | (Err e, s) => (Err e, s)
        | (Ok _, s) =>
          (Ok tt, mkB (updb (b_mr s) (negb (b_cur s)) (b_mr s (b_cur s))) (negb (b_cur s)) (b_seq s) true ro (b_disk s))
        end
      end
    end
  end.

(** volume.c:529-566: the working metaroot as it is written.  [mr_seal] includes the signature, the
    sequence number and both checksums. *)
Definition mr_seal (q : N) (x : list N) : list N :=
  let x := put32 x o_sig META_SIG_METAROOT in
  let x := put64 x o_seq q in
  let x := mswap x in
  let x := put32 x o_scrc 0 in
  let ulSectorCRC := crc32 0 (getb x 8 (SS - 8)) in
  let x := put32 x o_crc (if (SS <? BS)%nat then crc32 ulSectorCRC (getb x SS (BS - SS)) else ulSectorCRC) in
  let x := put32 x o_scrc ulSectorCRC in
  if swap then put32 (put32 x o_crc (RedRev32 (get32 x o_crc))) o_scrc (RedRev32 (get32 (put32 x o_crc (RedRev32 (get32 x o_crc))) o_scrc))
  else x.

(** outcome of the write of the metaroot block: success, or an error and what the block then holds *)
Definition wres : Type := option (errno * list N).
(** volume.c:515-610 RedVolTransact, from line 529 on (the buffers have been flushed): [f1], [f2]
    are the results of the two RedIoFlush calls, [w] that of RedIoWrite.  The addition of
    ulAlmostFreeBlocks (line 523) is in FsVolume.v; here the working metaroot is what it is. *)
Definition RedVolTransact (f1 f2 : res unit) (w : wres) (s : bst) : res unit * bst :=
  let q := b_seq s in
  let x0 := put64 (put32 (b_mr s (b_cur s)) o_sig META_SIG_METAROOT) o_seq q in
  match SeqNumIncrement (bset_mr s (b_cur s) x0) with
  | (Err e, s) => (Err e, bcritical s)
  | (Ok _, s) =>
    let x := mr_seal q (b_mr s (b_cur s)) in
    let s := bset_mr s (b_cur s) x in
    match f1 with
    | Err e => (Err e, bcritical s)
    | Ok _ =>
      let '(r, y) := match w with None => (Ok tt, x) | Some (e, y) => (Err e, y) end in
      let s := bset_mr (bset_disk s (b_cur s) y) (b_cur s) (mswap x) in
      match r with
      | Err e => (Err e, bcritical s)
      | Ok _ =>
        match f2 with
        | Err e => (Err e, bcritical s)
        | Ok _ => (Ok tt, bset_cur (bset_mr s (negb (b_cur s)) (b_mr s (b_cur s))) (negb (b_cur s)))
        end
      end
    end
  end.
End Metaroot.
