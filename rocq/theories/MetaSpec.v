(** Specification of a metaroot block, independent of volume.c: what the bytes of a valid metaroot
    look like.  [big] tells whether the on-disk format is big-endian. *)
From Verif Require Import Base Endian Crc.

(** [n] bytes at offset [off], and the unsigned integer they represent *)
Definition at_ (x : list N) (off n : nat) : list N := firstn n (skipn off x).
Definition fld (big : bool) (x : list N) (off n : nat) : N :=
  of_le_bytes (if big then rev (at_ x off n) else at_ x off n).
(** the block with the four bytes of the sector checksum cleared *)
Definition zeroed (x : list N) : list N := firstn 16 x ++ [0; 0; 0; 0] ++ skipn 20 x.
(** the standard CRC-32 (C11, C12) *)
Definition checksum (x : list N) : N := RedCrc32Update_bitwise 0 x.

Section MetaSpec.
Variable SS : nat.      (* bytes per sector *)
Variable big posix : bool.
(** 'META', and the checksum of the first sector is right *)
Definition sector_ok (x : list N) : Prop :=
  fld big x 0 4 = 0x4154454D /\ fld big x 16 4 = checksum (at_ (zeroed x) 8 (SS - 8)).
(** ... and so is that of the whole block *)
Definition usable (x : list N) : Prop :=
  sector_ok x /\ fld big x 4 4 = checksum (skipn 8 (zeroed x)).
Definition seqno (x : list N) : N := fld big x 8 8.

(** the members of the metaroot which describe the file system: free blocks, free inodes (POSIX
    only), next block to allocate, bitmap *)
Definition members (big : bool) (x : list N) : N * N * N * list N :=
  (fld big x 20 4, if posix then fld big x 24 4 else 0, fld big x (if posix then 28 else 24) 4,
   skipn (if posix then 32 else 28) x).

(** [t] is a partly completed write of [new] over [old]: every sector is old or new *)
Definition torn (old new t : list N) : Prop :=
  length t = length old /\
  forall k, at_ t (k * SS) SS = at_ old (k * SS) SS \/ at_ t (k * SS) SS = at_ new (k * SS) SS.
End MetaSpec.
