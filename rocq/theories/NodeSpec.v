(** Specification of the on-disk metadata nodes, independent of buffer.c: the layout of the
    structures of core/include/rednodes.h, the header of a well-formed node, and what it means for
    two configurations to be compatible.  [big] tells whether the on-disk format is big-endian. *)
From Verif Require Import Base Endian Crc Cache MetaSpec Node.

(** the widths of consecutive members and their offsets *)
Fixpoint slots (off : nat) (ws : list nat) : list (nat * nat) :=
  match ws with [] => [] | w :: r => (off, w) :: slots (off + w) r end.
Definition opt (b : bool) (ws : list nat) : list nat := if b then ws else [].

Section Layout.
Variable BS : nat.
Variable lc : lconf.
(** rednodes.h:37-43: signature, CRC, sequence number *)
Definition l_header : list nat := [4; 4; 8]%nat.
(** rednodes.h:62-76 MASTERBLOCK: version, build number, format time, inode count, block count, maximum
    name length, direct and indirect pointers, log2 of the block size, flags; the rest is unused *)
Definition l_master : list nat :=
  ([4] ++ repeat 1 8 ++ [4; 4; 4; 2; 2; 2; 1; 1] ++ repeat 1 (BS - 48))%nat.
(** rednodes.h:130-167 INODE: size, blocks, access, modification and change time, mode, links (or
    padding), parent, block numbers *)
Definition l_inode_head : list nat :=
  ([8] ++ opt (lc_blocks lc) [4] ++ opt (lc_times lc) [4; 4; 4] ++ [2]
   ++ (if lc_posix lc && lc_link lc then [2] else [1; 1]) ++ opt (lc_posix lc) [4])%nat.
Definition total (ws : list nat) : nat := fold_right Nat.add 0%nat ws.
Definition l_inode : list nat := l_inode_head ++ repeat 4%nat ((BS - (16 + total l_inode_head)) / 4).
(** rednodes.h:173-190 INDIR, DINDIR: owner, block numbers *)
Definition l_indir : list nat := (4 :: repeat 4 ((BS - 20) / 4))%nat.
(** rednodes.h:108-121 IMAPNODE: a bitmap *)
Definition l_imap : list nat := repeat 1%nat (BS - 16).
Definition layout (t : btype) : list (nat * nat) :=
  slots 0 (l_header ++ match t with
    | TMaster => l_master | TInode => l_inode | TIndir | TDindir => l_indir | TImap => l_imap | TData => [] end).
End Layout.

(** the four letters at the beginning of a node *)
Definition letters (t : btype) : list N :=
  match t with
  | TMaster => [77; 65; 83; 84]        (* MAST *)
  | TImap => [73; 77; 65; 80]          (* IMAP *)
  | TInode => [73; 78; 79; 68]         (* INOD *)
  | TDindir => [68; 66; 76; 73]        (* DBLI *)
  | TIndir => [73; 78; 68; 73]         (* INDI *)
  | TData => []
  end.
(** [x] is a well-formed node of type [t] *)
Definition node_ok (big : bool) (t : btype) (x : list N) : Prop :=
  at_ x 0 4 = (if big then rev (letters t) else letters t) /\ fld big x 4 4 = checksum (skipn 8 x).

(** two configurations store the same kind of volume; the link count only exists with the POSIX API *)
Definition compatible (a b : mconf) : Prop :=
  mc_inodes a = mc_inodes b /\ mc_blocks a = mc_blocks b /\ mc_name a = mc_name b
  /\ mc_direct a = mc_direct b /\ mc_indirect a = mc_indirect b /\ mc_bsp2 a = mc_bsp2 b
  /\ mc_posix a = mc_posix b /\ mc_times a = mc_times b /\ mc_iblocks a = mc_iblocks b
  /\ (mc_posix a = true -> mc_link a = mc_link b).
(** the types of the members *)
Definition conf_ok (c : mconf) : Prop :=
  mc_inodes c < 2 ^ 32 /\ mc_blocks c < 2 ^ 32 /\ mc_name c < 2 ^ 16
  /\ mc_direct c < 2 ^ 16 /\ mc_indirect c < 2 ^ 16 /\ mc_bsp2 c < 256.
