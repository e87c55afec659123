(** Byte-level model of the metadata nodes that go through the buffers: what core/driver/buffer.c does
    to a node on its way to and from the disk, in both byte orders, and the contents of the master
    block (core/driver/format.c, core/driver/volume.c).

    The host is little-endian; [swap] tells whether REDCONF_ENDIAN_SWAP is defined. *)
From Verif Require Import Base Endian Crc Cache Metaroot.

(** configuration which affects the layout of inodes (redconf.h) *)
Record lconf := mkLC { lc_blocks : bool; lc_times : bool; lc_posix : bool; lc_link : bool }.

Section Node.
Variable BS : nat.          (* REDCONF_BLOCK_SIZE *)
Variable lc : lconf.
Variable swap : bool.       (* REDCONF_ENDIAN_SWAP *)

(** a member: its offset and its size in bytes *)
Definition member : Type := (nat * nat)%type.
(** [p->member = RedRevXX(p->member)] *)
Definition rev_at (f : member) (x : list N) : list N :=
  match snd f with
  | 2%nat => put16 x (fst f) (RedRev16 (get16 x (fst f)))
  | 4%nat => put32 x (fst f) (RedRev32 (get32 x (fst f)))
  | 8%nat => put64 x (fst f) (RedRev64 (get64 x (fst f)))
  | _ => x
  end.
Definition rev_all (fs : list member) (x : list N) : list N := fold_left (fun x f => rev_at f x) fs x.

(** [n] members of four bytes from offset [off] on *)
Definition words (off n : nat) : list member := map (fun k => ((off + 4 * k)%nat, 4%nat)) (List.seq 0 n).
(** buffer.c:951-968 BufferEndianSwapHeader *)
Definition header_members : list member := [(0, 4); (4, 4); (8, 8)]%nat.
(** buffer.c:976-994 BufferEndianSwapMaster *)
Definition master_members : list member := [(16, 4); (28, 4); (32, 4); (36, 4); (40, 2); (42, 2); (44, 2)]%nat.
(** rednodes.h:130-167 INODE and buffer.c:1001-1040 BufferEndianSwapInode *)
Definition ino_blocks : nat := 24.
Definition ino_times : nat := (24 + if lc_blocks lc then 4 else 0).
Definition ino_mode : nat := (ino_times + if lc_times lc then 12 else 0).
Definition ino_pinode : nat := (ino_mode + 4).
Definition ino_entries : nat := (ino_pinode + if lc_posix lc then 4 else 0).
Definition inode_members : list member :=
  ([(16, 8)] ++ (if lc_blocks lc then [(ino_blocks, 4)] else [])
  ++ (if lc_times lc then [(ino_times, 4); (ino_times + 4, 4); (ino_times + 8, 4)] else [])
  ++ [(ino_mode, 2)] ++ (if lc_posix lc && lc_link lc then [(ino_mode + 2, 2)] else [])
  ++ (if lc_posix lc then [(ino_pinode, 4)] else [])
  ++ words ino_entries ((BS - ino_entries) / 4))%nat.
(** rednodes.h:170-187 INDIR/DINDIR and buffer.c:1048-1066 BufferEndianSwapIndir *)
Definition indir_members : list member := ([(16, 4)] ++ words 20 ((BS - 20) / 4))%nat.
(** buffer.c:899-945 BufferEndianSwap *)
Definition node_members (t : btype) : list member :=
  match t with
  | TData => []
  | TMaster => header_members ++ master_members
  | TInode => header_members ++ inode_members
  | TDindir | TIndir => header_members ++ indir_members
  | TImap => header_members
  end.
Definition BufferEndianSwap (t : btype) (x : list N) : list N := if swap then rev_all (node_members t) x else x.

(** buffer.c:875-888 BufferFinalize: signature, sequence number, byte order, CRC *)
Definition node_seal (t : btype) (q : N) (x : list N) : list N :=
  let x := put32 x 0 (sig_of t) in
  let x := put64 x 8 q in
  let x := BufferEndianSwap t x in
  put32 x 4 (w32 swap (crc32 0 (skipn 8 x))).
(** buffer.c:628-718 BufferIsValid; [mnt], [vseq]: fMounted and ullSequence of the volume *)
Definition w64 (v : N) : N := if swap then RedRev64 v else v.
Definition node_valid (mnt : bool) (vseq : N) (t : btype) (x : list N) : bool :=
  is_meta t && (w32 swap (get32 x 0) =? sig_of t)
  && (w32 swap (get32 x 4) =? crc32 0 (skipn 8 x))
  && negb (mnt && (vseq <=? w64 (get64 x 8))).
(** buffer.c:307-331: a node read from the disk *)
Definition node_load (mnt : bool) (vseq : N) (t : btype) (x : list N) : res (list N) :=
  if node_valid mnt vseq t x then Ok (BufferEndianSwap t x) else Err EIO.

(* ------------------------------------------------------------------ *)
(** * The master block *)

(** the configuration recorded in the master block (redconf.h; redvolume.h) *)
Record mconf := mkMC {
  mc_inodes : N; mc_blocks : N; mc_name : N; mc_direct : N; mc_indirect : N; mc_bsp2 : N;
  mc_posix : bool; mc_times : bool; mc_iblocks : bool; mc_link : bool }.
(** redver.h:75 *)
Definition RED_DISK_LAYOUT_VERSION : N := 1.
Definition flag (b : bool) (m : N) : N := if b then m else 0.
(** format.c:199-213: bFlags, initially zero *)
Definition mb_flags (c : mconf) : N :=
  N.lor (N.lor (N.lor (flag (mc_posix c) 1) (flag (mc_times c) 2)) (flag (mc_iblocks c) 4)) (flag (mc_posix c && mc_link c) 8).
(** format.c:184-213: the master block in memory (native byte order), [build] are the eight
    characters of the build number and [time] the clock *)
Definition format_master (c : mconf) (build : list N) (time : N) : list N :=
  let x := repeat 0 BS in
  let x := put32 x 16 RED_DISK_LAYOUT_VERSION in
  let x := putb x 20 build in
  let x := put32 x 28 time in
  let x := put32 x 32 (mc_inodes c) in
  let x := put32 x 36 (mc_blocks c) in
  let x := put16 x 40 (mc_name c) in
  let x := put16 x 42 (mc_direct c) in
  let x := put16 x 44 (mc_indirect c) in
  let x := putb x 46 [mc_bsp2 c] in
  putb x 47 [mb_flags c].
Definition has (f m : N) : bool := negb (N.land f m =? 0).
(** volume.c:240-291 RedVolMountMaster, after RedBufferGet has returned the block [x]: the
    sequence number, or -RED_EIO.  (mb is in native byte order.) *)
Definition RedVolMountMaster (c : mconf) (x : list N) : res N :=
  let f := nth 47 x 0 in
  if negb (get32 x 16 =? RED_DISK_LAYOUT_VERSION)
     || negb (get32 x 32 =? mc_inodes c)
     || negb (get32 x 36 =? mc_blocks c)
     || negb (get16 x 40 =? mc_name c)
     || negb (get16 x 42 =? mc_direct c)
     || negb (get16 x 44 =? mc_indirect c)
     || negb (nth 46 x 0 =? mc_bsp2 c)
     || negb (Bool.eqb (has f 1) (mc_posix c))
     || negb (Bool.eqb (has f 2) (mc_times c))
     || negb (Bool.eqb (has f 4) (mc_iblocks c))
  then Err EIO
  else if mc_posix c then
    (if negb (Bool.eqb (has f 8) (mc_link c)) then Err EIO else Ok (get64 x o_seq))
  else (if has f 8 then Err EIO else Ok (get64 x o_seq)).

(** format.c:180-217, buffer.c: the master block as written by a format with sequence number [q] *)
Definition master_written (c : mconf) (build : list N) (time q : N) : list N := node_seal TMaster q (format_master c build time).
(** volume.c:240-291 RedVolMountMaster on the block [x] of the disk *)
Definition mount_master (mnt : bool) (vseq : N) (c : mconf) (x : list N) : res N :=
  match node_load mnt vseq TMaster x with Ok y => RedVolMountMaster c y | Err e => Err e end.
End Node.
