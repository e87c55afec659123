(** Model of core/driver/inode.c: inode slots and the cached inode structure. *)
From Verif Require Import Base FsState FsImap.

(** core/include/redcore.h:146-182 CINODE.  [c_mnt]: pInodeBuf != NULL; [c_blk]: the block of
    the inode buffer; [c_i]: contents of the inode buffer.  When the inode is dirty the buffer
    contents are also stored in the logical volume ([iset] below); a modification of a buffer
    that is not dirty (which happens only while an inode is being deleted) stays local and
    is lost when the buffer is discarded.  COORD_ENTRY_INVALID is None.
    [c_pd]/[c_pi]/[c_pb]: pDindir/pIndir/pbData != NULL. *)
Record cin := mkCin {
  c_ino : N; c_mnt : bool; c_blk : N; c_i : inode; c_br : bool; c_dirty : bool; c_dir : bool;
  c_inited : bool; c_l : N; c_e : N; c_de : option N; c_ie : option N;
  c_db : N; c_ib : N; c_dat : N; c_pd : bool; c_pi : bool; c_pb : bool }.

Definition inode0 : inode := mkInode 0 0 false 0 0 (fun _ => 0).
Definition cin0 (i : N) : cin :=
  mkCin i false 0 inode0 false false false false 0 0 None None 0 0 0 false false false.

Definition cset_i v c := mkCin (c_ino c) (c_mnt c) (c_blk c) v (c_br c) (c_dirty c) (c_dir c)
  (c_inited c) (c_l c) (c_e c) (c_de c) (c_ie c) (c_db c) (c_ib c) (c_dat c) (c_pd c) (c_pi c) (c_pb c).
Definition cset_coord ini l e de ie db ib dat pd pi pb c :=
  mkCin (c_ino c) (c_mnt c) (c_blk c) (c_i c) (c_br c) (c_dirty c) (c_dir c) ini l e de ie db ib dat pd pi pb.
Definition cset_pd v c := cset_coord (c_inited c) (c_l c) (c_e c) (c_de c) (c_ie c) (c_db c) (c_ib c) (c_dat c) v (c_pi c) (c_pb c) c.
Definition cset_pi v c := cset_coord (c_inited c) (c_l c) (c_e c) (c_de c) (c_ie c) (c_db c) (c_ib c) (c_dat c) (c_pd c) v (c_pb c) c.
Definition cset_pb v c := cset_coord (c_inited c) (c_l c) (c_e c) (c_de c) (c_ie c) (c_db c) (c_ib c) (c_dat c) (c_pd c) (c_pi c) v c.
Definition cset_db v c := cset_coord (c_inited c) (c_l c) (c_e c) (c_de c) (c_ie c) v (c_ib c) (c_dat c) (c_pd c) (c_pi c) (c_pb c) c.
Definition cset_ib v c := cset_coord (c_inited c) (c_l c) (c_e c) (c_de c) (c_ie c) (c_db c) v (c_dat c) (c_pd c) (c_pi c) (c_pb c) c.
Definition cset_dat v c := cset_coord (c_inited c) (c_l c) (c_e c) (c_de c) (c_ie c) (c_db c) (c_ib c) v (c_pd c) (c_pi c) (c_pb c) c.
Definition cset_buf ino mnt blk i br dirty dir c :=
  mkCin ino mnt blk i br dirty dir (c_inited c) (c_l c) (c_e c) (c_de c) (c_ie c) (c_db c) (c_ib c) (c_dat c) (c_pd c) (c_pi c) (c_pb c).

Definition iset_size v i := mkInode v (i_blocks i) (i_dir i) (i_nlink i) (i_pinode i) (i_ent i).
Definition iset_blocks v i := mkInode (i_size i) v (i_dir i) (i_nlink i) (i_pinode i) (i_ent i).
Definition iset_nlink v i := mkInode (i_size i) (i_blocks i) (i_dir i) v (i_pinode i) (i_ent i).
Definition iset_pinode v i := mkInode (i_size i) (i_blocks i) (i_dir i) (i_nlink i) v (i_ent i).
Definition iset_ent k v i := mkInode (i_size i) (i_blocks i) (i_dir i) (i_nlink i) (i_pinode i) (upd (i_ent i) k v).

(** Functions that take a CINODE pointer run in this monad. *)
Definition MC (A : Type) := M (st * cin) A.
Definition lift {A} (m : M st A) : MC A := fun sc => let (r, s') := m (fst sc) in (r, (s', snd sc)).
Definition getc : MC cin := fun sc => (Ok (snd sc), sc).
Definition modc (f : cin -> cin) : MC unit := fun sc => (Ok tt, (fst sc, f (snd sc))).
(** store to the inode buffer *)
Definition iset (f : inode -> inode) : MC unit := fun sc =>
  let c' := cset_i (f (c_i (snd sc))) (snd sc) in
  (Ok tt, (if c_dirty c' then dk_write (c_blk c') (BInode (c_i c')) (fst sc) else fst sc, c')).

Section Inode.
Variable g : cfg.

(** inode.c:1129-1138 InodeBlock *)
Definition InodeBlock (i : N) (w : N) : N := ITAB g + (i - INODE_FIRST_VALID) * 2 + w.

(** inode.c:1063-1083 RedInodeBitGet *)
Definition RedInodeBitGet (working : bool) (i w : N) : M st bool :=
  if negb (INODE_IS_VALID g i) || (1 <? w) then fail EINVAL else RedImapBlockGet g working (InodeBlock i w).
(** inode.c:1100-1118 InodeBitSet *)
Definition InodeBitSet (i w : N) (al : bool) : M st unit :=
  if negb (INODE_IS_VALID g i) || (1 <? w) then fail EINVAL else RedImapBlockSet g (InodeBlock i w) al.

(** inode.c:992-1040 InodeGetCurrentCopy *)
Definition InodeGetCurrentCopy (i : N) : M st N :=
  a <- RedInodeBitGet true i 0 ;;
  if a : bool then ret 0 else
  b <- RedInodeBitGet true i 1 ;;
  if b : bool then ret 1 else fail EBADF.

(** inode.c:922-976 InodeGetWriteableCopy *)
Definition InodeGetWriteableCopy (i : N) : M st N :=
  a <- RedInodeBitGet false i 0 ;;
  if negb a then ret 0 else
  b <- RedInodeBitGet false i 1 ;;
  if negb b then ret 1 else critical EFUBAR.

(** inode.c:679-724 InodeIsBranched *)
Definition InodeIsBranched (i : N) : M st bool :=
  if negb (INODE_IS_VALID g i) then fail EINVAL else
  a <- RedImapBlockState g (InodeBlock i 0) ;;
  match a with
  | NEW => ret true
  | _ => b <- RedImapBlockState g (InodeBlock i 1) ;;
         ret (match b with NEW => true | _ => false end)
  end.

(** inode.c:873-907 RedInodeIsFree *)
Definition RedInodeIsFree (i : N) : M st bool :=
  a <- RedInodeBitGet true i 0 ;;
  if a : bool then ret false else
  b <- RedInodeBitGet true i 1 ;;
  ret (negb b).

(** inode.c:803-853 InodeFindFree; the loop runs over INODE_FIRST_FREE .. *)
Fixpoint find_free_inode (n : nat) (i : N) : M st N :=
  match n with
  | O => critical ENFILE
  | S k => f <- RedInodeIsFree i ;;
           if f : bool then ret i else find_free_inode k (i + 1)
  end.
Definition InodeFindFree : M st N := fun s =>
  if m_freei (s_w s) =? 0 then (Err ENFILE, s)
  else find_free_inode (N.to_nat (INODE_FIRST_VALID + ICNT g - INODE_FIRST_FREE)) INODE_FIRST_FREE s.

(** RedBufferGet(.., BFLAG_META_INODE, ..): BufferIsValid fails (EIO, critical) if the block is not an inode. *)
Definition get_inode (b : N) : M st inode := fun s =>
  match dk s b with BInode i => (Ok i, s) | _ => critical EIO s end.

Definition CINODE_IS_MOUNTED (c : cin) : bool := INODE_IS_VALID g (c_ino c) && c_mnt c.
Definition CINODE_IS_DIRTY (c : cin) : bool := CINODE_IS_MOUNTED c && c_dirty c.

(** inode.c:740-786 RedInodeBranch.  RedBufferBranch moves the buffer to the new block and dirties it. *)
Definition RedInodeBranch : MC unit := fun sc =>
  let c := snd sc in
  if negb (CINODE_IS_MOUNTED c) then (Err EINVAL, sc)
  else if negb (c_br c) then
    (w <- lift (critical_assert (InodeGetWriteableCopy (c_ino c))) ;;
     (let nb := InodeBlock (c_ino c) w in
      (fun sc => (Ok tt, (dk_write nb (BInode (c_i (snd sc))) (fst sc),
                  cset_buf (c_ino c) true nb (c_i (snd sc)) true true (c_dir (snd sc)) (snd sc)))) ;;;
      lift (critical_assert (InodeBitSet (c_ino c) (1 - w) false)) ;;;
      lift (critical_assert (InodeBitSet (c_ino c) w true)))) sc
  else (Ok tt, (dk_write (c_blk c) (BInode (c_i c)) (fst sc),
                cset_buf (c_ino c) true (c_blk c) (c_i c) true true (c_dir c) c)).

(** expected type: core/include/redcore.h FTYPE *)
Inductive ftype := FTYPE_FILE | FTYPE_DIR | FTYPE_EITHER.

(** inode.c:79-181 RedInodeMount (POSIX).  On failure the structure is put: not mounted. *)
Definition RedInodeMount (i : N) (ty : ftype) (branch : bool) : M st cin := fun s =>
  if negb (INODE_IS_VALID g i) then (Err EBADF, s)
  else
    (w <- InodeGetCurrentCopy i ;;
     io <- get_inode (InodeBlock i w) ;;
     br <- InodeIsBranched i ;;
     (match i_dir io, ty with
      | false, FTYPE_DIR => fail ENOTDIR
      | true, FTYPE_FILE => fail EISDIR
      | _, _ =>
        let c := cset_buf i true (InodeBlock i w) io br false (i_dir io) (cin0 i) in
        if branch then (fun s => match RedInodeBranch (s, c) with
                                 | (Ok _, (s', c')) => (Ok c', s')
                                 | (Err e, (s', _)) => (Err e, s') end)
        else ret c
      end)) s.

(** inode.c:201-325 RedInodeCreate with pInode->ulInode == INODE_INVALID or a specific number. *)
Definition RedInodeCreate (ino pino : N) (isdir : bool) : M st cin := fun s =>
  if negb (INODE_IS_VALID g pino) && (negb (pino =? INODE_INVALID) || negb (ino =? INODE_ROOTDIR))
  then (Err EINVAL, s)
  else
    (i <- (if ino =? INODE_INVALID then InodeFindFree
           else if INODE_IS_VALID g ino then
             f <- RedInodeIsFree ino ;; (if f : bool then ret ino else fail EEXIST)
           else fail EBADF) ;;
     w <- InodeGetWriteableCopy i ;;
     (let nb := InodeBlock i w in
      modify (dk_write nb (BInode inode0)) ;;;
      InodeBitSet i w true ;;;
      (let io := mkInode 0 0 isdir 1 pino (fun _ => 0) in
       modify (dk_write nb (BInode io)) ;;;
       modify (fun s => set_w (mset_freei (m_freei (s_w s) - 1) (s_w s)) s) ;;;
       ret (cset_buf i true nb io true true isdir (cin0 i))))) s.

(** inode.c:419-498 RedInodeFree; the inode buffer is discarded (its stored contents are lost
    unless the block is committed). *)
Definition RedInodeFree : MC unit := fun sc =>
  let c := snd sc in
  if negb (CINODE_IS_MOUNTED c) then (Err EINVAL, sc)
  else
    let c' := cset_buf 0 false 0 (c_i c) (c_br c) (c_dirty c) (c_dir c) c in
    let (r, s') :=
      (modify (discard_block (c_blk c)) ;;;
       a <- RedInodeBitGet true (c_ino c) 0 ;;
       b <- RedInodeBitGet true (c_ino c) 1 ;;
       (if a : bool then (if b : bool then critical EFUBAR else InodeBitSet (c_ino c) 0 false)
        else if negb b then critical EBADF else InodeBitSet (c_ino c) 1 false) ;;;
       f <- gets (fun s => m_freei (s_w s)) ;;
       if ICNT g <=? f then critical EFUBAR
       else modify (fun s => set_w (mset_freei (f + 1) (s_w s)) s)) (fst sc) in
    (r, (s', c')).
End Inode.
