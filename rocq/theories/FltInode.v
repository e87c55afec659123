(** FsInode.v with device failures, see FltMonad.v. *)
From Verif Require Import Base FsState FsImap FsInode FsData FsDir FsCore FltMonad FltImap.

Section Inode.
Variable g : cfg.

(** inode.c:1063-1083 RedInodeBitGet *)
Definition RedInodeBitGet (working : bool) (i w : N) : MF st bool :=
  if negb (INODE_IS_VALID g i) || (1 <? w) then fail EINVAL else RedImapBlockGet g working (InodeBlock g i w).

(** inode.c:1100-1118 InodeBitSet *)
Definition InodeBitSet (i w : N) (al : bool) : MF st unit :=
  if negb (INODE_IS_VALID g i) || (1 <? w) then fail EINVAL else RedImapBlockSet g (InodeBlock g i w) al.

(** inode.c:992-1040 InodeGetCurrentCopy *)
Definition InodeGetCurrentCopy (i : N) : MF st N :=
  a <- RedInodeBitGet true i 0 ;;
  if a : bool then ret 0 else
  b <- RedInodeBitGet true i 1 ;;
  if b : bool then ret 1 else fail EBADF.

(** inode.c:922-976 InodeGetWriteableCopy *)
Definition InodeGetWriteableCopy (i : N) : MF st N :=
  a <- RedInodeBitGet false i 0 ;;
  if negb a then ret 0 else
  b <- RedInodeBitGet false i 1 ;;
  if negb b then ret 1 else critical EFUBAR.

(** inode.c:679-724 InodeIsBranched *)
Definition InodeIsBranched (i : N) : MF st bool :=
  if negb (INODE_IS_VALID g i) then fail EINVAL else
  a <- RedImapBlockState g (InodeBlock g i 0) ;;
  match a with
  | NEW => ret true
  | _ => b <- RedImapBlockState g (InodeBlock g i 1) ;;
         ret (match b with NEW => true | _ => false end)
  end.

(** inode.c:873-907 RedInodeIsFree *)
Definition RedInodeIsFree (i : N) : MF st bool :=
  a <- RedInodeBitGet true i 0 ;;
  if a : bool then ret false else
  b <- RedInodeBitGet true i 1 ;;
  ret (negb b).

(** inode.c:803-853 InodeFindFree; the loop runs over INODE_FIRST_FREE .. *)
Fixpoint find_free_inode (n : nat) (i : N) : MF st N :=
  match n with
  | O => critical ENFILE
  | S k => f <- RedInodeIsFree i ;;
           if f : bool then ret i else find_free_inode k (i + 1)
  end.


Definition InodeFindFree : MF st N := fun s =>
  (if m_freei (s_w s) =? 0 then fail ENFILE
   else find_free_inode (N.to_nat (INODE_FIRST_VALID + ICNT g - INODE_FIRST_FREE)) INODE_FIRST_FREE) s.

(** RedBufferGet(.., BFLAG_META_INODE, ..): BufferIsValid fails (EIO, critical) if the block is not an inode. *)
Definition get_inode (b : N) : MF st inode := io (FsInode.get_inode b).

(** inode.c:740-786 RedInodeBranch.  RedBufferBranch moves the buffer to the new block and dirties it. *)
Definition RedInodeBranch : MCF unit :=
  c <- getc ;;
  if negb (CINODE_IS_MOUNTED g c) then fail EINVAL
  else if negb (c_br c) then
    w <- lift (critical_assert (InodeGetWriteableCopy (c_ino c))) ;;
    (let nb := InodeBlock g (c_ino c) w in
     pure (fun sc => (Ok tt, (dk_write nb (BInode (c_i (snd sc))) (fst sc),
                  cset_buf (c_ino c) true nb (c_i (snd sc)) true true (c_dir (snd sc)) (snd sc)))) ;;;
     lift (critical_assert (InodeBitSet (c_ino c) (1 - w) false)) ;;;
     lift (critical_assert (InodeBitSet (c_ino c) w true)))
  else pure (fun sc => (Ok tt, (dk_write (c_blk c) (BInode (c_i c)) (fst sc),
                cset_buf (c_ino c) true (c_blk c) (c_i c) true true (c_dir c) c))).

(** inode.c:79-181 RedInodeMount (POSIX).  On failure the structure is put: not mounted. *)
Definition RedInodeMount (i : N) (ty : ftype) (branch : bool) : MF st cin :=
  if negb (INODE_IS_VALID g i) then fail EBADF
  else
    w <- InodeGetCurrentCopy i ;;
    io <- get_inode (InodeBlock g i w) ;;
    br <- InodeIsBranched i ;;
    match i_dir io, ty with
    | false, FTYPE_DIR => fail ENOTDIR
    | true, FTYPE_FILE => fail EISDIR
    | _, _ =>
      let c := cset_buf i true (InodeBlock g i w) io br false (i_dir io) (cin0 i) in
      if branch then runm RedInodeBranch c else ret c
    end.

(** inode.c:201-325 RedInodeCreate with pInode->ulInode == INODE_INVALID or a specific number. *)
Definition RedInodeCreate (ino pino : N) (isdir : bool) : MF st cin :=
  if negb (INODE_IS_VALID g pino) && (negb (pino =? INODE_INVALID) || negb (ino =? INODE_ROOTDIR))
  then fail EINVAL
  else
    i <- (if ino =? INODE_INVALID then InodeFindFree
          else if INODE_IS_VALID g ino then
            f <- RedInodeIsFree ino ;; (if f : bool then ret ino else fail EEXIST)
          else fail EBADF) ;;
    w <- InodeGetWriteableCopy i ;;
    (let nb := InodeBlock g i w in
     modify (dk_write nb (BInode inode0)) ;;;
     InodeBitSet i w true ;;;
     (let io := mkInode 0 0 isdir 1 pino (fun _ => 0) in
      modify (dk_write nb (BInode io)) ;;;
      modify (fun s => set_w (mset_freei (m_freei (s_w s) - 1) (s_w s)) s) ;;;
      ret (cset_buf i true nb io true true isdir (cin0 i)))).

(** inode.c:419-498 RedInodeFree; the inode buffer is discarded (its stored contents are lost
    unless the block is committed). *)
Definition RedInodeFree : MCF unit :=
  c <- getc ;;
  if negb (CINODE_IS_MOUNTED g c) then fail EINVAL
  else
    modc (fun c => cset_buf 0 false 0 (c_i c) (c_br c) (c_dirty c) (c_dir c) c) ;;;
    lift (
      modify (discard_block (c_blk c)) ;;;
      a <- RedInodeBitGet true (c_ino c) 0 ;;
      b <- RedInodeBitGet true (c_ino c) 1 ;;
      (if a : bool then (if b : bool then critical EFUBAR else InodeBitSet (c_ino c) 0 false)
       else if negb b then critical EBADF else InodeBitSet (c_ino c) 1 false) ;;;
      f <- gets (fun s => m_freei (s_w s)) ;;
      if ICNT g <=? f then critical EFUBAR
      else modify (fun s => set_w (mset_freei (f + 1) (s_w s)) s)).
End Inode.
