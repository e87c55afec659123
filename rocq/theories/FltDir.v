(** FsDir.v with device failures, see FltMonad.v. *)
From Verif Require Import Base FsState FsImap FsInode FsData FsDir FsCore FltMonad FltImap FltInode FltData.

Section Dir.
Variable g : cfg.

Notation DS := (DIRENT_SIZE g).
Notation DPB := (DIRENTS_PER_BLOCK g).

(** dir.c:907-950 DirEntryWrite; the length actually written is ignored. *)
Definition DirEntryWrite (idx ino : N) (nm : name) : MCF unit :=
  c <- getc ;;
  if negb (CINODE_IS_DIRTY g c) || (DIRENTS_MAX g <=? idx) || (negb (INODE_IS_VALID g ino) && negb (ino =? INODE_INVALID))
     || (NMAX g <? nlen nm) || negb (Bool.eqb (nlen nm =? 0) (ino =? INODE_INVALID))
  then fail EINVAL else
  if negb (c_dir c) then fail ENOTDIR else
  RedInodeDataWrite g (DirEntryIndexToOffset g idx) DS (dirent ino nm) ;;; ret tt.

(** dir.c:367-448: the loop over the blocks.  Result: the entry found, the index reached, the
    first free index.  Each iteration advances [idx] below [cnt], so [cnt] iterations suffice. *)
Fixpoint lookup_loop (fuel : nat) (idx cnt : N) (nm : name) (free : N) : MCF (option (N * N) * N * N) :=
  match fuel with
  | O => ret (None, idx, free)
  | S n =>
    if idx <? cnt then
      r <- attempt (RedInodeDataSeekAndRead g (idx / DPB)) ;;
      match r with
      | Ok d =>
        let last := N.min DPB (cnt - idx) in
        match lookup_block g (N.to_nat last) 0 idx nm free d with
        | (Some (b, ino), free') => ret (Some (idx + b, ino), idx + b, free')
        | (None, free') => lookup_loop n (idx + last) cnt nm free'
        end
      | Err ENODATA => lookup_loop n (idx + DPB) cnt nm (if free =? DIR_INDEX_INVALID then idx else free)
      | Err e => fail e
      end
    else ret (None, idx, free)
  end.

(** dir.c:333-483 RedDirEntryLookup *)
Definition RedDirEntryLookup (nm : name) : MCF lookup :=
  c <- getc ;;
  if negb (CINODE_IS_MOUNTED g c) then fail EINVAL else
  if negb (c_dir c) then fail ENOTDIR else
  if nlen nm =? 0 then fail EINVAL else
  if NMAX g <? nlen nm then fail ENAMETOOLONG else
  let cnt := DirOffsetToEntryIndex g (i_size (c_i c)) in
  '(f, idx, free) <- lookup_loop (N.to_nat cnt) 0 cnt nm DIR_INDEX_INVALID ;;
  match f with
  | Some (i, ino) => ret (Found i ino)
  | None =>
    if idx =? cnt then
      ret (NotFound (if (free =? DIR_INDEX_INVALID) && (cnt <? DIRENTS_MAX g) then cnt else free))
    else ret (Found idx 0) (* returns success without having set *pulInode *)
  end.

(** dir.c:106-173 RedDirEntryCreate *)
Definition RedDirEntryCreate (nm : name) (ino : N) : MCF unit :=
  c <- getc ;;
  if negb (CINODE_IS_DIRTY g c) || negb (INODE_IS_VALID g ino) then fail EINVAL else
  if negb (c_dir c) then fail ENOTDIR else
  if nlen nm =? 0 then fail EINVAL else
  if NMAX g <? nlen nm then fail ENAMETOOLONG else
  if isdots nm then fail EINVAL else
  l <- RedDirEntryLookup nm ;;
  match l with
  | Found _ _ => fail EEXIST
  | NotFound idx => if idx =? DIR_INDEX_INVALID then fail ENOSPC else DirEntryWrite idx ino nm
  end.

(** dir.c:222-258: search backwards for the last populated entry.  The index decreases in every
    iteration and the loop ends at UINT32_MAX, so [idx + 1] iterations suffice. *)
Fixpoint back_loop (fuel : nat) (t : N) : MCF N :=
  match fuel with
  | O => ret t
  | S n =>
    if t =? UINT32_MAX then ret t else
    r <- attempt (RedInodeDataSeekAndRead g (t / DPB)) ;;
    match r with
    | Ok d => match back_block g (N.to_nat (t mod DPB)) t d with
              | (true, t') => ret t'
              | (false, t') => back_loop n t'
              end
    | Err ENODATA => back_loop n (dec32 t DPB)
    | Err e => fail e
    end
  end.

(** dir.c:199-299 RedDirEntryDelete *)
Definition RedDirEntryDelete (idx : N) : MCF unit :=
  c <- getc ;;
  if negb (CINODE_IS_DIRTY g c) || (DIRENTS_MAX g <=? idx) then fail EINVAL else
  if negb (c_dir c) then fail ENOTDIR else
  if DirEntryIndexToOffset g idx + DS =? i_size (c_i c) then
    t <- back_loop (S (N.to_nat idx)) (dec32 idx 1) ;;
    let t := u32 (t + 1) in
    let size := DirEntryIndexToOffset g t in
    let size := if (0 <? DIR_BLOCK_UNUSED_SPACE g) && (BS g <=? size) && (size mod BS g =? 0)
                then size - DIR_BLOCK_UNUSED_SPACE g else size in
    RedInodeDataTruncate g size
  else DirEntryWrite idx INODE_INVALID [].

Fixpoint read_loop (fuel : nat) (idx cnt : N) : MCF (option (name * N) * N) :=
  match fuel with
  | O => ret (None, idx)
  | S n =>
    if idx <? cnt then
      let bo := idx / DPB in
      r <- attempt (RedInodeDataSeekAndRead g bo) ;;
      match r with
      | Ok d =>
        let last := N.min DPB (cnt - bo * DPB) in
        match read_block g (N.to_nat (last - idx mod DPB)) (idx mod DPB) idx d with
        | (Some e, idx') => ret (Some e, idx')
        | (None, idx') => read_loop n idx' cnt
        end
      | Err ENODATA => read_loop n (idx + (DPB - idx mod DPB)) cnt
      | Err e => fail e
      end
    else ret (None, idx)
  end.

(** dir.c:512-600 RedDirEntryRead: the next entry and the new position; None is -RED_ENOENT. *)
Definition RedDirEntryRead (idx : N) : MCF (option (name * N) * N) :=
  c <- getc ;;
  if negb (CINODE_IS_MOUNTED g c) then fail EINVAL else
  if negb (c_dir c) then fail ENOTDIR else
  let cnt := DirOffsetToEntryIndex g (i_size (c_i c)) in
  '(e, i) <- read_loop (N.to_nat cnt) idx cnt ;;
  match e with
  | Some x => ret (Some x, i + 1)
  | None => ret (None, cnt)
  end.

(** dir.c:851-877: the loop of DirCyclicRenameCheck; returns the last inode number and the iteration count. *)
Fixpoint cyclic_loop (fuel : nat) (src next it : N) : MF st (N * N) :=
  match fuel with
  | O => ret (next, it)
  | S n =>
    if negb (next =? src) && negb (next =? INODE_ROOTDIR) && negb (next =? INODE_INVALID) && (it <? ICNT g) then
      c <- RedInodeMount g next FTYPE_DIR false ;;
      cyclic_loop n src (i_pinode (c_i c)) (it + 1)
    else ret (next, it)
  end.

(** dir.c:824-892 DirCyclicRenameCheck *)
Definition DirCyclicRenameCheck (src : N) (dst : cin) : MF st unit :=
  if negb (INODE_IS_VALID g src) || negb (CINODE_IS_MOUNTED g dst) then fail EINVAL else
  if src =? c_ino dst then fail EINVAL else
  if negb (c_dir dst) then fail ENOTDIR else
  '(next, it) <- cyclic_loop (S (N.to_nat (ICNT g))) src (i_pinode (c_i dst)) 0 ;;
  if it =? ICNT g then critical EFUBAR else
  if src =? next then fail EINVAL else ret tt.

(** dir.c:647-800 RedDirEntryRename with REDCONF_RENAME_ATOMIC == 1.  Result: the source inode (None
    if both names are the same inode: it was not mounted) and the replaced destination inode, mounted,
    if there was one; both as CINODEs, with the inode numbers. *)
Definition RedDirEntryRename (sn dn : name) : MPF (N * N * option cin * option cin) :=
  cs <- onsrc getc ;;
  cd <- ondst getc ;;
  if negb (CINODE_IS_DIRTY g cs) || negb (CINODE_IS_DIRTY g cd) then fail EINVAL else
  if negb (c_dir cs) || negb (c_dir cd) then fail ENOTDIR else
  if isdots dn then fail EINVAL else
  ls <- onsrc (RedDirEntryLookup sn) ;;
  match ls with
  | NotFound _ => fail ENOENT
  | Found sidx sino =>
    ld <- ondst (RedDirEntryLookup dn) ;;
    '(didx, dino) <- (match ld with
      | Found i ino => ret (i, ino)
      | NotFound i => if i =? DIR_INDEX_INVALID then fail ENOSPC else ret (i, INODE_INVALID)
      end) ;;
    if sino =? dino then ret (sino, dino, None, None) else
    si <- liftp (RedInodeMount g sino FTYPE_EITHER true) ;;
    di <- (if dino =? INODE_INVALID then ret None else
           d <- liftp (RedInodeMount g dino (if c_dir si then FTYPE_DIR else FTYPE_FILE) true) ;;
           if c_dir d && (0 <? i_size (c_i d)) then fail ENOTEMPTY else ret (Some d)) ;;
    cd <- ondst getc ;;
    (if c_dir si then liftp (DirCyclicRenameCheck sino cd) else ret tt) ;;;
    ondst (DirEntryWrite didx sino dn) ;;;
    r <- attempt (onsrc (RedDirEntryDelete sidx)) ;;
    match r with
    | Ok _ =>
      '(_, si') <- liftp (pure (fun s => let '(r, (s', c')) := FsInode.iset (iset_pinode (c_ino cd)) (s, si) in (Ok (tt, c'), s'))) ;;
      ret (sino, dino, Some si', di)
    | Err ENOSPC =>
      r2 <- attempt (if negb (dino =? INODE_INVALID) then ondst (DirEntryWrite didx dino dn) else ondst (RedDirEntryDelete didx)) ;;
      match r2 with
      | Ok _ => fail ENOSPC
      | Err e => liftp (critical e)
      end
    | Err e => fail e
    end
  end.
End Dir.
