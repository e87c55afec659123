(** FsData.v with device failures, see FltMonad.v. *)
From Verif Require Import Base FsState FsImap FsInode FsData FsDir FsCore FltMonad FltImap FltInode.

Section Data.
Variable g : cfg.

(** RedBufferGet of an indirect / double indirect node, with the signature check of BufferIsValid. *)
Definition get_indir (b : N) : MF st (N -> N) := io (FsData.get_indir b).


Definition get_dindir (b : N) : MF st (N -> N) := io (FsData.get_dindir b).

(** inodedata.c:930-998 SeekInode.  Reading the entries through a held buffer pointer is reading
    the logical block; the model also repeats the type check when the buffer is already held. *)
Definition SeekInode (l : N) : MCF unit :=
  c <- getc ;;
  if negb (CINODE_IS_MOUNTED g c) || (INODE_DATA_BLOCKS g <=? l) then fail EINVAL else
  modc (SeekCoord g l) ;;;
  c <- getc ;;
  (match c_de c with
   | None => ret tt
   | Some d =>
     if c_db c =? 0 then modc (cset_ib 0)
     else e <- lift (get_dindir (c_db c)) ;;
          modc (fun c => cset_ib (e d) (cset_pd true c))
   end) ;;;
  c <- getc ;;
  (match c_ie c with
   | None => ret tt
   | Some k =>
     if c_ib c =? 0 then modc (cset_dat 0)
     else e <- lift (get_indir (c_ib c)) ;;
          modc (fun c => cset_dat (e k) (cset_pi true c))
   end) ;;;
  c <- getc ;;
  if c_dat c =? 0 then fail ENODATA else ret tt.

(** inodedata.c:893-914 RedInodeDataSeekAndRead: returns the contents of the buffered block. *)
Definition RedInodeDataSeekAndRead (l : N) : MCF (N -> N) :=
  SeekInode l ;;;
  modc (cset_pb true) ;;;
  c <- getc ;;
  lift (gets (fun s => data_of g (dk s (c_dat c)))).

(** Is a block to be branched already new?  (the RedImapBlockState calls of BranchBlockCost) *)
Definition is_new (b : N) : MF st bool :=
  if b =? 0 then ret false else
  a <- RedImapBlockState g b ;; ret (match a with NEW => true | _ => false end).

(** inodedata.c:1834-1944 BranchBlockCost *)
Definition BranchBlockCost (depth : bdepth) : MCF N :=
  c <- getc ;;
  if negb (CINODE_IS_MOUNTED g c) || negb (c_inited c) then fail EINVAL else
  let cost0 := if 0 <? DINDIR_POINTERS g then 3 else if NDIR g <? IE g then 2 else 1 in
  cost1 <- (if 0 <? DINDIR_POINTERS g then
              match c_de c with
              | Some _ => n <- lift (is_new (c_db c)) ;; ret (if n : bool then cost0 - 1 else cost0)
              | None => ret (cost0 - 1)
              end
            else ret cost0) ;;
  cost2 <- (if NDIR g <? IE g then
              match c_ie c, depth with
              | Some _, BD_INDIR | Some _, BD_DATA =>
                n <- lift (is_new (c_ib c)) ;; ret (if n : bool then cost1 - 1 else cost1)
              | _, _ => ret (cost1 - 1)
              end
            else ret cost1) ;;
  match depth with
  | BD_DATA => n <- lift (is_new (c_dat c)) ;; ret (if n : bool then cost2 - 1 else cost2)
  | _ => ret (cost2 - 1)
  end.

(** RedBufferGet with the type check *)
Definition get_kind (k : kind) (b : N) : MF st blk := io (FsData.get_kind g k b).

(** inodedata.c:1711-1815 BranchOneBlock.  [buf]: None = ppBuffer is NULL, Some p = a buffer is
    wanted and p tells whether *ppBuffer != NULL on entry. *)
Definition BranchOneBlock (prev : N) (buf : option bool) (k : kind) : MF st N :=
  a <- (if prev =? 0 then ret FREE else RedImapBlockState g prev) ;;
  match a with
  | NEW =>
    (match buf with
     | None => ret tt
     | Some true => modify (dk_dirty prev)
     | Some false => v <- get_kind k prev ;; modify (dk_dirty prev)
     end) ;;;
    ret prev
  | _ =>
    nb <- RedImapAllocBlock g ;;
    (if prev =? 0 then
       match buf with
       | None => ret tt
       | Some true => fail EINVAL
       | Some false => modify (dk_write nb (zero_blk k))
       end
     else
       (match buf with
        | None => ret tt
        | Some _ => v <- get_kind k prev ;; modify (dk_write nb v)
        end) ;;;
       RedImapBlockSet g prev false) ;;;
    ret nb
  end.

(** store to an entry (or the owner field) of a buffered, dirty node *)
Definition node_set (b : N) (k v : N) : MF st unit := io (FsData.node_set b k v).


Definition node_owner (b : N) (i : N) : MF st unit := io (FsData.node_owner b i).

(** inodedata.c:1574-1676 BranchBlock *)
Definition BranchBlock (depth : bdepth) (fbuf : bool) : MCF unit :=
  cost <- BranchBlockCost depth ;;
  free <- lift (gets (FreeBlockCount g)) ;;
  if free <? cost then fail ENOSPC else
  critical_assert_c (
  c <- getc ;;
  (match c_de c with
   | None => ret tt
   | Some _ =>
     nb <- lift (BranchOneBlock (c_db c) (Some (c_pd c)) KDindir) ;;
     modc (fun c => cset_pd true (cset_db nb c)) ;;;
     lift (node_owner nb (c_ino c)) ;;;
     iset (iset_ent (c_e c) nb)
   end) ;;;
  c <- getc ;;
  (match c_ie c, depth with
   | Some _, BD_INDIR | Some _, BD_DATA =>
     nb <- lift (BranchOneBlock (c_ib c) (Some (c_pi c)) KIndir) ;;
     modc (fun c => cset_pi true (cset_ib nb c)) ;;;
     lift (node_owner nb (c_ino c)) ;;;
     (match c_de c with
      | Some d => lift (node_set (c_db c) d nb)
      | None => iset (iset_ent (c_e c) nb)
      end)
   | _, _ => ret tt
   end) ;;;
  c <- getc ;;
  match depth with
  | BD_DATA =>
    let fnew := c_dat c =? 0 in
    let buf := if fbuf || c_pb c then Some (c_pb c) else None in
    nb <- lift (BranchOneBlock (c_dat c) buf KData) ;;
    modc (fun c => cset_pb (fbuf || c_pb c) (cset_dat nb c)) ;;;
    (match c_ie c with
     | Some k => lift (node_set (c_ib c) k nb)
     | None => iset (iset_ent (c_e c) nb)
     end) ;;;
    (if fnew then
       if i_blocks (c_i c) <? INODE_DATA_BLOCKS g then
         iset (fun i => iset_blocks (i_blocks i + 1) i)
       else lift (critical EFUBAR)
     else ret tt)
  | _ => ret tt
  end).

(** Store to bytes of a buffered, dirty data block: new contents [f old]. *)
Definition data_set (b : N) (f : (N -> N) -> (N -> N)) : MF st unit := io (FsData.data_set g b f).

(** inodedata.c:835-877 ExpandPrepare *)
Definition ExpandPrepare : MCF unit :=
  c <- getc ;;
  if negb (CINODE_IS_DIRTY g c) then fail EINVAL else
  let off := i_size (c_i c) mod BS g in
  if off =? 0 then ret tt else
  r <- attempt (SeekInode (i_size (c_i c) / BS g)) ;;
  match r with
  | Err ENODATA => ret tt
  | Ok _ => BranchBlock BD_DATA true ;;;
            c <- getc ;; lift (data_set (c_dat c) (fill0 off))
  | Err e => fail e
  end.

(** inodedata.c:771-814 TruncDataBlock; [b] is *pulBlock and [clear] stores BLOCK_SPARSE to it. *)
Definition TruncDataBlock (b : N) (clear : MCF unit) (propagate : bool) : MCF unit :=
  c <- getc ;;
  if negb (CINODE_IS_MOUNTED g c) then fail EINVAL else
  if b =? 0 then ret tt else
  lift (RedImapBlockSet g b false) ;;;
  c <- getc ;;
  (if i_blocks (c_i c) =? 0 then lift (critical EFUBAR)
   else iset (fun i => iset_blocks (i_blocks i - 1) i)) ;;;
  (if propagate then clear else ret tt).

(** inodedata.c:689-756 TruncIndir; returns *pfFreed. *)
Definition TruncIndir : MCF bool :=
  c <- getc ;;
  if negb (CINODE_IS_MOUNTED g c) then fail EINVAL else
  if negb (c_pi c) then ret false else
  let ie := match c_ie c with Some k => k | None => 0 end in
  e <- lift (get_indir (c_ib c)) ;;
  (let fb := any_nz e (N.to_nat ie) in
   (if fb then BranchBlock BD_INDIR false else ret tt) ;;;
   c <- getc ;;
   let emax := INODE_DATA_BLOCKS g - (c_l c - ie) in
   let n := N.min (PE g) emax in
   loop (N.to_nat (n - ie)) ie (fun k =>
     e <- lift (get_indir (c_ib c)) ;;
     TruncDataBlock (e k) (lift (node_set (c_ib c) k 0)) fb) ;;;
   (if fb then ret tt
    else modc PutIndir ;;; lift (RedImapBlockSet g (c_ib c) false)) ;;;
   ret (negb fb)).

(** inodedata.c:549-668 TruncDindir: body of the loop over the indirect nodes.  The loop carries ulBlock. *)
Fixpoint trunc_dindir_loop (n : nat) (k : N) (fb : bool) (l : N) : MCF unit :=
  match n with
  | O => ret tt
  | S n' =>
    r <- attempt (SeekInode l) ;;
    match r with
    | Err ENODATA | Ok _ =>
      c <- getc ;;
      (if c_ib c =? 0 then ret tt
       else freed <- TruncIndir ;;
            c <- getc ;;
            if fb && (freed : bool) then lift (node_set (c_db c) k 0) else ret tt) ;;;
      c <- getc ;;
      trunc_dindir_loop n' (k + 1) fb (l + (PE g - match c_ie c with Some x => x | None => 0 end))
    | Err e => fail e
    end
  end.

Definition TruncDindir : MCF bool :=
  c <- getc ;;
  if negb (CINODE_IS_MOUNTED g c) then fail EINVAL else
  if negb (c_pd c) then ret false else
  let de := match c_de c with Some d => d | None => 0 end in
  let ie := match c_ie c with Some k => k | None => 0 end in
  d <- lift (get_dindir (c_db c)) ;;
  fb <- (if any_nz d (N.to_nat de) then ret true
         else if d de =? 0 then ret false
         else e <- lift (get_indir (c_ib c)) ;; ret (any_nz e (N.to_nat ie))) ;;
  (if fb : bool then BranchBlock BD_DINDIR false else ret tt) ;;;
  c <- getc ;;
  (let l := c_l c in
   let off := ie + de * PE g in
   let first := l - off in
   let tillmax := INODE_DATA_BLOCKS g - first in
   let emax := tillmax / PE g + (if tillmax mod PE g =? 0 then 0 else 1) in
   let n := N.min (PE g) emax in
   trunc_dindir_loop (N.to_nat (n - de)) de fb l ;;;
   c <- getc ;;
   (if fb then ret tt
    else modc PutDindir ;;; lift (RedImapBlockSet g (c_db c) false)) ;;;
   ret (negb fb)).

(** inodedata.c:421-531 Shrink, its three loops.  The direct loop runs over entries; the other two
    advance to the next node, so NIND + 1 (DINDIR_POINTERS + 1) iterations suffice: running out
    of iterations is reported as EFUBAR and excluded by the theorems. *)
Definition shrink_direct (l : N) : MCF unit :=
  loop (N.to_nat (NDIR g - l)) l (fun k =>
    c <- getc ;; TruncDataBlock (i_ent (c_i c) k) (iset (iset_ent k 0)) true).

Fixpoint shrink_indir (fuel : nat) (l : N) : MCF N :=
  if l <? NDIR g + INODE_INDIR_BLOCKS g then
    match fuel with
    | O => fail EFUBAR
    | S f =>
      r <- attempt (SeekInode l) ;;
      match r with
      | Err ENODATA | Ok _ =>
        freed <- TruncIndir ;;
        c <- getc ;;
        (if freed : bool then iset (iset_ent (c_e c) 0) else ret tt) ;;;
        shrink_indir f (l + (PE g - match c_ie c with Some x => x | None => 0 end))
      | Err e => fail e
      end
    end
  else ret l.

Fixpoint shrink_dindir (fuel : nat) (l : N) : MCF unit :=
  if l <? INODE_DATA_BLOCKS g then
    match fuel with
    | O => fail EFUBAR
    | S f =>
      r <- attempt (SeekInode l) ;;
      match r with
      | Err ENODATA | Ok _ =>
        c0 <- getc ;;
        freed <- TruncDindir ;;
        (if freed : bool then iset (iset_ent (c_e c0) 0) else ret tt) ;;;
        let de := match c_de c0 with Some d => d | None => 0 end in
        let ie := match c_ie c0 with Some k => k | None => 0 end in
        let n := N.min (DINDIR_DATA_BLOCKS g - de * PE g - ie) (INODE_DATA_BLOCKS g - l) in
        shrink_dindir f (l + n)
      | Err e => fail e
      end
    end
  else ret tt.

Definition Shrink (size : N) : MCF unit :=
  c <- getc ;;
  if negb (CINODE_IS_MOUNTED g c) || ((0 <? size) && negb (c_dirty c)) then fail EINVAL else
  let l := (size + BS g - 1) / BS g in
  modc PutData ;;;
  shrink_direct l ;;;
  l2 <- shrink_indir (S (N.to_nat (NIND g))) (N.max l (NDIR g)) ;;
  shrink_dindir (S (N.to_nat (DINDIR_POINTERS g))) l2.

(** inodedata.c:365-405 RedInodeDataTruncate *)
Definition RedInodeDataTruncate (size : N) : MCF unit :=
  c <- getc ;;
  if negb (CINODE_IS_MOUNTED g c) then fail EINVAL else
  if INODE_SIZE_MAX g <? size then fail EFBIG else
  (if i_size (c_i c) <? size then ExpandPrepare
   else if size <? i_size (c_i c) then Shrink size
   else ret tt) ;;;
  iset (iset_size size).

(** inodedata.c:1169-1207 ReadUnaligned: returns the [len] bytes read as a function of their index. *)
Definition ReadUnaligned (start len : N) : MCF (N -> N) :=
  if negb (start / BS g =? (start + len - 1) / BS g) then fail EINVAL else
  r <- attempt (RedInodeDataSeekAndRead (start / BS g)) ;;
  match r with
  | Ok d => ret (fun x => d (start mod BS g + x))
  | Err ENODATA => ret (fun _ => 0)
  | Err e => fail e
  end.

(** inodedata.c:1507-1554 GetExtent *)
Fixpoint extent_loop (n : nat) (l first run : N) : MCF N :=
  match n with
  | O => ret run
  | S n' =>
    r <- attempt (SeekInode (l + run)) ;;
    match r with
    | Err ENODATA => ret run
    | Ok _ => c <- getc ;;
              if c_dat c =? first + run then extent_loop n' l first (run + 1) else ret run
    | Err e => fail e
    end
  end.

Definition GetExtent (l maxlen : N) : MCF (N * N) :=
  SeekInode l ;;;
  c <- getc ;;
  run <- extent_loop (N.to_nat (maxlen - 1)) l (c_dat c) 1 ;;
  ret (c_dat c, run).

(** inodedata.c:1224-1290 ReadAligned; RedBufferFlushRange makes the device agree with the buffers, so
    the direct read returns the logical blocks. *)
Fixpoint read_aligned_loop (fuel : nat) (l count idx : N) (out : N -> N) : MCF (N -> N) :=
  if idx <? count then
    match fuel with
    | O => fail EFUBAR
    | S f =>
      r <- attempt (GetExtent (l + idx) (count - idx)) ;;
      match r with
      | Ok (eb, en) =>
        if io_range g eb en then
          s <- lift (gets dk) ;;
          read_aligned_loop f l count (idx + en)
            (put_bytes (idx * BS g) (en * BS g) (fun x => data_of g (s (eb + x / BS g)) (x mod BS g)) out)
        else fail EINVAL
      | Err ENODATA =>
        read_aligned_loop f l count (idx + 1) (put_bytes (idx * BS g) (BS g) (fun _ => 0) out)
      | Err e => fail e
      end
    end
  else ret out.

Definition ReadAligned (l count : N) : MCF (N -> N) :=
  read_aligned_loop (N.to_nat count) l count 0 (fun _ => 0).

(** inodedata.c:103-199 RedInodeDataRead: returns the bytes and their number. *)
Definition RedInodeDataRead (start len : N) : MCF (N * (N -> N)) :=
  c <- getc ;;
  if negb (CINODE_IS_MOUNTED g c) then fail EINVAL else
  let size := i_size (c_i c) in
  if size <=? start then ret (0, fun _ => 0) else
  if len =? 0 then ret (0, fun _ => 0) else
  let len := if size - start <? len then size - start else len in
  '(idx, out) <- (if start mod BS g =? 0 then ret (0, fun _ => 0)
          else let n := N.min len (BS g - start mod BS g) in
               d <- ReadUnaligned start n ;;
               ret (n, put_bytes 0 n d (fun _ => 0))) ;;
  '(idx, out) <- (if BS g <=? len - idx then
            let cnt := (len - idx) / BS g in
            d <- ReadAligned ((start + idx) / BS g) cnt ;;
            ret (idx + cnt * BS g, put_bytes idx (cnt * BS g) d out)
          else ret (idx, out)) ;;
  out <- (if 0 <? len - idx then
            d <- ReadUnaligned (start + idx) (len - idx) ;;
            ret (put_bytes idx (len - idx) d out)
          else ret out) ;;
  ret (len, out).

(** inodedata.c:1305-1339 WriteUnaligned; [src x] is byte x of the caller's buffer. *)
Definition WriteUnaligned (start len : N) (src : N -> N) : MCF unit :=
  if negb (start / BS g =? (start + len - 1) / BS g) then fail EINVAL else
  r <- attempt (SeekInode (start / BS g)) ;;
  match r with
  | Ok _ | Err ENODATA =>
    BranchBlock BD_DATA true ;;;
    c <- getc ;;
    lift (data_set (c_dat c) (copyin (start mod BS g) len src))
  | Err e => fail e
  end.

(** inodedata.c:1390-1444: the for loop that branches a contiguous extent.  Carries ulNextDataBlock,
    ulExtentStart, ulExtentLen; returns them and the error that ended the loop. *)
Fixpoint extent_branch (n : nat) (l i next es el : N) : MCF (option errno * N * N * N) :=
  match n with
  | O => ret (None, next, es, el)
  | S n' =>
    r <- (if next =? 0 then
            r <- attempt (SeekInode (l + i)) ;;
            match r with
            | Ok _ | Err ENODATA => attempt (BranchBlock BD_DATA false)
            | Err e => ret (Err e)
            end
          else ret (Ok tt)) ;;
    match r with
    | Err e => ret (Some e, 0, es, el)
    | Ok _ =>
      c <- getc ;;
      if el =? 0 then extent_branch n' l (i + 1) 0 (c_dat c) 1
      else if c_dat c =? es + el then extent_branch n' l (i + 1) 0 es (el + 1)
      else ret (None, c_dat c, es, el)
    end
  end.

(** inodedata.c:1357-1489 WriteAligned *)
Fixpoint write_aligned_loop (fuel : nat) (l count idx next : N) (src : N -> N) : MCF (option errno * N) :=
  if idx <? count then
    match fuel with
    | O => fail EFUBAR
    | S f =>
      '(re, next', es, el) <- extent_branch (N.to_nat (count - idx)) l idx next 0 0 ;;
      let full := match re with Some ENOSPC => 0 <? el | _ => false end in
      match re, full with
      | Some e, false => ret (Some e, idx)
      | _, _ =>
        if io_range g es el then
          lift (io_wr g (N.to_nat el) es (fun x => src (idx * BS g + x))) ;;;
          (if full then ret (Some ENOSPC, idx + el)
           else write_aligned_loop f l count (idx + el) next' src)
        else ret (Some EINVAL, idx)
      end
    end
  else ret (None, idx).

Definition WriteAligned (l count : N) (src : N -> N) : MCF N :=
  '(re, idx) <- write_aligned_loop (N.to_nat count) l count 0 0 src ;;
  match re with
  | None => ret idx
  | Some ENOSPC => if 0 <? idx then ret idx else fail ENOSPC
  | Some e => fail e
  end.

(** inodedata.c:219-345 RedInodeDataWrite: returns the number of bytes written. *)
Definition RedInodeDataWrite (start len : N) (src : N -> N) : MCF N :=
  c <- getc ;;
  if negb (CINODE_IS_DIRTY g c) then fail EINVAL else
  if (INODE_SIZE_MAX g <? start) || ((start =? INODE_SIZE_MAX g) && (0 <? len)) then fail EFBIG else
  if len =? 0 then ret 0 else
  let len := if INODE_SIZE_MAX g - start <? len then INODE_SIZE_MAX g - start else len in
  (if i_size (c_i c) <? start then ExpandPrepare else ret tt) ;;;
  idx <- (if negb (start mod BS g =? 0) || (len <? BS g) then
            let n := N.min len (BS g - start mod BS g) in
            WriteUnaligned start n src ;;; ret n
          else ret 0) ;;
  '(idx, rem) <- (if BS g <=? len - idx then
            let cnt := (len - idx) / BS g in
            r <- attempt (WriteAligned ((start + idx) / BS g) cnt (fun x => src (idx + x))) ;;
            match r with
            | Err ENOSPC => if 0 <? idx then ret (idx, 0) else fail ENOSPC
            | Err e => fail e
            | Ok w => ret (idx + w * BS g, if w <? cnt then 0 else len - idx - w * BS g)
            end
          else ret (idx, len - idx)) ;;
  idx <- (if 0 <? rem then
            r <- attempt (WriteUnaligned (start + idx) rem (fun x => src (idx + x))) ;;
            match r with
            | Ok _ => ret (idx + rem)
            | Err ENOSPC => ret idx
            | Err e => fail e
            end
          else ret idx) ;;
  c <- getc ;;
  (if i_size (c_i c) <? start + idx then iset (iset_size (start + idx)) else ret tt) ;;;
  ret idx.

(** inode.c:379-404 InodeDelete *)
Definition InodeDelete : MCF unit :=
  c <- getc ;;
  if negb (CINODE_IS_MOUNTED g c) then fail EINVAL else
  (if i_size (c_i c) =? 0 then ret tt else RedInodeDataTruncate 0) ;;;
  RedInodeFree g.

(** inode.c:339-365 RedInodeLinkDec *)
Definition RedInodeLinkDec : MCF unit :=
  c <- getc ;;
  if negb (CINODE_IS_MOUNTED g c) then fail EINVAL else
  if 1 <? i_nlink (c_i c) then
    RedInodeBranch g ;;; iset (fun i => iset_nlink (i_nlink i - 1) i)
  else InodeDelete.
End Data.
