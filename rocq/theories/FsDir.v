(** Model of core/driver/dir.c: directory entries.

    A name is the list of the bytes of one path component, i.e. the [RedNameLen] bytes up to
    the terminator or the next separator (Mem.v C31_namelen); so its bytes are not NUL.
    NULL-pointer checks are not modelled.  Directory entries are stored little-endian
    (REDCONF_ENDIAN_SWAP only selects who reverses the bytes, C13). *)
From Verif Require Import Base FsState FsImap FsInode FsData.

Definition name := list N.
Definition nlen (nm : name) : N := lenN nm.
Definition nbyte (nm : name) (k : N) : N := nthN nm k 0.
(** '.' *)
Definition DOT : N := 46.
Definition isdots (nm : name) : bool :=
  (nlen nm =? 1) && (nbyte nm 0 =? DOT) || (nlen nm =? 2) && (nbyte nm 0 =? DOT) && (nbyte nm 1 =? DOT).

(** Little-endian 32-bit values *)
Definition le32 (v k : N) : N := (v / 256 ^ k) mod 256.
Definition get32 (d : N -> N) (o : N) : N := d o + 256 * d (o + 1) + 65536 * d (o + 2) + 16777216 * d (o + 3).

(** 32-bit unsigned arithmetic that may wrap *)
Definition dec32 (t k : N) : N := u32 (t + 4294967296 - k).

Definition DIR_INDEX_INVALID : N := UINT32_MAX.   (* dir.c:35 *)

Section Dir.
Variable g : cfg.
Notation DS := (DIRENT_SIZE g).
Notation DPB := (DIRENTS_PER_BLOCK g).

(** dir.c:46-47 *)
Definition DIR_BLOCK_USED_SPACE : N := DS * DPB.
Definition DIR_BLOCK_UNUSED_SPACE : N := BS g - DIR_BLOCK_USED_SPACE.

(** dir.c:959-975 DirEntryIndexToOffset *)
Definition DirEntryIndexToOffset (idx : N) : N := idx / DPB * BS g + idx mod DPB * DS.
(** dir.c:982-998 DirOffsetToEntryIndex *)
Definition DirOffsetToEntryIndex (off : N) : N := u32 (u32 (u32 (off / BS g) * DPB) + off mod BS g / DS).

(** dir.c:57-71 DIRENT as bytes, as filled in by dir.c:930-946 *)
Definition dirent (ino : N) (nm : name) : N -> N := fun x =>
  if x <? 4 then le32 ino x else if x - 4 <? nlen nm then nbyte nm (x - 4) else 0.

(** dir.c:907-950 DirEntryWrite; the length actually written is ignored. *)
Definition DirEntryWrite (idx ino : N) (nm : name) : MC unit :=
  c <- getc ;;
  if negb (CINODE_IS_DIRTY g c) || (DIRENTS_MAX g <=? idx) || (negb (INODE_IS_VALID g ino) && negb (ino =? INODE_INVALID))
     || (NMAX g <? nlen nm) || negb (Bool.eqb (nlen nm =? 0) (ino =? INODE_INVALID))
  then fail EINVAL else
  if negb (c_dir c) then fail ENOTDIR else
  RedInodeDataWrite g (DirEntryIndexToOffset idx) DS (dirent ino nm) ;;; ret tt.

(** dir.c:393-394: RedStrNCmp of [nlen nm] bytes and the check that the stored name ends there. *)
Fixpoint bytes_eq (n : nat) (k : N) (nm : name) (d : N -> N) (o : N) : bool :=
  match n with
  | O => true
  | S n' => (d (o + k) =? nbyte nm k) && bytes_eq n' (k + 1) nm d o
  end.
Definition name_match (nm : name) (d : N -> N) (o : N) : bool :=
  bytes_eq (length nm) 0 nm d o && ((nlen nm =? NMAX g) || (d (o + nlen nm) =? 0)).

(** dir.c:380-418: the for loop over the entries of one block.  Result: the entry found (its index
    in the block and inode number), and the first free index so far. *)
Fixpoint lookup_block (n : nat) (b idx : N) (nm : name) (free : N) (d : N -> N) : option (N * N) * N :=
  match n with
  | O => (None, free)
  | S n' =>
    let ino := get32 d (b * DS) in
    if negb (ino =? INODE_INVALID) then
      if name_match nm d (b * DS + 4) then (Some (b, ino), free)
      else lookup_block n' (b + 1) idx nm free d
    else lookup_block n' (b + 1) idx nm (if free =? DIR_INDEX_INVALID then idx + b else free) d
  end.

(** dir.c:367-448: the loop over the blocks.  Result: the entry found, the index reached, the
    first free index.  Each iteration advances [idx] below [cnt], so [cnt] iterations suffice. *)
Fixpoint lookup_loop (fuel : nat) (idx cnt : N) (nm : name) (free : N) : MC (option (N * N) * N * N) :=
  match fuel with
  | O => ret (None, idx, free)
  | S n =>
    if idx <? cnt then
      r <- attempt (RedInodeDataSeekAndRead g (idx / DPB)) ;;
      match r with
      | Ok d =>
        let last := N.min DPB (cnt - idx) in
        match lookup_block (N.to_nat last) 0 idx nm free d with
        | (Some (b, ino), free') => ret (Some (idx + b, ino), idx + b, free')
        | (None, free') => lookup_loop n (idx + last) cnt nm free'
        end
      | Err ENODATA => lookup_loop n (idx + DPB) cnt nm (if free =? DIR_INDEX_INVALID then idx else free)
      | Err e => fail e
      end
    else ret (None, idx, free)
  end.

(** The two outcomes that RedDirEntryLookup reports through its out-parameters: 0 with index and
    inode number, and -RED_ENOENT with the index of the first free entry or DIR_INDEX_INVALID. *)
Inductive lookup := Found (idx ino : N) | NotFound (free : N).

(** dir.c:333-483 RedDirEntryLookup *)
Definition RedDirEntryLookup (nm : name) : MC lookup :=
  c <- getc ;;
  if negb (CINODE_IS_MOUNTED g c) then fail EINVAL else
  if negb (c_dir c) then fail ENOTDIR else
  if nlen nm =? 0 then fail EINVAL else
  if NMAX g <? nlen nm then fail ENAMETOOLONG else
  let cnt := DirOffsetToEntryIndex (i_size (c_i c)) in
  '(f, idx, free) <- lookup_loop (N.to_nat cnt) 0 cnt nm DIR_INDEX_INVALID ;;
  match f with
  | Some (i, ino) => ret (Found i ino)
  | None =>
    if idx =? cnt then
      ret (NotFound (if (free =? DIR_INDEX_INVALID) && (cnt <? DIRENTS_MAX g) then cnt else free))
    else ret (Found idx 0) (* returns success without having set *pulInode *)
  end.

(** dir.c:106-173 RedDirEntryCreate *)
Definition RedDirEntryCreate (nm : name) (ino : N) : MC unit :=
  c <- getc ;;
  if negb (CINODE_IS_DIRTY g c) || negb (INODE_IS_VALID g ino) then fail EINVAL else
  if negb (c_dir c) then fail ENOTDIR else
  if nlen nm =? 0 then fail EINVAL else
  if NMAX g <? nlen nm then fail ENAMETOOLONG else
  if isdots nm then fail EINVAL else
  l <- RedDirEntryLookup nm ;;
  match l with
  | Found _ _ => fail EEXIST
  | NotFound idx => if idx =? DIR_INDEX_INVALID then fail ENOSPC else DirEntryWrite idx ino nm
  end.

(** dir.c:233-245: the do-while loop downwards through one block; [b] is ulBlockIdx. *)
Fixpoint back_block (b : nat) (t : N) (d : N -> N) : bool * N :=
  if negb (get32 d (N.of_nat b * DS) =? INODE_INVALID) then (true, t)
  else match b with
       | O => (false, dec32 t 1)
       | S b' => back_block b' (dec32 t 1) d
       end.
(** dir.c:222-258: search backwards for the last populated entry.  The index decreases in every
    iteration and the loop ends at UINT32_MAX, so [idx + 1] iterations suffice. *)
Fixpoint back_loop (fuel : nat) (t : N) : MC N :=
  match fuel with
  | O => ret t
  | S n =>
    if t =? UINT32_MAX then ret t else
    r <- attempt (RedInodeDataSeekAndRead g (t / DPB)) ;;
    match r with
    | Ok d => match back_block (N.to_nat (t mod DPB)) t d with
              | (true, t') => ret t'
              | (false, t') => back_loop n t'
              end
    | Err ENODATA => back_loop n (dec32 t DPB)
    | Err e => fail e
    end
  end.

(** dir.c:199-299 RedDirEntryDelete *)
Definition RedDirEntryDelete (idx : N) : MC unit :=
  c <- getc ;;
  if negb (CINODE_IS_DIRTY g c) || (DIRENTS_MAX g <=? idx) then fail EINVAL else
  if negb (c_dir c) then fail ENOTDIR else
  if DirEntryIndexToOffset idx + DS =? i_size (c_i c) then
    t <- back_loop (S (N.to_nat idx)) (dec32 idx 1) ;;
    let t := u32 (t + 1) in
    let size := DirEntryIndexToOffset t in
    let size := if (0 <? DIR_BLOCK_UNUSED_SPACE) && (BS g <=? size) && (size mod BS g =? 0)
                then size - DIR_BLOCK_UNUSED_SPACE else size in
    RedInodeDataTruncate g size
  else DirEntryWrite idx INODE_INVALID [].

(** dir.c:553-554 RedStrNCpy(pszName, acName, REDCONF_NAME_MAX) and terminator: the bytes up to the
    first NUL. *)
Fixpoint get_name (n : nat) (d : N -> N) (o : N) : name :=
  match n with
  | O => []
  | S n' => if d o =? 0 then [] else d o :: get_name n' d (o + 1)
  end.
(** dir.c:547-568: the loop over the entries of one block, from block index [b] *)
Fixpoint read_block (n : nat) (b idx : N) (d : N -> N) : option (name * N) * N :=
  match n with
  | O => (None, idx)
  | S n' =>
    let ino := get32 d (b * DS) in
    if negb (ino =? INODE_INVALID) then (Some (get_name (N.to_nat (NMAX g)) d (b * DS + 4), ino), idx)
    else read_block n' (b + 1) (idx + 1) d
  end.
Fixpoint read_loop (fuel : nat) (idx cnt : N) : MC (option (name * N) * N) :=
  match fuel with
  | O => ret (None, idx)
  | S n =>
    if idx <? cnt then
      let bo := idx / DPB in
      r <- attempt (RedInodeDataSeekAndRead g bo) ;;
      match r with
      | Ok d =>
        let last := N.min DPB (cnt - bo * DPB) in
        match read_block (N.to_nat (last - idx mod DPB)) (idx mod DPB) idx d with
        | (Some e, idx') => ret (Some e, idx')
        | (None, idx') => read_loop n idx' cnt
        end
      | Err ENODATA => read_loop n (idx + (DPB - idx mod DPB)) cnt
      | Err e => fail e
      end
    else ret (None, idx)
  end.
(** dir.c:512-600 RedDirEntryRead: the next entry and the new position; None is -RED_ENOENT. *)
Definition RedDirEntryRead (idx : N) : MC (option (name * N) * N) :=
  c <- getc ;;
  if negb (CINODE_IS_MOUNTED g c) then fail EINVAL else
  if negb (c_dir c) then fail ENOTDIR else
  let cnt := DirOffsetToEntryIndex (i_size (c_i c)) in
  '(e, i) <- read_loop (N.to_nat cnt) idx cnt ;;
  match e with
  | Some x => ret (Some x, i + 1)
  | None => ret (None, cnt)
  end.

(** Functions with two parent directories: the structures may be one and the same (second is None). *)
Definition MP (A : Type) := M (st * (cin * option cin)) A.
Definition liftp {A} (m : M st A) : MP A := fun x => let (r, s') := m (fst x) in (r, (s', snd x)).
Definition onsrc {A} (m : MC A) : MP A := fun x =>
  let '(s, (cs, od)) := x in let '(r, (s', cs')) := m (s, cs) in (r, (s', (cs', od))).
Definition ondst {A} (m : MC A) : MP A := fun x =>
  let '(s, (cs, od)) := x in
  match od with
  | None => let '(r, (s', cs')) := m (s, cs) in (r, (s', (cs', None)))
  | Some cd => let '(r, (s', cd')) := m (s, cd) in (r, (s', (cs, Some cd')))
  end.

(** dir.c:851-877: the loop of DirCyclicRenameCheck; returns the last inode number and the iteration count. *)
Fixpoint cyclic_loop (fuel : nat) (src next it : N) : M st (N * N) :=
  match fuel with
  | O => ret (next, it)
  | S n =>
    if negb (next =? src) && negb (next =? INODE_ROOTDIR) && negb (next =? INODE_INVALID) && (it <? ICNT g) then
      c <- RedInodeMount g next FTYPE_DIR false ;;
      cyclic_loop n src (i_pinode (c_i c)) (it + 1)
    else ret (next, it)
  end.
(** dir.c:824-892 DirCyclicRenameCheck *)
Definition DirCyclicRenameCheck (src : N) (dst : cin) : M st unit :=
  if negb (INODE_IS_VALID g src) || negb (CINODE_IS_MOUNTED g dst) then fail EINVAL else
  if src =? c_ino dst then fail EINVAL else
  if negb (c_dir dst) then fail ENOTDIR else
  '(next, it) <- cyclic_loop (S (N.to_nat (ICNT g))) src (i_pinode (c_i dst)) 0 ;;
  if it =? ICNT g then critical EFUBAR else
  if src =? next then fail EINVAL else ret tt.

(** dir.c:647-800 RedDirEntryRename with REDCONF_RENAME_ATOMIC == 1.  Result: the source inode (None
    if both names are the same inode: it was not mounted) and the replaced destination inode, mounted,
    if there was one; both as CINODEs, with the inode numbers. *)
Definition RedDirEntryRename (sn dn : name) : MP (N * N * option cin * option cin) :=
  cs <- onsrc getc ;;
  cd <- ondst getc ;;
  if negb (CINODE_IS_DIRTY g cs) || negb (CINODE_IS_DIRTY g cd) then fail EINVAL else
  if negb (c_dir cs) || negb (c_dir cd) then fail ENOTDIR else
  if isdots dn then fail EINVAL else
  ls <- onsrc (RedDirEntryLookup sn) ;;
  match ls with
  | NotFound _ => fail ENOENT
  | Found sidx sino =>
    ld <- ondst (RedDirEntryLookup dn) ;;
    '(didx, dino) <- (match ld with
      | Found i ino => ret (i, ino)
      | NotFound i => if i =? DIR_INDEX_INVALID then fail ENOSPC else ret (i, INODE_INVALID)
      end) ;;
    if sino =? dino then ret (sino, dino, None, None) else
    si <- liftp (RedInodeMount g sino FTYPE_EITHER true) ;;
    di <- (if dino =? INODE_INVALID then ret None else
           d <- liftp (RedInodeMount g dino (if c_dir si then FTYPE_DIR else FTYPE_FILE) true) ;;
           if c_dir d && (0 <? i_size (c_i d)) then fail ENOTEMPTY else ret (Some d)) ;;
    cd <- ondst getc ;;
    (if c_dir si then liftp (DirCyclicRenameCheck sino cd) else ret tt) ;;;
    ondst (DirEntryWrite didx sino dn) ;;;
    r <- attempt (onsrc (RedDirEntryDelete sidx)) ;;
    match r with
    | Ok _ =>
      '(_, si') <- liftp (fun s => let '(r, (s', c')) := iset (iset_pinode (c_ino cd)) (s, si) in (Ok (tt, c'), s')) ;;
      ret (sino, dino, Some si', di)
    | Err ENOSPC =>
      r2 <- attempt (if negb (dino =? INODE_INVALID) then ondst (DirEntryWrite didx dino dn) else ondst (RedDirEntryDelete didx)) ;;
      match r2 with
      | Ok _ => fail ENOSPC
      | Err e => liftp (critical e)
      end
    | Err e => fail e
    end
  end.
End Dir.
