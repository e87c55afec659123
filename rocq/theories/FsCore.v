(** Model of the file and directory operations of core/driver/core.c, below automatic
    transactions (those are in FsVolume.v).

    Time stamps are not modelled, so RedInodePut only drops the CINODE; the model corresponds
    to REDCONF_ATIME == 0 and to REDCONF_API_POSIX == 1 with all operations enabled and
    REDCONF_RENAME_ATOMIC == 1.  NULL-pointer checks are not modelled. *)
From Verif Require Import Base FsState FsImap FsInode FsData FsDir.

(** Run an operation on a CINODE; the structure is a local variable of the caller. *)
Definition runc {A} (m : MC A) (c : cin) : M st (res A * cin) := fun s =>
  let '(r, (s', c')) := m (s, c) in (Ok (r, c'), s').
(** RedInodePutCoord + RedInodePut: nothing observable remains. *)
Definition finish {A} (m : MC A) (c : cin) : M st A := fun s => let '(r, (s', _)) := m (s, c) in (r, s').
(** gpRedCoreVol->fUseReservedBlocks = v, only compiled in when RESERVED_BLOCKS > 0 *)
Definition use_reserved (g : cfg) (v : bool) : M st unit := modify (fun s => if 0 <? RESV g then set_res v s else s).

Section Core.
Variable g : cfg.

Definition UINT16MAX : N := 65535.

(** core.c:687-757 CoreCreate *)
Definition CoreCreate (pino : N) (nm : name) (isdir : bool) : M st N := fun s =>
  if s_ro s then (Err EROFS, s) else
  (p <- RedInodeMount g pino FTYPE_DIR false ;;
   i <- RedInodeCreate g INODE_INVALID pino isdir ;;
   '(r, _) <- runc (RedInodeBranch g ;;; RedDirEntryCreate g nm (c_ino i)) p ;;
   match r with
   | Ok _ => ret (c_ino i)
   | Err e => attempt (critical_assert (finish (RedInodeFree g) i)) ;;; fail e
   end) s.

(** core.c:851-921 CoreLink *)
Definition CoreLink (pino : N) (nm : name) (ino : N) : M st unit := fun s =>
  if s_ro s then (Err EROFS, s) else
  (p <- RedInodeMount g pino FTYPE_DIR false ;;
   ri <- attempt (RedInodeMount g ino FTYPE_FILE false) ;;
   match ri with
   | Err EISDIR => fail EPERM
   | Err e => fail e
   | Ok i =>
     if i_nlink (c_i i) =? UINT16MAX then fail EMLINK else
     '(rp, p) <- runc (RedInodeBranch g) p ;;
     match rp with Err e => fail e | Ok _ =>
     '(ri, i) <- runc (RedInodeBranch g) i ;;
     match ri with Err e => fail e | Ok _ =>
     '(rc, _) <- runc (RedDirEntryCreate g nm (c_ino i)) p ;;
     match rc with Err e => fail e | Ok _ =>
     finish (iset (fun io => iset_nlink (u16 (i_nlink io + 1)) io)) i
     end end end
   end) s.

(** core.c:1028-1101 CoreUnlink *)
Definition CoreUnlink (pino : N) (nm : name) : M st unit := fun s =>
  if s_ro s then (Err EROFS, s) else
  (p <- RedInodeMount g pino FTYPE_DIR false ;;
   '(rl, p) <- runc (RedDirEntryLookup g nm) p ;;
   match rl with
   | Err e => fail e
   | Ok (NotFound _) => fail ENOENT
   | Ok (Found idx ino) =>
     '(rb, p) <- runc (RedInodeBranch g) p ;;
     match rb with
     | Err e => fail e
     | Ok _ =>
       i <- RedInodeMount g ino FTYPE_EITHER false ;;
       if c_dir i && (0 <? i_size (c_i i)) then fail ENOTEMPTY else
       use_reserved g true ;;;
       '(rd, _) <- runc (RedDirEntryDelete g idx) p ;;
       use_reserved g false ;;;
       match rd with
       | Err e => fail e
       | Ok _ => critical_assert (finish (RedInodeLinkDec g) i)
       end
     end
   end) s.

(** core.c:1130-1160 RedCoreLookup *)
Definition CoreLookup (pino : N) (nm : name) : M st N :=
  p <- RedInodeMount g pino FTYPE_DIR false ;;
  l <- finish (RedDirEntryLookup g nm) p ;;
  match l with Found _ ino => ret ino | NotFound _ => fail ENOENT end.

(** core.c:1296-1382 CoreRename *)
Definition CoreRename (sp : N) (sn : name) (dp : N) (dn : name) : M st unit := fun s =>
  if s_ro s then (Err EROFS, s) else
  (cs <- RedInodeMount g sp FTYPE_DIR true ;;
   cd <- (if sp =? dp then ret None else d <- RedInodeMount g dp FTYPE_DIR true ;; ret (Some d)) ;;
   '(sino, dino, _, di) <- (fun s => let '(r, (s', _)) := RedDirEntryRename g sn dn (s, (cs, cd)) in (r, s')) ;;
   match di with
   | Some d => if negb (dino =? INODE_INVALID) && negb (dino =? sino)
               then critical_assert (finish (RedInodeLinkDec g) d) else ret tt
   | None => ret tt
   end) s.

(** core.c:1403-1446 RedCoreStat: (directory?, st_nlink, st_size, st_blocks) *)
Definition CoreStat (ino : N) : M st (bool * N * N * N) :=
  c <- RedInodeMount g ino FTYPE_EITHER false ;;
  ret (i_dir (c_i c), i_nlink (c_i c), i_size (c_i c), i_blocks (c_i c)).

(** core.c:1520-1560 RedCoreFileRead: number of bytes and the bytes *)
Definition CoreFileRead (ino start len : N) : M st (N * (N -> N)) :=
  c <- RedInodeMount g ino FTYPE_FILE false ;;
  finish (RedInodeDataRead g start len) c.

(** core.c:1660-1687 CoreFileWrite: number of bytes written *)
Definition CoreFileWrite (ino start len : N) (src : N -> N) : M st N := fun s =>
  if s_ro s then (Err EROFS, s) else
  (c <- RedInodeMount g ino FTYPE_FILE true ;;
   finish (RedInodeDataWrite g start len src) c) s.

(** core.c:1769-1803 CoreFileTruncate *)
Definition CoreFileTruncate (ino size : N) : M st unit := fun s =>
  if s_ro s then (Err EROFS, s) else
  (c <- RedInodeMount g ino FTYPE_FILE true ;;
   use_reserved g (size <? i_size (c_i c)) ;;;
   '(r, _) <- runc (RedInodeDataTruncate g size) c ;;
   use_reserved g false ;;;
   lift_res r) s.

(** core.c:1833-1870 RedCoreDirRead: entry (None is -RED_ENOENT) and new position *)
Definition CoreDirRead (ino pos : N) : M st (option (name * N) * N) :=
  c <- RedInodeMount g ino FTYPE_DIR false ;;
  finish (RedDirEntryRead g pos) c.

(** core.c:1889-1926 RedCoreDirParent *)
Definition CoreDirParent (ino : N) : M st N :=
  if ino =? INODE_ROOTDIR then ret INODE_INVALID else
  c <- RedInodeMount g ino FTYPE_DIR false ;;
  ret (i_pinode (c_i c)).
End Core.
