(** Volume state of the file system core and the monad in which the core is modelled.

    The state is the *logical* volume: [dk b] is the contents that a read of block [b]
    through the buffer cache returns (theorem C09 in PropCache.v says that this is what the
    buffer module provides).  Blocks are typed: signature and CRC checking of metadata
    nodes is abstracted to the constructor of [blk].

    Simplifications: no device I/O errors at this level (they are added in Flt*.v; see Bdev.v for the retry logic);
    no time stamps; block numbers and sizes are unbounded N (the bounds that make this
    adequate are in [cfg_ok]); the imap is the flat bit function that both the inline
    and the external imap implement (C08, ImapBytes.v, PropImapE.v). *)
From Verif Require Import Base.

(** core/include/rednodes.h:139-171 INODE, without the node header and time stamps.
    [i_dir] is RED_S_ISDIR(uMode). *)
Record inode := mkInode {
  i_size : N; i_blocks : N; i_dir : bool; i_nlink : N; i_pinode : N; i_ent : N -> N }.

(** Contents of a block.  [BIndir]/[BDindir]: core/include/rednodes.h:178-191 INDIR, DINDIR. *)
Inductive blk :=
| BJunk                                  (* unspecified contents *)
| BData (f : N -> N)                     (* file data, f x = byte x *)
| BInode (i : inode)
| BIndir (owner : N) (e : N -> N)
| BDindir (owner : N) (e : N -> N).

(** Configuration and geometry of a volume (redconf.h macros and core/driver/volume.c:65-165).
    [raw b] is the byte image of a block whose type is not file data; it is arbitrary. *)
Record cfg := mkCfg {
  BS : N;      (* REDCONF_BLOCK_SIZE *)
  IE : N;      (* INODE_ENTRIES, rednodes.h:129 *)
  NDIR : N;    (* REDCONF_DIRECT_POINTERS *)
  NIND : N;    (* REDCONF_INDIRECT_POINTERS *)
  PE : N;      (* INDIR_ENTRIES, rednodes.h:175 *)
  BC : N;      (* gpRedVolume->ulBlockCount *)
  ITAB : N;    (* gpRedCoreVol->ulInodeTableStartBN *)
  ICNT : N;    (* gpRedVolConf->ulInodeCount *)
  RESV : N;    (* RESERVED_BLOCKS, redcoremacs.h:77-101 *)
  NMAX : N;    (* REDCONF_NAME_MAX *)
  raw : blk -> N -> N }.

(** gpRedCoreVol->ulFirstAllocableBN, gpRedVolume->ulBlocksAllocable: volume.c:137-158 *)
Definition FA (g : cfg) : N := ITAB g + 2 * ICNT g.
Definition NALLOC (g : cfg) : N := BC g - FA g.

(** core/include/redcoremacs.h:36-61 *)
Definition DINDIR_POINTERS (g : cfg) : N := IE g - NDIR g - NIND g.
Definition DINDIR_DATA_BLOCKS (g : cfg) : N := PE g * PE g.
Definition INODE_INDIR_BLOCKS (g : cfg) : N := NIND g * PE g.
Definition INODE_DINDIR_BLOCKS_MAX (g : cfg) : N := UINT32_MAX - (NDIR g + INODE_INDIR_BLOCKS g).
Definition DINDIR_POINTERS_MAX (g : cfg) : N :=
  INODE_DINDIR_BLOCKS_MAX g / DINDIR_DATA_BLOCKS g +
  (if INODE_DINDIR_BLOCKS_MAX g mod DINDIR_DATA_BLOCKS g =? 0 then 0 else 1).
Definition INODE_DINDIR_BLOCKS (g : cfg) : N :=
  if DINDIR_POINTERS_MAX g <=? DINDIR_POINTERS g then INODE_DINDIR_BLOCKS_MAX g
  else DINDIR_POINTERS g * DINDIR_DATA_BLOCKS g.
Definition INODE_DATA_BLOCKS (g : cfg) : N := NDIR g + INODE_INDIR_BLOCKS g + INODE_DINDIR_BLOCKS g.
Definition INODE_SIZE_MAX (g : cfg) : N := BS g * INODE_DATA_BLOCKS g.

Definition INODE_INVALID : N := 0.
Definition INODE_FIRST_VALID : N := 2.
Definition INODE_ROOTDIR : N := 2.
Definition INODE_FIRST_FREE : N := 3.
(** redcoremacs.h:73 *)
Definition INODE_IS_VALID (g : cfg) (i : N) : bool := (INODE_FIRST_VALID <=? i) && (i <? INODE_FIRST_VALID + ICNT g).

(** core/driver/dir.c:37-44 *)
Definition DIRENT_SIZE (g : cfg) : N :=
  4 + NMAX g + (if NMAX g mod 4 =? 0 then 0 else 4 - NMAX g mod 4).
Definition DIRENTS_PER_BLOCK (g : cfg) : N := BS g / DIRENT_SIZE g.
Definition DIRENTS_MAX (g : cfg) : N := N.min UINT32_MAX (INODE_DATA_BLOCKS g * DIRENTS_PER_BLOCK g).

(** What the configuration checks (redconfigchk.h, rednodes.h:131-136, volume.c:65-165) guarantee. *)
Record cfg_ok (g : cfg) : Prop := {
  ok_BS : 0 < BS g;
  ok_PE : 0 < PE g;
  ok_IE : NDIR g + NIND g <= IE g;
  ok_IE1 : 0 < IE g;
  ok_IND32 : NDIR g + NIND g * PE g < UINT32_MAX;
  ok_ITAB : 3 <= ITAB g;
  ok_ICNT : 1 <= ICNT g;
  ok_FA : FA g <= BC g;
  ok_RESV : RESV g <= 3;
  ok_NMAX : 1 <= NMAX g;
  ok_DIRENT : DIRENT_SIZE g <= BS g;    (* redconfigchk.h:251 NMAX <= BS - 4, BS a multiple of 4 *)
  ok_BC32 : BC g <= UINT32_MAX;
  ok_raw : forall f, raw g (BData f) = f }.

(** core/include/rednodes.h:88-106 METAROOT: [m_bits b] is the allocation bit of block b. *)
Record mroot := mkMR { m_bits : N -> bool; m_free : N; m_next : N; m_freei : N }.

(** The volume.  [s_w] is the working metaroot (gpRedMR), [s_c] the committed one.
    [s_wr] is ghost: the blocks that were dirtied or written since the last transaction point. *)
Record st := mkSt {
  dk : N -> blk; s_wr : N -> bool;
  s_w : mroot; s_c : mroot;
  s_afree : N;        (* gpRedCoreVol->ulAlmostFreeBlocks *)
  s_br : bool;        (* gpRedCoreVol->fBranched *)
  s_ro : bool;        (* gpRedVolume->fReadOnly *)
  s_res : bool }.     (* gpRedCoreVol->fUseReservedBlocks *)

Definition cur (s : st) (b : N) : bool := m_bits (s_w s) b.
Definition com (s : st) (b : N) : bool := m_bits (s_c s) b.

Definition set_dk v s := mkSt v (s_wr s) (s_w s) (s_c s) (s_afree s) (s_br s) (s_ro s) (s_res s).
Definition set_wr v s := mkSt (dk s) v (s_w s) (s_c s) (s_afree s) (s_br s) (s_ro s) (s_res s).
Definition set_w v s := mkSt (dk s) (s_wr s) v (s_c s) (s_afree s) (s_br s) (s_ro s) (s_res s).
Definition set_c v s := mkSt (dk s) (s_wr s) (s_w s) v (s_afree s) (s_br s) (s_ro s) (s_res s).
Definition set_afree v s := mkSt (dk s) (s_wr s) (s_w s) (s_c s) v (s_br s) (s_ro s) (s_res s).
Definition set_br v s := mkSt (dk s) (s_wr s) (s_w s) (s_c s) (s_afree s) v (s_ro s) (s_res s).
Definition set_ro v s := mkSt (dk s) (s_wr s) (s_w s) (s_c s) (s_afree s) (s_br s) v (s_res s).
Definition set_res v s := mkSt (dk s) (s_wr s) (s_w s) (s_c s) (s_afree s) (s_br s) (s_ro s) v.

Definition mset_bits v m := mkMR v (m_free m) (m_next m) (m_freei m).
Definition mset_free v m := mkMR (m_bits m) v (m_next m) (m_freei m).
Definition mset_next v m := mkMR (m_bits m) (m_free m) v (m_freei m).
Definition mset_freei v m := mkMR (m_bits m) (m_free m) (m_next m) v.

(** * State monads with errors; an error keeps the state reached. *)
Definition M (S A : Type) : Type := S -> res A * S.
Definition ret {S A} (a : A) : M S A := fun s => (Ok a, s).
Definition fail {S A} (e : errno) : M S A := fun s => (Err e, s).
Definition bind {S A B} (m : M S A) (k : A -> M S B) : M S B := fun s =>
  match m s with (Ok a, s') => k a s' | (Err e, s') => (Err e, s') end.
(** catch the error as a value (C code inspecting [ret]) *)
Definition attempt {S A} (m : M S A) : M S (res A) := fun s =>
  let (r, s') := m s in (Ok r, s').
Definition lift_res {S A} (r : res A) : M S A := fun s => (r, s).
Definition gets {S A} (f : S -> A) : M S A := fun s => (Ok (f s), s).
Definition modify {S} (f : S -> S) : M S unit := fun s => (Ok tt, f s).

Declare Scope mon_scope.
Delimit Scope mon_scope with mon.
Notation "x <- m ;; k" := (bind m (fun x => k)) (at level 61, m at next level, right associativity) : mon_scope.
Notation "' p <- m ;; k" := (bind m (fun p => k))
  (at level 61, p pattern, m at next level, right associativity) : mon_scope.
Notation "m ;;; k" := (bind m (fun _ => k)) (at level 61, right associativity) : mon_scope.
Open Scope mon_scope.

(** volume.c RedVolCriticalError: the volume becomes read-only. *)
Definition critical {A} (e : errno) : M st A := fun s => (Err e, set_ro true s).
(** CRITICAL_ASSERT(ret == 0) after a call *)
Definition critical_assert {A} (m : M st A) : M st A := fun s =>
  match m s with (Ok a, s') => (Ok a, s') | (Err e, s') => (Err e, set_ro true s') end.

(** Storing through a dirty buffer, or writing to the device. *)
Definition dk_write (b : N) (v : blk) (s : st) : st := set_wr (upd (s_wr s) b true) (set_dk (upd (dk s) b v) s).
(** Marking a buffer dirty (RedBufferDirty) without changing it yet. *)
Definition dk_dirty (b : N) (s : st) : st := set_wr (upd (s_wr s) b true) s.

(** [loop n i body]: for(k = i; k < i + n; k++) body(k), stopping at the first error. *)
Fixpoint loop {S} (n : nat) (i : N) (body : N -> M S unit) : M S unit :=
  match n with
  | O => ret tt
  | Datatypes.S k => body i ;;; loop k (i + 1) body
  end.

(** Is one of f 0 .. f (n-1) nonzero? *)
Fixpoint any_nz (f : N -> N) (n : nat) : bool :=
  match n with O => false | Datatypes.S k => any_nz f k || negb (f (N.of_nat k) =? 0) end.
