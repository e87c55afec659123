(** Model of the volume level: mount, transaction points, rollback, unmount, format and the
    automatic transactions around the core operations, together with the block device.

    The device distinguishes what a read returns from what is guaranteed to survive a power
    loss.  The two metaroot blocks and the master block are kept apart from the other blocks:
    a metaroot block either carries a valid signature and checksum, with a sequence number and
    a metaroot, or it is invalid.

    Simplifications: the device reports no I/O errors (FltVolume.v adds them); a torn metaroot is assumed to be
    detected by its checksum (Metaroot.v and C12 have the byte level); contents of the
    buffer cache are identified with the logical contents [dk] (C09); evictions of dirty
    buffers during a call are visible only as the snapshots of the call and are otherwise
    delayed until after the call (constructor [St_back] of [step]).  The sequence number
    increments caused by node writes are an oracle.  One volume. *)
From Verif Require Import Base FsState FsImap FsInode FsData FsDir FsCore FsSpec FsMach.

(** A metaroot block: invalid, with or without a valid checksum of its first sector, or valid. *)
Inductive mslot := MBad (sec : bool) | MOk (seq : N) (m : mroot).

(** A block device.  [d_unf b]: block b was written since the last flush of the device.
    [d_mr]: metaroot blocks as read, [d_mrd]: at the last flush.  [d_mst]: sequence number of
    the master block as read (None: not a master block of this volume), [d_mstd]: at the last flush. *)
Record dev := mkDev { d_blk : N -> blk; d_unf : N -> bool; d_mr : bool -> mslot; d_mrd : bool -> mslot; d_mst : option N; d_mstd : option N }.

Definition dflush (d : dev) : dev := mkDev (d_blk d) (fun _ => false) (d_mr d) (d_mr d) (d_mst d) (d_mst d).
Definition dwrite (wr : N -> bool) (f : N -> blk) (d : dev) : dev :=
  mkDev (fun b => if wr b then f b else d_blk d b) (fun b => wr b || d_unf d b) (d_mr d) (d_mrd d) (d_mst d) (d_mstd d).
Definition dwmr (i : bool) (x : mslot) (d : dev) : dev :=
  mkDev (d_blk d) (d_unf d) (fun j => if Bool.eqb j i then x else d_mr d j) (d_mrd d) (d_mst d) (d_mstd d).
Definition dwmst (x : option N) (d : dev) : dev := mkDev (d_blk d) (d_unf d) (d_mr d) (d_mrd d) x (d_mstd d).

(** The checksum of the first sector of a metaroot block is valid. *)
Definition sec_ok (x : mslot) : bool := match x with MBad s => s | MOk _ _ => true end.

(** Power loss.  Flushed blocks keep their contents; a block written since the last flush is
    arbitrary.  A metaroot block with an unflushed write holds the old or the new contents or is
    torn (invalid); if sector writes are atomic ([atom] is VOLCONF.fAtomicSectorWrite,
    include/redvolume.h) then the first sector is old or new, hence valid if both were.  The
    master block is old, new or invalid. *)
Definition lose (atom : bool) (d d' : dev) : Prop :=
  (forall b, d_unf d b = false -> d_blk d' b = d_blk d b) /\
  (forall i, d_mr d' i = d_mrd d i \/ d_mr d' i = d_mr d i \/
     d_mr d i <> d_mrd d i /\ exists sec, d_mr d' i = MBad sec /\
       (atom = true -> sec_ok (d_mrd d i) = true -> sec_ok (d_mr d i) = true -> sec = true)) /\
  (d_mst d' = d_mstd d \/ d_mst d' = d_mst d \/ d_mst d' = None /\ d_mst d <> d_mstd d) /\
  (forall b, d_unf d' b = false) /\ (forall i, d_mrd d' i = d_mr d' i) /\ d_mstd d' = d_mst d'.

(** gaRedVolume[] and gaCoreVol[] of one volume (include/redvolume.h, core/include/redcorevol.h)
    with its device.  [v_cur] is bCurMR. *)
Record vol := mkV { v_s : st; v_d : dev; v_mnt : bool; v_cur : bool; v_seq : N; v_mask : N }.
Definition vset_s s v := mkV s (v_d v) (v_mnt v) (v_cur v) (v_seq v) (v_mask v).
Definition vset_d d v := mkV (v_s v) d (v_mnt v) (v_cur v) (v_seq v) (v_mask v).
Definition vset_mnt b v := mkV (v_s v) (v_d v) b (v_cur v) (v_seq v) (v_mask v).
Definition vset_cur b v := mkV (v_s v) (v_d v) (v_mnt v) b (v_seq v) (v_mask v).
Definition vset_seq n v := mkV (v_s v) (v_d v) (v_mnt v) (v_cur v) n (v_mask v).
Definition vset_mask n v := mkV (v_s v) (v_d v) (v_mnt v) (v_cur v) (v_seq v) n.

(** A call produces a result and, for every instant during the call, the set of devices that
    may exist at that instant. *)
Definition snap := dev -> Prop.
Definition PV (A : Type) : Type := vol -> res A * vol * list snap.
Definition pret {A} (a : A) : PV A := fun v => (Ok a, v, []).
Definition pfail {A} (e : errno) : PV A := fun v => (Err e, v, []).
Definition pbind {A B} (m : PV A) (k : A -> PV B) : PV B := fun v =>
  let '(r, v1, t1) := m v in
  match r with
  | Ok a => let '(r2, v2, t2) := k a v1 in (r2, v2, t1 ++ t2)
  | Err e => (Err e, v1, t1)
  end.
Definition pcatch {A B} (m : PV A) (k : res A -> PV B) : PV B := fun v =>
  let '(r, v1, t1) := m v in let '(r2, v2, t2) := k r v1 in (r2, v2, t1 ++ t2).
Definition pmod (f : vol -> vol) : PV unit := fun v => (Ok tt, f v, []).
Declare Scope pv_scope.
Delimit Scope pv_scope with pv.
Notation "x <~ m ;; k" := (pbind m (fun x => k)) (at level 61, m at next level, right associativity) : pv_scope.
Notation "m ~;; k" := (pbind m (fun _ => k)) (at level 61, right associativity) : pv_scope.
Open Scope pv_scope.

(** Devices that differ from d only in blocks of wr: some dirty buffers were written. *)
Definition mayhap (wr : N -> bool) (d d' : dev) : Prop :=
  (forall b, wr b = false -> d_blk d' b = d_blk d b /\ d_unf d' b = d_unf d b) /\
  (forall i, d_mr d' i = d_mr d i) /\ (forall i, d_mrd d' i = d_mrd d i) /\ d_mst d' = d_mst d /\ d_mstd d' = d_mstd d.

(** A function of the core, run on the volume state. *)
Definition core {A} (m : M st A) : PV A := fun v =>
  let (r, s') := m (v_s v) in (r, vset_s s' v, [mayhap (s_wr s') (v_d v)]).

(** Oracle of a transaction point: number of sequence numbers used by the flushed nodes, and
    the contents of written blocks that are free in the new state. *)
Definition oracle : Type := N * (N -> blk).

(** core/driver/volume.c:515-610 RedVolTransact.  RedBufferFlushRange writes the dirty buffers in
    some order (first snapshot); then RedIoFlush, RedIoWrite of the metaroot, RedIoFlush. *)
Definition newMR (s : st) : mroot := mset_free (m_free (s_w s) + s_afree s) (s_w s).
Definition RedVolTransact (o : oracle) : PV unit := fun v =>
  let s := v_s v in
  if negb (s_br s) then (Ok tt, v, []) else
  let M := newMR s in
  let seq := v_seq v + fst o in
  if UINT64_MAX <=? seq then
    (* RedVolSeqNumIncrement: CRITICAL_ERROR, -RED_EFUBAR *)
    (Err EFUBAR, vset_d (dwrite (s_wr s) (snd o) (v_d v)) (vset_s (set_ro true (set_afree 0 (set_w M s))) (vset_seq UINT64_MAX v)),
     [mayhap (s_wr s) (v_d v)])
  else
  let dk' b := if s_wr s b && negb (cur s b) then snd o b else dk s b in
  let d1 := dwrite (s_wr s) dk' (v_d v) in
  let d2 := dflush d1 in
  let d3 := dwmr (v_cur v) (MOk seq M) d2 in
  let d4 := dflush d3 in
  (Ok tt, mkV (mkSt dk' (fun _ => false) M M 0 false (s_ro s) (s_res s)) d4 (v_mnt v) (negb (v_cur v)) (seq + 1) (v_mask v),
   [mayhap (s_wr s) (v_d v); eq d1; eq d2; eq d3; eq d4]).

Section Volume.
Variable g : cfg.
Variable atom : bool.        (* gpRedVolConf->fAtomicSectorWrite *)
Variable MOUNT_MASK : N.     (* RED_MOUNT_MASK *)
Variable TRANSACT_MASK : N.  (* RED_TRANSACT_MASK *)
Variable TRANSACT_DEFAULT : N.  (* REDCONF_TRANSACT_DEFAULT *)

(** volume.c:302-377, the choice of the metaroot in RedVolMountMetaroot; [MetarootIsValid] is the
    constructor of [mslot] (455-500). *)
Definition choose (mr : bool -> mslot) : res (bool * N * mroot) :=
  let after0 (b0 : option (N * mroot)) :=
    match mr true with
    | MOk q1 m1 =>
      match b0 with
      | None => Ok (true, q1, m1)
      | Some (q0, m0) => if q0 <? q1 then Ok (true, q1, m1) else Ok (false, q0, m0)
      end
    | MBad sec => if atom && negb sec then Err EIO else
      match b0 with None => Err EIO | Some (q0, m0) => Ok (false, q0, m0) end
    end in
  match mr false with
  | MOk q0 m0 => after0 (Some (q0, m0))
  | MBad sec => if atom && negb sec then Err EIO else after0 None
  end.

(** volume.c:240-291 RedVolMountMaster: the configuration recorded in the master block is taken to
    agree with the driver whenever the block is a master block. *)
Definition RedVolMountMaster : PV unit := fun v =>
  match d_mst (v_d v) with None => (Err EIO, v, []) | Some q => (Ok tt, vset_seq q v, []) end.

(** volume.c:302-424 RedVolMountMetaroot; the buffers have been discarded, so the logical contents
    are those of the device. *)
Definition RedVolMountMetaroot (ro : bool) : PV unit := fun v =>
  match choose (d_mr (v_d v)) with
  | Err e => (Err e, v, [])
  | Ok (i, q, M) =>
    let seq := if v_seq v <? q then q else v_seq v in
    if seq =? UINT64_MAX then (Err EFUBAR, vset_s (set_ro true (v_s v)) (vset_cur i (vset_seq seq v)), [])
    else (Ok tt, mkV (mkSt (d_blk (v_d v)) (fun _ => false) M M 0 (s_br (v_s v)) ro false) (v_d v) true (negb i) (seq + 1) (v_mask v), [])
  end.

(** volume.c:181-227 RedVolMount = core.c:298 RedCoreVolMount *)
Definition RedCoreVolMount (flags : N) : PV unit :=
  if negb (N.land flags MOUNT_MASK =? flags) then pfail EINVAL else
  RedVolMountMaster ~;; RedVolMountMetaroot (negb (N.land flags RED_MOUNT_READONLY =? 0)).

(** volume.c:621-657 RedVolRollback *)
Definition RedVolRollback : PV unit := fun v =>
  if negb (s_br (v_s v)) then (Ok tt, v, []) else
  match (RedVolMountMaster ~;; RedVolMountMetaroot false) v with
  | (Ok _, v', t) => (Ok tt, vset_s (set_br false (v_s v')) v', t)
  | (Err e, v', t) => (Err e, vset_s (set_ro true (v_s v')) v', t)   (* CRITICAL_ASSERT *)
  end.

(** core.c:371-390, 405-424 *)
Definition guard (A : Type) (m : PV A) : PV A := fun v =>
  if negb (v_mnt v) then (Err EINVAL, v, []) else if s_ro (v_s v) then (Err EROFS, v, []) else m v.
Definition RedCoreVolTransact (o : oracle) : PV unit := guard _ (RedVolTransact o).
Definition RedCoreVolRollback : PV unit := guard _ RedVolRollback.

(** core.c:323-351 RedCoreVolUnmount *)
Definition RedCoreVolUnmount (o : oracle) : PV unit := fun v =>
  ((if negb (s_ro (v_s v)) && has (v_mask v) T_UMOUNT then RedVolTransact o else pret tt) ~;;
   pmod (vset_mnt false)) v.

(** core.c:524-545 RedCoreTransMaskSet, 562-583 RedCoreTransMaskGet *)
Definition RedCoreTransMaskSet (m : N) : PV unit := fun v =>
  if negb (v_mnt v) || negb (N.land m TRANSACT_MASK =? m) then (Err EINVAL, v, [])
  else if s_ro (v_s v) then (Err EROFS, v, []) else (Ok tt, vset_mask m v, []).
Definition RedCoreTransMaskGet : PV N := fun v =>
  if negb (v_mnt v) then (Err EINVAL, v, []) else (Ok (v_mask v), v, []).

(** core.c:436-477 RedCoreVolStat: f_bfree, f_ffree, RED_ST_RDONLY *)
Definition RedCoreVolStat : PV (N * N * bool) := fun v =>
  if negb (v_mnt v) then (Err EINVAL, v, []) else
  let f := m_free (s_w (v_s v)) in
  (Ok (if RESV g <? f then f - RESV g else 0, m_freei (s_w (v_s v)), s_ro (v_s v)), v, []).

(** The common body of the modifying operations: on ENOSPC commit and retry once if the mask has
    RED_TRANSACT_VOLFULL and there are almost free blocks; on success commit if the mask has the event. *)
Definition autocommit {A} (ev : N) (m : M st A) (o1 o2 : oracle) : PV A :=
  guard _ (
    a <~ pcatch (core m) (fun r v =>
      match r with
      | Err ENOSPC => if has (v_mask v) T_VOLFULL && (0 <? s_afree (v_s v))
                      then (RedVolTransact o1 ~;; core m) v else pfail ENOSPC v
      | Err e => pfail e v
      | Ok a => pret a v
      end) ;;
    (fun v => if has (v_mask v) ev then (RedVolTransact o2 ~;; pret a) v else pret a v)).

(** core.c:611-668 RedCoreCreate *)
Definition RedCoreCreate p nm (dir : bool) := autocommit (if dir then T_MKDIR else T_CREAT) (CoreCreate g p nm dir).
(** core.c:786-824 RedCoreLink *)
Definition RedCoreLink p nm i := autocommit T_LINK (CoreLink g p nm i).
(** core.c:965-1003 RedCoreUnlink *)
Definition RedCoreUnlink p nm := autocommit T_UNLINK (CoreUnlink g p nm).
(** core.c:1218-1258 RedCoreRename *)
Definition RedCoreRename sp sn dp dn := autocommit T_RENAME (CoreRename g sp sn dp dn).
(** core.c:1596-1635 RedCoreFileWrite *)
Definition RedCoreFileWrite i start len src := autocommit T_WRITE (CoreFileWrite g i start len src).
(** core.c:1714-1752 RedCoreFileTruncate *)
Definition RedCoreFileTruncate i size := autocommit T_TRUNCATE (CoreFileTruncate g i size).

(** core.c:1130, 1403, 1520, 1833, 1889: the volume must be mounted *)
Definition mounted {A} (m : M st A) : PV A := fun v => if negb (v_mnt v) then (Err EINVAL, v, []) else core m v.
Definition RedCoreLookup p nm := mounted (CoreLookup g p nm).
Definition RedCoreStat i := mounted (CoreStat g i).
Definition RedCoreFileRead i start len := mounted (CoreFileRead g i start len).
Definition RedCoreDirRead i pos := mounted (CoreDirRead g i pos).
Definition RedCoreDirParent i := mounted (CoreDirParent g i).

(** core/driver/format.c:45-270 RedVolFormat (POSIX-like API).  The imap node blocks of an external
    imap are part of the metaroot here. *)
Definition format_mr : mroot := mkMR (fun _ => false) (NALLOC g) (FA g) (ICNT g).
Definition write_master (x : option N) : PV unit := fun v =>
  let d1 := dwmst x (v_d v) in let d2 := dflush d1 in (Ok tt, vset_d d2 v, [eq d1; eq d2]).
(** [mk] creates the first inodes: the root directory with the POSIX-like API (format.c:143-158), all files with the
    FSE API (format.c:160-181, see FseVol.v). *)
Definition RedVolFormatWith (mk : M st unit) (o1 o2 : oracle) : PV unit := fun v =>
  if v_mnt v then (Err EBUSY, v, []) else
  (write_master None ~;;
   pmod (fun v => vset_s (mkSt (d_blk (v_d v)) (fun _ => false) format_mr (s_c (v_s v)) (s_afree (v_s v)) true false (s_res (v_s v))) v) ~;;
   RedVolTransact o1 ~;;
   core mk ~;;
   RedVolTransact o2 ~;;
   (fun v => if v_seq v =? UINT64_MAX then (Err EFUBAR, vset_s (set_ro true (v_s v)) v, [])   (* RedBufferFinalize *)
             else (write_master (Some (v_seq v)) ~;; pmod (fun v => vset_seq (v_seq v + 1) v)) v)) v.
Definition MakeRoot : M st unit := _ <- RedInodeCreate g INODE_ROOTDIR INODE_INVALID true ;; ret tt.
Definition RedVolFormat : oracle -> oracle -> PV unit := RedVolFormatWith MakeRoot.

(** RedCoreInit after a power loss: core.c:81-188.  gaRedVolume and gaCoreVol are zeroed. *)
Definition boot (d : dev) : vol :=
  mkV (mkSt (d_blk d) (fun _ => false) (mkMR (fun _ => false) 0 0 0) (mkMR (fun _ => false) 0 0 0) 0 false false false)
      d false false 0 TRANSACT_DEFAULT.

Definition omap {A} (f : A -> out) (m : PV A) : PV out := a <~ m ;; pret (f a).
Definition ounit (m : PV unit) : PV out := omap (fun _ => OUnit) m.
Definition exec (c : call) (o1 o2 : oracle) : PV out :=
  match c with
  | CCreate p nm dir => omap ONum (RedCoreCreate p nm dir o1 o2)
  | CLink p nm i => ounit (RedCoreLink p nm i o1 o2)
  | CUnlink p nm => ounit (RedCoreUnlink p nm o1 o2)
  | CRename sp sn dp dn => ounit (RedCoreRename sp sn dp dn o1 o2)
  | CWrite i start len src => omap ONum (RedCoreFileWrite i start len src o1 o2)
  | CTruncate i size => ounit (RedCoreFileTruncate i size o1 o2)
  | CLookup p nm => omap ONum (RedCoreLookup p nm)
  | CStat i => omap OStat (RedCoreStat i)
  | CRead i start len => omap ORead (RedCoreFileRead i start len)
  | CDirRead i pos => omap OEnt (RedCoreDirRead i pos)
  | CDirParent i => omap ONum (RedCoreDirParent i)
  | CTransact => ounit (RedCoreVolTransact o1)
  | CRollback => ounit RedCoreVolRollback
  | CMaskSet m => ounit (RedCoreTransMaskSet m)
  | CMaskGet => omap ONum RedCoreTransMaskGet
  | CVolStat => omap OVStat RedCoreVolStat
  | CMount flags => ounit (RedCoreVolMount flags)
  | CUnmount => ounit (RedCoreVolUnmount o1)
  | CFormat => ounit (RedVolFormat o1 o2)
  end.
End Volume.
