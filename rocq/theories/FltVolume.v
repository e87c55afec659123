(** FsVolume.v with device failures: the calls of the core API as relations between the volume before, the result, the
    volume after and the devices that may exist at the instants of the call.  See FltMonad.v.

    Not modelled: failures of RedBDevClose on unmounting (RedBDevOpen: as a failing mount or format); failures of the
    power-up initialisation.  A failing REDASSERT(!gpRedVolume->fReadOnly) in RedVolTransact ends the run (this
    is reached only if a create runs out of space, the undo of the inode then meets a device failure and the mask has
    RED_TRANSACT_VOLFULL). *)
From Verif Require Import Base FsState FsImap FsInode FsData FsDir FsCore FsSpec FsMach FsVolume.
From Verif Require Import FltMonad FltImap FltInode FltData FltDir.
From Verif Require FltCore.
Close Scope flt_scope.

Definition FPV (A : Type) : Type := vol -> res A -> vol -> list snap -> Prop.
(** A step without input or output, or whose failures are not modelled. *)
Definition fpure {A} (m : PV A) : FPV A := fun v r v' t => m v = (r, v', t).
Definition fpbind {A B} (m : FPV A) (k : A -> FPV B) : FPV B := fun v r v' t => exists r1 v1 t1, m v r1 v1 t1 /\
  match r1 with Ok a => exists t2, k a v1 r v' t2 /\ t = t1 ++ t2 | Err e => r = Err e /\ v' = v1 /\ t = t1 end.
Definition fpcatch {A B} (m : FPV A) (k : res A -> FPV B) : FPV B := fun v r v' t =>
  exists r1 v1 t1 t2, m v r1 v1 t1 /\ k r1 v1 r v' t2 /\ t = t1 ++ t2.
Definition fcore {A} (m : MF st A) : FPV A := fun v r v' t =>
  exists s', m (v_s v) r s' /\ v' = vset_s s' v /\ t = [mayhap (s_wr s') (v_d v)].

Section Volume.
Variable g : cfg.
Variable atom : bool.
Variable MOUNT_MASK TRANSACT_MASK TRANSACT_DEFAULT : N.

(** volume.c:515-610 RedVolTransact.  Either RedBufferFlushRange or the first RedIoFlush fails: some of the dirty blocks
    are written; or the metaroot write or the last RedIoFlush fails: the metaroot block holds its old or its new
    contents or is torn, and may or may not be on the media for good.  In all cases the volume is made read-only. *)
Definition RedVolTransact (o : oracle) : FPV unit := fun v r v' t =>
  s_ro (v_s v) = false /\
  (FsVolume.RedVolTransact o v = (r, v', t) \/
   s_br (v_s v) = true /\ r = Err EIO /\
   let s := v_s v in
   let M := newMR s in
   let seq := v_seq v + fst o in
   ((exists d, mayhap (s_wr s) (v_d v) d /\
      v' = mkV (set_ro true (set_afree 0 (set_w M s))) d (v_mnt v) (v_cur v) seq (v_mask v) /\ t = [mayhap (s_wr s) (v_d v)]) \/
    seq < UINT64_MAX /\
    let dk' b := if s_wr s b && negb (cur s b) then snd o b else dk s b in
    let d1 := dwrite (s_wr s) dk' (v_d v) in
    let d2 := dflush d1 in
    exists x d3, (x = d_mr d2 (v_cur v) \/ x = MOk seq M \/
                  exists sec, x = MBad sec /\ (atom = true -> sec_ok (d_mr d2 (v_cur v)) = true -> sec = true)) /\
      (d3 = dwmr (v_cur v) x d2 \/ d3 = dflush (dwmr (v_cur v) x d2)) /\
      v' = mkV (mkSt dk' (fun _ => false) M (s_c s) 0 (s_br s) true (s_res s)) d3 (v_mnt v) (v_cur v) (seq + 1) (v_mask v) /\
      t = [mayhap (s_wr s) (v_d v); eq d1; eq d2; eq (dwmr (v_cur v) x d2); eq d3])).

(** A flush that fails: some of what was written before has reached the media for good. *)
Definition part (d d' : dev) : Prop :=
  (forall b, d_blk d' b = d_blk d b) /\ (forall b, d_unf d' b = d_unf d b \/ d_unf d' b = false) /\
  (forall i, d_mr d' i = d_mr d i) /\ (forall i, d_mrd d' i = d_mrd d i \/ d_mrd d' i = d_mr d i) /\
  d_mst d' = d_mst d /\ (d_mstd d' = d_mstd d \/ d_mstd d' = d_mst d).
(** format.c:74-92, 191-233: RedBufferFlushRange of the master block or the RedIoFlush after it fails; the master block
    holds its old or its new contents or is torn, hence invalid. *)
Definition write_master (x : option N) : FPV unit := fun v r v' t =>
  FsVolume.write_master x v = (r, v', t) \/
  r = Err EIO /\ exists y d, (y = d_mst (v_d v) \/ y = x \/ y = None) /\ part (dwmst y (v_d v)) d /\
    v' = vset_s (set_ro true (v_s v)) (vset_d d v) /\ t = [part (dwmst y (v_d v))].
(** format.c:45-270 RedVolFormat, see FsVolume.v: all but the calls of RedBDevOpen and RedBDevClose. *)
Definition FormatBody (mkF : MF st unit) (o1 o2 : oracle) : FPV unit :=
  fpbind (fpbind (write_master None) (fun _ =>
    fpbind (fpure (pmod (fun v => vset_s (mkSt (d_blk (v_d v)) (fun _ => false) (format_mr g) (s_c (v_s v)) (s_afree (v_s v)) true false (s_res (v_s v))) v))) (fun _ =>
    fpbind (RedVolTransact o1) (fun _ =>
    fpbind (fcore mkF) (fun _ =>
    RedVolTransact o2)))))
  (fun _ v => if v_seq v =? UINT64_MAX then fpure (fun v => (Err EFUBAR, vset_s (set_ro true (v_s v)) v, [])) v
   else fpbind (write_master (Some (v_seq v))) (fun _ => fpure (pmod (fun v => vset_seq (v_seq v + 1) v))) v).
Definition RedVolFormatWith (mkF : MF st unit) (o1 o2 : oracle) : FPV unit := fun v r v' t =>
  if v_mnt v then r = Err EBUSY /\ v' = v /\ t = [] else
  r = Err EIO /\ v' = v /\ t = [] \/                                                      (* format.c:57, RedBDevOpen *)
  FormatBody mkF o1 o2 v r v' t \/
  r = Err EIO /\ FormatBody mkF o1 o2 v (Ok tt) v' t.                                     (* format.c:237, RedBDevClose *)
Definition MakeRoot : MF st unit := (_ <- FltInode.RedInodeCreate g INODE_ROOTDIR INODE_INVALID true ;; ret tt)%flt.
Definition RedVolFormat : oracle -> oracle -> FPV unit := RedVolFormatWith MakeRoot.

(** volume.c:181-227 RedVolMount: reading the master block or a metaroot fails.  The volume stays unmounted; what was
    read into the volume structure is arbitrary. *)
Definition RedCoreVolMount (flags : N) : FPV unit := fun v r v' t =>
  FsVolume.RedCoreVolMount atom MOUNT_MASK flags v = (r, v', t) \/
  N.land flags MOUNT_MASK = flags /\ r = Err EIO /\ t = [] /\
  exists s cr seq, s_res s = s_res (v_s v) /\ v' = mkV s (v_d v) (v_mnt v) cr seq (v_mask v).
(** volume.c:621-657 RedVolRollback: the same after the buffers have been discarded. *)
Definition RedVolRollback : FPV unit := fun v r v' t =>
  FsVolume.RedVolRollback atom v = (r, v', t) \/
  s_br (v_s v) = true /\ r = Err EIO /\ t = [] /\
  exists s cr seq, s_res s = s_res (v_s v) /\ s_ro s = true /\ (forall b, s_wr s b = false) /\ v' = mkV s (v_d v) (v_mnt v) cr seq (v_mask v).

(** core.c:371-390, 405-424 *)
Definition fguard {A} (m : FPV A) : FPV A := fun v r v' t =>
  if negb (v_mnt v) then r = Err EINVAL /\ v' = v /\ t = []
  else if s_ro (v_s v) then r = Err EROFS /\ v' = v /\ t = [] else m v r v' t.
Definition RedCoreVolTransact (o : oracle) : FPV unit := fguard (RedVolTransact o).
Definition RedCoreVolRollback : FPV unit := fguard RedVolRollback.
(** core.c:323-351 RedCoreVolUnmount *)
Definition RedCoreVolUnmount (o : oracle) : FPV unit := fun v =>
  fpbind (if negb (s_ro (v_s v)) && has (v_mask v) T_UMOUNT then RedVolTransact o else fpure (pret tt))
         (fun _ => fpure (pmod (vset_mnt false))) v.

(** The common body of the modifying operations, see FsVolume.v *)
Definition autocommit {A} (ev : N) (m : MF st A) (o1 o2 : oracle) : FPV A :=
  fguard (fpbind
    (fpcatch (fcore m) (fun r v =>
      match r with
      | Err ENOSPC => if has (v_mask v) T_VOLFULL && (0 <? s_afree (v_s v))
                      then fpbind (RedVolTransact o1) (fun _ => fcore m) v else fpure (pfail ENOSPC) v
      | Err e => fpure (pfail e) v
      | Ok a => fpure (pret a) v
      end))
    (fun a v => if has (v_mask v) ev then fpbind (RedVolTransact o2) (fun _ => fpure (pret a)) v else fpure (pret a) v)).
(** core.c:611-668 *)
Definition RedCoreCreate p nm (dir : bool) := autocommit (if dir then T_MKDIR else T_CREAT) (FltCore.CoreCreate g p nm dir).
(** core.c:786-824 *)
Definition RedCoreLink p nm i := autocommit T_LINK (FltCore.CoreLink g p nm i).
(** core.c:965-1003 *)
Definition RedCoreUnlink p nm := autocommit T_UNLINK (FltCore.CoreUnlink g p nm).
(** core.c:1218-1258 *)
Definition RedCoreRename sp sn dp dn := autocommit T_RENAME (FltCore.CoreRename g sp sn dp dn).
(** core.c:1596-1635 *)
Definition RedCoreFileWrite i start len src := autocommit T_WRITE (FltCore.CoreFileWrite g i start len src).
(** core.c:1714-1752 *)
Definition RedCoreFileTruncate i size := autocommit T_TRUNCATE (FltCore.CoreFileTruncate g i size).
(** core.c:1130, 1403, 1520, 1833, 1889 *)
Definition mounted {A} (m : MF st A) : FPV A := fun v r v' t =>
  if negb (v_mnt v) then r = Err EINVAL /\ v' = v /\ t = [] else fcore m v r v' t.

Definition fomap {A} (f : A -> out) (m : FPV A) : FPV out := fpbind m (fun a => fpure (pret (f a))).
Definition founit (m : FPV unit) : FPV out := fomap (fun _ => OUnit) m.
(** As FsVolume.exec *)
Definition execF (c : call) (o1 o2 : oracle) : FPV out :=
  match c with
  | CCreate p nm dir => fomap ONum (RedCoreCreate p nm dir o1 o2)
  | CLink p nm i => founit (RedCoreLink p nm i o1 o2)
  | CUnlink p nm => founit (RedCoreUnlink p nm o1 o2)
  | CRename sp sn dp dn => founit (RedCoreRename sp sn dp dn o1 o2)
  | CWrite i start len src => fomap ONum (RedCoreFileWrite i start len src o1 o2)
  | CTruncate i size => founit (RedCoreFileTruncate i size o1 o2)
  | CLookup p nm => fomap ONum (mounted (FltCore.CoreLookup g p nm))
  | CStat i => fomap OStat (mounted (FltCore.CoreStat g i))
  | CRead i start len => fomap ORead (mounted (FltCore.CoreFileRead g i start len))
  | CDirRead i pos => fomap OEnt (mounted (FltCore.CoreDirRead g i pos))
  | CDirParent i => fomap ONum (mounted (FltCore.CoreDirParent g i))
  | CTransact => founit (RedCoreVolTransact o1)
  | CRollback => founit RedCoreVolRollback
  | CMaskSet m => fpure (ounit (RedCoreTransMaskSet TRANSACT_MASK m))
  | CMaskGet => fpure (omap ONum RedCoreTransMaskGet)
  | CVolStat => fpure (omap OVStat (RedCoreVolStat g))
  | CMount flags => founit (RedCoreVolMount flags)
  | CUnmount => founit (RedCoreVolUnmount o1)
  | CFormat => founit (RedVolFormat o1 o2)
  end.

(** A mount finds the same master block and the same metaroot as it would find after a power loss. *)
Definition stable (d : dev) : Prop := d_mst d = d_mstd d /\ (d_mst d = None \/ choose atom (d_mr d) = choose atom (d_mrd d)).
End Volume.
