(** FseVol.v with device failures, see FltMonad.v and FltVolume.v. *)
From Verif Require Import Base FsState FsImap FsInode FsData FsDir FsCore FsSpec FsMach FsVolume FseSpec FseVol.
From Verif Require Import FltMonad FltImap FltInode FltData FltDir FltVolume.
From Verif Require FltCore.

Section Fse.
Variable g : cfg.
Variable atom : bool.
Variable MOUNT_MASK TRANSACT_MASK TRANSACT_DEFAULT : N.

(** core.c:1464-1489 RedCoreFileSizeGet *)
Definition CoreFileSizeGet (ino : N) : MF st N :=
  (c <- FltInode.RedInodeMount g ino FTYPE_FILE false ;; ret (i_size (c_i c)))%flt.
(** inode.c:195-323 RedInodeCreate with REDCONF_API_POSIX == 0, see FseVol.v *)
Definition FseInodeCreate (ino : N) : MF st cin :=
  (i <- (if INODE_IS_VALID g ino then
          f <- FltInode.RedInodeIsFree g ino ;; (if f : bool then ret ino else fail EEXIST)
        else fail EBADF) ;;
  w <- FltInode.InodeGetWriteableCopy g i ;;
  (let nb := InodeBlock g i w in
   modify (dk_write nb (BInode inode0)) ;;;
   FltInode.InodeBitSet g i w true ;;;
   (let io := mkInode 0 0 false 1 INODE_INVALID (fun _ => 0) in
    modify (dk_write nb (BInode io)) ;;;
    modify (fun s => set_w (mset_freei (m_freei (s_w s) - 1) (s_w s)) s) ;;;
    ret (cset_buf i true nb io true true false (cin0 i)))))%flt.
(** format.c:160-181: an error does not end the loop, the result is that of the last inode. *)
Fixpoint FseMakeLoop (n : nat) (ino : N) (r : res unit) : MF st unit :=
  match n with
  | O => lift_res r
  | S n => (r' <- attempt (_ <- FseInodeCreate ino ;; ret tt) ;; FseMakeLoop n (ino + 1) r')%flt
  end.
Definition FseMake : MF st unit := FseMakeLoop (N.to_nat (ICNT g)) 2 (Ok tt).
Close Scope flt_scope.
Definition ffmap {A} (f : A -> fout) (m : FPV A) : FPV fout := fpbind m (fun a => fpure (pret (f a))).
(** As FseVol.fexec: fse.c:165-667. *)
Definition fexecF (c : fcall) (o1 o2 : oracle) : FPV fout :=
  match c with
  | FMount => fun v => if negb (v_mnt v) then ffmap (fun _ => FUnit) (FltVolume.RedCoreVolMount atom MOUNT_MASK (MOUNT_DEFAULT MOUNT_MASK)) v else fpure (pret FUnit) v
  | FUnmount => fun v => if v_mnt v then ffmap (fun _ => FUnit) (FltVolume.RedCoreVolUnmount atom o1) v else fpure (pret FUnit) v
  | FFormat => ffmap (fun _ => FUnit) (FltVolume.RedVolFormatWith g atom FseMake o1 o2)
  | FRead i off len => if INT32_MAX <? len then fpure (pfail EINVAL) else ffmap (fun x => FData (fst x) (snd x)) (FltVolume.mounted (FltCore.CoreFileRead g i off len))
  | FWrite i off len src => if INT32_MAX <? len then fpure (pfail EINVAL) else ffmap FNum (FltVolume.RedCoreFileWrite g atom i off len src o1 o2)
  | FTruncate i size => ffmap (fun _ => FUnit) (FltVolume.RedCoreFileTruncate g atom i size o1 o2)
  | FSizeGet i => ffmap FNum (FltVolume.mounted (CoreFileSizeGet i))
  | FMaskSet m => fpure (fmap_ (fun _ => FUnit) (RedCoreTransMaskSet TRANSACT_MASK m))
  | FMaskGet => fpure (fmap_ FNum RedCoreTransMaskGet)
  | FTransact => ffmap (fun _ => FUnit) (FltVolume.RedCoreVolTransact atom o1)
  | FRollback => ffmap (fun _ => FUnit) (FltVolume.RedCoreVolRollback atom)
  end.
End Fse.
