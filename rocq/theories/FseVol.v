(** Model of fse/fse.c and of the parts of the core that are compiled differently with REDCONF_API_FSE == 1, for one
    volume. *)
From Verif Require Import Base FsState FsImap FsInode FsData FsCore FsMach FsVolume FseSpec.

Section Fse.
Variable g : cfg.
Variable atom : bool.
Variable MOUNT_MASK TRANSACT_MASK TRANSACT_DEFAULT : N.

(** inode.c:195-323 RedInodeCreate with REDCONF_API_POSIX == 0: a specific inode number, no parent.  With this API
    an inode has no link count and no parent, and the metaroot has no ulFreeInodes: their values in the model (1, 0
    and the count) are never used.  All inodes are files (inode.c:130-160: a mode that is not RED_S_IFREG is a critical
    error), so FTYPE_FILE in the model's RedInodeMount is the same check. *)
Definition FseInodeCreate (ino : N) : M st cin :=
  i <- (if INODE_IS_VALID g ino then
          f <- RedInodeIsFree g ino ;; (if f : bool then ret ino else fail EEXIST)
        else fail EBADF) ;;
  w <- InodeGetWriteableCopy g i ;;
  (let nb := InodeBlock g i w in
   modify (dk_write nb (BInode inode0)) ;;;
   InodeBitSet g i w true ;;;
   (let io := mkInode 0 0 false 1 INODE_INVALID (fun _ => 0) in
    modify (dk_write nb (BInode io)) ;;;
    modify (fun s => set_w (mset_freei (m_freei (s_w s) - 1) (s_w s)) s) ;;;
    ret (cset_buf i true nb io true true false (cin0 i)))).
(** format.c:160-181: the inodes INODE_FIRST_FREE (redcoremacs.h:67), ... are created; an error does not end the loop, the
    result is that of the last one. *)
Fixpoint FseMakeLoop (n : nat) (ino : N) (r : res unit) : M st unit :=
  match n with
  | O => lift_res r
  | S n => r' <- attempt (_ <- FseInodeCreate ino ;; ret tt) ;; FseMakeLoop n (ino + 1) r'
  end.
Definition FseMake : M st unit := FseMakeLoop (N.to_nat (ICNT g)) 2 (Ok tt).

(** core.c:1464-1489 RedCoreFileSizeGet *)
Definition CoreFileSizeGet (ino : N) : M st N :=
  c <- RedInodeMount g ino FTYPE_FILE false ;; ret (i_size (c_i c)).

(** redapimacs.h:47-53 *)
Definition RED_MOUNT_DISCARD : N := 2.
Definition MOUNT_DEFAULT : N := N.land RED_MOUNT_DISCARD MOUNT_MASK.

Definition fmap_ {A} (f : A -> fout) (m : PV A) : PV fout := pbind m (fun a => pret (f a)).
Definition fexec (c : fcall) (o1 o2 : oracle) : PV fout :=
  match c with
  (* fse.c:165-183 RedFseMount *)
  | FMount => fun v => if negb (v_mnt v) then fmap_ (fun _ => FUnit) (RedCoreVolMount atom MOUNT_MASK MOUNT_DEFAULT) v else pret FUnit v
  (* fse.c:215-233 RedFseUnmount *)
  | FUnmount => fun v => if v_mnt v then fmap_ (fun _ => FUnit) (RedCoreVolUnmount o1) v else pret FUnit v
  (* fse.c:254-269 RedFseFormat *)
  | FFormat => fmap_ (fun _ => FUnit) (RedVolFormatWith g FseMake o1 o2)
  (* fse.c:301-334 RedFseRead *)
  | FRead i off len => if INT32_MAX <? len then pfail EINVAL else fmap_ (fun x => FData (fst x) (snd x)) (RedCoreFileRead g i off len)
  (* fse.c:376-409 RedFseWrite *)
  | FWrite i off len src => if INT32_MAX <? len then pfail EINVAL else fmap_ FNum (RedCoreFileWrite g i off len src o1 o2)
  (* fse.c:443-460 RedFseTruncate *)
  | FTruncate i size => fmap_ (fun _ => FUnit) (RedCoreFileTruncate g i size o1 o2)
  (* fse.c:477-506 RedFseSizeGet *)
  | FSizeGet i => fmap_ FNum (mounted (CoreFileSizeGet i))
  (* fse.c:538-554 RedFseTransMaskSet *)
  | FMaskSet m => fmap_ (fun _ => FUnit) (RedCoreTransMaskSet TRANSACT_MASK m)
  (* fse.c:575-591 RedFseTransMaskGet *)
  | FMaskGet => fmap_ FNum RedCoreTransMaskGet
  (* fse.c:615-630 RedFseTransact *)
  | FTransact => fmap_ (fun _ => FUnit) (RedCoreVolTransact o1)
  (* fse.c:652-667 RedFseRollback *)
  | FRollback => fmap_ (fun _ => FUnit) (RedCoreVolRollback atom)
  end.
End Fse.
