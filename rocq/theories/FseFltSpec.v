(** Specification of a volume used through the FSE API on a device that may fail: the machine of FseSpec.v, in which a
    call may also be ended by a device failure.  Independent of the model of the code. *)
From Verif Require Import Base FsMach FseSpec.

(** What the media may hold after a failed format: what it held before, nothing, or files of length zero. *)
Definition freformat (icnt : N) (P : option ffs -> Prop) : option ffs -> Prop := fun Y => P Y \/ Y = None \/ Y = Some (Fnew icnt).
(** [FUp a]: no unresolved failure.  [FRo W C mask]: mounted, but read-only because a device failure ended a call that
    reads.  [FDown P mask]: mounted, but read-only because a device failure ended a call that writes; the media holds one
    of the states of P.  [FOff P mask]: not mounted, and the media holds one of the states of P (None: no file
    system); unmounted from [FDown], or formatting failed. *)
Inductive fxst := FUp (a : fast) | FRo (W C : ffs) (mask : N) | FDown (P : ffs -> Prop) (mask : N) | FOff (P : option ffs -> Prop) (mask : N).

Section Mach.
Variable szmax icnt : N.
Variable TRANSACT_MASK TRANSACT_DEFAULT : N.
Notation fastep := (fastep szmax icnt TRANSACT_MASK TRANSACT_DEFAULT).

(** The committed states possible after losing power during the call c. *)
Definition fpower_loss (a : fast) (c : fcall) (X : ffs) : Prop := fastep a (FECrash (Some c)) (FU (Some X) TRANSACT_DEFAULT).
Definition fwrites (c : fcall) : Prop := fmodifies c = true \/ c = FTransact \/ c = FRollback \/ c = FUnmount.
(** Results on a volume that is mounted read-only, apart from calls that read and unmounting. *)
Definition ro_result (mask : N) (c : fcall) (r : res fout) : Prop :=
  match c with
  | FWrite _ _ len _ => r = Err (if INT32_MAX <? len then EINVAL else EROFS)
  | FTruncate _ _ | FTransact | FRollback => r = Err EROFS
  | FMaskSet m => r = Err (if N.land m TRANSACT_MASK =? m then EROFS else EINVAL)
  | FMaskGet => r = Ok (FNum mask)
  | FMount => r = Ok FUnit
  | FFormat => r = Err EBUSY
  | FRead _ _ _ | FSizeGet _ | FUnmount => False
  end.

Inductive fxstep : fxst -> fevent -> fxst -> Prop :=
(* no failure *)
| FX_ok a e a' : fastep a e a' -> fxstep (FUp a) e (FUp a')
(* a failure during a call that writes: afterwards the media is as after a power loss during that call *)
| FX_fail W C mask c : fwrites c ->
    fxstep (FUp (FM W C mask)) (FECall c (Err EIO)) (FDown (fpower_loss (FM W C mask) c) mask)
(* a failure during a call that reads: the volume becomes read-only, nothing is lost *)
| FX_read W C mask c : freads c = true -> fxstep (FUp (FM W C mask)) (FECall c (Err EIO)) (FRo W C mask)
| FX_mount C mask : fxstep (FUp (FU C mask)) (FECall FMount (Err EIO)) (FUp (FU C mask))
| FX_format X mask e : fxstep (FUp (FU X mask)) (FECall FFormat (Err e)) (FOff (freformat icnt (eq X)) mask)
(* after a failing read *)
| FR_ro W C mask c r : ro_result mask c r -> fxstep (FRo W C mask) (FECall c r) (FRo W C mask)
| FR_read W C mask c r : freads c = true -> fread_ok c W r \/ r = Err EIO -> fxstep (FRo W C mask) (FECall c r) (FRo W C mask)
| FR_umount W C mask : fxstep (FRo W C mask) (FECall FUnmount (Ok FUnit)) (FUp (FU (Some C) mask))
| FR_crash W C mask c : fxstep (FRo W C mask) (FECrash c) (FUp (FU (Some C) TRANSACT_DEFAULT))
(* after a failing write *)
| FD_ro P mask c r : ro_result mask c r -> fxstep (FDown P mask) (FECall c r) (FDown P mask)
| FD_read P mask c r : freads c = true -> fxstep (FDown P mask) (FECall c r) (FDown P mask)
| FD_umount P mask : fxstep (FDown P mask) (FECall FUnmount (Ok FUnit)) (FOff (fun Y => exists X, P X /\ Y = Some X) mask)
| FD_crash (P : ffs -> Prop) mask c X : P X -> fxstep (FDown P mask) (FECrash c) (FUp (FU (Some X) TRANSACT_DEFAULT))
(* ... and unmounting *)
| FO_inv P mask c : fmodifies c = true \/ freads c = true \/ c = FTransact \/ c = FRollback \/ (exists m, c = FMaskSet m) \/ c = FMaskGet ->
    fxstep (FOff P mask) (FECall c (Err EINVAL)) (FOff P mask)
| FO_umount P mask : fxstep (FOff P mask) (FECall FUnmount (Ok FUnit)) (FOff P mask)
| FO_mount (P : option ffs -> Prop) mask X : P (Some X) -> fxstep (FOff P mask) (FECall FMount (Ok FUnit)) (FUp (FM X X mask))
| FO_mountio P mask : fxstep (FOff P mask) (FECall FMount (Err EIO)) (FOff P mask)
| FO_format P mask : fxstep (FOff P mask) (FECall FFormat (Ok FUnit)) (FUp (FU (Some (Fnew icnt)) mask))
| FO_formatio P mask e : fxstep (FOff P mask) (FECall FFormat (Err e)) (FOff (freformat icnt P) mask)
| FO_crash (P : option ffs -> Prop) mask c X : P X -> fxstep (FOff P mask) (FECrash c) (FUp (FU X TRANSACT_DEFAULT))
| FO_crashfmt P mask X : freformat icnt P X -> fxstep (FOff P mask) (FECrash (Some FFormat)) (FUp (FU X TRANSACT_DEFAULT)).

Inductive fxsteps : fxst -> list fevent -> fxst -> Prop :=
| FXs_nil x : fxsteps x [] x
| FXs_cons x e x1 t x2 : fxstep x e x1 -> fxsteps x1 t x2 -> fxsteps x (e :: t) x2.
End Mach.
