(** Specification of the File System Essentials (FSE) API: a volume is an array of files.  Independent of the
    model of the code. *)
From Verif Require Import Base FsMach.

(** File number -> size and bytes; [None]: there is no file with this number. *)
Definition ffs := N -> option (N * (N -> N)).
(** include/redfse.h:36-63; the volume number is handled in FseApi.v. *)
Inductive fcall :=
| FMount | FUnmount | FFormat | FRead (i off len : N) | FWrite (i off len : N) (src : N -> N) | FTruncate (i size : N) | FSizeGet (i : N)
| FMaskSet (m : N) | FMaskGet | FTransact | FRollback.
(** [FData n f]: n bytes were read, the bytes are f 0, ..., f (n - 1). *)
Inductive fout := FUnit | FNum (n : N) | FData (n : N) (f : N -> N).
Definition INT32_MAX : N := 2147483647.

(** The bit of the transaction mask that asks for a transaction point after the call. *)
Definition fevbit (c : fcall) : N := match c with FWrite _ _ _ _ => T_WRITE | FTruncate _ _ => T_TRUNCATE | _ => 0 end.
Definition fmodifies (c : fcall) : bool := match c with FWrite _ _ _ _ | FTruncate _ _ => true | _ => false end.
Definition freads (c : fcall) : bool := match c with FRead _ _ _ | FSizeGet _ => true | _ => false end.

Section Mach.
Variable szmax icnt : N.        (* largest file, number of files *)
Variable TRANSACT_MASK TRANSACT_DEFAULT : N.

Definition fsame (A B : ffs) : Prop := forall i, A i = B i.
(** File i gets size sz and bytes b, the others stay. *)
Definition fset (W : ffs) (i sz : N) (b : N -> N) (W' : ffs) : Prop := W' i = Some (sz, b) /\ forall j, j <> i -> W' j = W j.

(** * Modifying calls *)
Definition fmod_ok (c : fcall) (r : fout) (W W' : ffs) : Prop :=
  match c with
  | FWrite i off len src => exists n, r = FNum n /\ len <= INT32_MAX /\ exists sz b, W i = Some (sz, b) /\
      if len =? 0 then n = 0 /\ off <= szmax /\ fsame W' W
      else 0 < n <= N.min len (szmax - off) /\
           fset W i (N.max sz (off + n)) (fun x => if (off <=? x) && (x <? off + n) then src (x - off) else b x) W'
  | FTruncate i size => r = FUnit /\ size <= szmax /\ exists sz b, W i = Some (sz, b) /\ fset W i size (fun x => if x <? size then b x else 0) W'
  | _ => False
  end.
Definition fmod_err (c : fcall) (W : ffs) (e : errno) : Prop :=
  match c with
  | FWrite i off len _ =>
      e = EINVAL /\ INT32_MAX < len \/
      len <= INT32_MAX /\ (e = ENOSPC \/ e = EBADF /\ W i = None \/ e = EFBIG /\ (szmax < off \/ szmax = off /\ 0 < len))
  | FTruncate i size => e = ENOSPC \/ e = EBADF /\ W i = None \/ e = EFBIG /\ szmax < size
  | _ => False
  end.

(** * Reading calls *)
Definition fread_ok (c : fcall) (W : ffs) (r : res fout) : Prop :=
  match c with
  | FRead i off len =>
    match r with
    | Ok (FData n f) => len <= INT32_MAX /\ exists sz b, W i = Some (sz, b) /\ n = N.min len (sz - off) /\ forall x, x < n -> f x = b (off + x)
    | Err e => e = EINVAL /\ INT32_MAX < len \/ len <= INT32_MAX /\ e = EBADF /\ W i = None
    | _ => False
    end
  | FSizeGet i =>
    match r with
    | Ok (FNum n) => exists b, W i = Some (n, b)
    | Err e => e = EBADF /\ W i = None
    | _ => False
    end
  | _ => False
  end.

(** * The volume *)
(** Mounted with working state W, committed state C and transaction mask; or unmounted with the committed state,
    [None] if the media holds no complete file system. *)
Inductive fast := FM (W C : ffs) (mask : N) | FU (C : option ffs) (mask : N).
(** A call that returned a result, or a power loss between calls or during a call. *)
Inductive fevent := FECall (c : fcall) (r : res fout) | FECrash (c : option fcall).
(** After a format: files 2, ..., icnt + 1, all empty. *)
Definition Fnew : ffs := fun i => if (2 <=? i) && (i <? 2 + icnt) then Some (0, fun _ => 0) else None.
Definition fretry (mask : N) (W C C' : ffs) : Prop := C' = C \/ has mask T_VOLFULL = true /\ C' = W.

Inductive fastep : fast -> fevent -> fast -> Prop :=
| F_ok W C mask c r W' C1 : fmodifies c = true -> fmod_ok c r W W' -> fretry mask W C C1 ->
    fastep (FM W C mask) (FECall c (Ok r)) (FM W' (if has mask (fevbit c) then W' else C1) mask)
| F_err W C mask c e C1 : fmodifies c = true -> fmod_err c W e -> fretry mask W C C1 ->
    fastep (FM W C mask) (FECall c (Err e)) (FM W C1 mask)
| F_read W C mask c r : freads c = true -> fread_ok c W r -> fastep (FM W C mask) (FECall c r) (FM W C mask)
| F_transact W C mask : fastep (FM W C mask) (FECall FTransact (Ok FUnit)) (FM W W mask)
| F_rollback W C mask : fastep (FM W C mask) (FECall FRollback (Ok FUnit)) (FM C C mask)
| F_maskset W C mask m : N.land m TRANSACT_MASK = m -> fastep (FM W C mask) (FECall (FMaskSet m) (Ok FUnit)) (FM W C m)
| F_maskinv W C mask m : N.land m TRANSACT_MASK <> m -> fastep (FM W C mask) (FECall (FMaskSet m) (Err EINVAL)) (FM W C mask)
| F_maskget W C mask : fastep (FM W C mask) (FECall FMaskGet (Ok (FNum mask))) (FM W C mask)
(* everything else fails on an unmounted volume *)
| F_umt C mask c : fmodifies c = true \/ freads c = true \/ c = FTransact \/ c = FRollback \/ (exists m, c = FMaskSet m) \/ c = FMaskGet ->
    fastep (FU C mask) (FECall c (Err EINVAL)) (FU C mask)
(* mount, unmount, format; mounting a mounted volume and unmounting an unmounted one do nothing *)
| F_mount C mask : fastep (FU (Some C) mask) (FECall FMount (Ok FUnit)) (FM C C mask)
| F_mounted W C mask : fastep (FM W C mask) (FECall FMount (Ok FUnit)) (FM W C mask)
| F_mountblank mask : fastep (FU None mask) (FECall FMount (Err EIO)) (FU None mask)
| F_unmount W C mask : fastep (FM W C mask) (FECall FUnmount (Ok FUnit)) (FU (Some (if has mask T_UMOUNT then W else C)) mask)
| F_unmounted C mask : fastep (FU C mask) (FECall FUnmount (Ok FUnit)) (FU C mask)
| F_format C mask : fastep (FU C mask) (FECall FFormat (Ok FUnit)) (FU (Some Fnew) mask)
| F_formatbusy W C mask : fastep (FM W C mask) (FECall FFormat (Err EBUSY)) (FM W C mask)
(* power loss between calls: the committed state remains *)
| F_lost W C mask : fastep (FM W C mask) (FECrash None) (FU (Some C) TRANSACT_DEFAULT)
| F_lostumt C mask : fastep (FU C mask) (FECrash None) (FU C TRANSACT_DEFAULT)
(* power loss during a call: the committed state before, or one of those the call commits *)
| F_crash W C mask c X : X = C \/
    fmodifies c = true /\ (fretry mask W C X \/ has mask (fevbit c) = true /\ exists r, fmod_ok c r W X) \/
    c = FTransact /\ X = W \/ c = FUnmount /\ has mask T_UMOUNT = true /\ X = W ->
    fastep (FM W C mask) (FECrash (Some c)) (FU (Some X) TRANSACT_DEFAULT)
| F_crashumt C mask c X : X = C \/ c = FFormat /\ (X = None \/ X = Some Fnew) ->
    fastep (FU C mask) (FECrash (Some c)) (FU X TRANSACT_DEFAULT).
Inductive fasteps : fast -> list fevent -> fast -> Prop :=
| Fs_nil a : fasteps a [] a
| Fs_cons a e a1 t a2 : fastep a e a1 -> fasteps a1 t a2 -> fasteps a (e :: t) a2.
End Mach.
