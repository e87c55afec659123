(** Specification of a volume on a device that may fail: the machine of FsMach.v, in which a call may also be ended by a
    device failure.  Independent of the model of the code. *)
From Verif Require Import Base FsDir FsSpec FsMach.

(** [Up a]: no unresolved failure.  [Down P mask]: mounted, but read-only because a device failure ended a modifying call;
    the media holds one of the file systems of P.  [Off P mask]: not mounted, and the media holds one of the states of P
    (None: no file system); unmounted from [Down], or formatting failed. *)
Inductive xst := Up (a : ast) | Down (P : fs -> Prop) (mask : N) | Off (P : option fs -> Prop) (mask : N).
(** What the media may hold after a failed format: what it held before, nothing, or an empty file system. *)
Definition reformat (P : option fs -> Prop) : option fs -> Prop := fun Y => P Y \/ Y = None \/ Y = Some Fempty.

Section Mach.
Variable nmax szmax icnt : N.
Variable MOUNT_MASK TRANSACT_MASK TRANSACT_DEFAULT : N.
Notation astep := (astep nmax szmax icnt MOUNT_MASK TRANSACT_MASK TRANSACT_DEFAULT).

(** The committed states possible after losing power during the call c. *)
Definition power_loss (a : ast) (c : call) (X : fs) : Prop := astep a (ECrash (Some c)) (Umt (Some X) TRANSACT_DEFAULT).
(** The error reported for a device failure.  A create that meets another error and then a device failure while it undoes
    its changes reports the first error. *)
Definition io_error (c : call) (e : errno) : Prop := e = EIO \/ exists p nm d, c = CCreate p nm d.

Inductive fastep : xst -> event -> xst -> Prop :=
(* no failure *)
| X_ok a e a' : astep a e a' -> fastep (Up a) e (Up a')
(* a failure during a call that writes: afterwards the media is as after a power loss during that call *)
| X_fail W C mask c e : modifies c = true \/ c = CTransact \/ c = CRollback \/ c = CUnmount -> io_error c e ->
    fastep (Up (Mnt W C false mask)) (ECall c (Err e)) (Down (power_loss (Mnt W C false mask) c) mask)
(* a failure during a call that reads: the volume becomes read-only, nothing is lost *)
| X_read W C ro mask c : reads c = true -> fastep (Up (Mnt W C ro mask)) (ECall c (Err EIO)) (Up (Mnt W C true mask))
| X_mount C mask flags : fastep (Up (Umt C mask)) (ECall (CMount flags) (Err EIO)) (Up (Umt C mask))
| X_format X mask : fastep (Up (Umt X mask)) (ECall CFormat (Err EIO)) (Off (reformat (eq X)) mask)
(* after a failure *)
| D_ro P mask c : modifies c = true \/ c = CTransact \/ c = CRollback -> fastep (Down P mask) (ECall c (Err EROFS)) (Down P mask)
| D_read P mask c r : reads c = true -> fastep (Down P mask) (ECall c r) (Down P mask)
| D_maskset P mask m : fastep (Down P mask) (ECall (CMaskSet m) (Err (if N.land m TRANSACT_MASK =? m then EROFS else EINVAL))) (Down P mask)
| D_maskget P mask : fastep (Down P mask) (ECall CMaskGet (Ok (ONum mask))) (Down P mask)
| D_vstat P mask nb ni : fastep (Down P mask) (ECall CVolStat (Ok (OVStat (nb, ni, true)))) (Down P mask)
| D_format P mask : fastep (Down P mask) (ECall CFormat (Err EBUSY)) (Down P mask)
| D_umount P mask : fastep (Down P mask) (ECall CUnmount (Ok OUnit)) (Off (fun Y => exists X, P X /\ Y = Some X) mask)
| D_crash (P : fs -> Prop) mask c X : P X -> fastep (Down P mask) (ECrash c) (Up (Umt (Some X) TRANSACT_DEFAULT))
(* ... and unmounting *)
| O_inv P mask c : modifies c = true \/ reads c = true \/ c = CTransact \/ c = CRollback \/ (exists m, c = CMaskSet m) \/ c = CMaskGet \/ c = CVolStat ->
    fastep (Off P mask) (ECall c (Err EINVAL)) (Off P mask)
| O_mount (P : option fs -> Prop) mask flags X : N.land flags MOUNT_MASK = flags -> P (Some X) ->
    fastep (Off P mask) (ECall (CMount flags) (Ok OUnit)) (Up (Mnt X X (negb (N.land flags RED_MOUNT_READONLY =? 0)) mask))
| O_mountinv P mask flags : N.land flags MOUNT_MASK <> flags -> fastep (Off P mask) (ECall (CMount flags) (Err EINVAL)) (Off P mask)
| O_mountio P mask flags : fastep (Off P mask) (ECall (CMount flags) (Err EIO)) (Off P mask)
| O_format P mask : fastep (Off P mask) (ECall CFormat (Ok OUnit)) (Up (Umt (Some Fempty) mask))
| O_formatio P mask : fastep (Off P mask) (ECall CFormat (Err EIO)) (Off (reformat P) mask)
| O_crash (P : option fs -> Prop) mask c X : P X -> fastep (Off P mask) (ECrash c) (Up (Umt X TRANSACT_DEFAULT))
| O_crashfmt P mask X : reformat P X -> fastep (Off P mask) (ECrash (Some CFormat)) (Up (Umt X TRANSACT_DEFAULT)).

Inductive fasteps : xst -> list event -> xst -> Prop :=
| Xs_nil x : fasteps x [] x
| Xs_cons x e x1 t x2 : fastep x e x1 -> fasteps x1 t x2 -> fasteps x (e :: t) x2.
End Mach.
