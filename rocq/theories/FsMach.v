(** Specification of a whole volume as seen through the API: the working state a task reads and
    modifies, the committed state that survives a power loss, and the effect of every call on both.
    Independent of the model of the code. *)
From Verif Require Import Base Count FsDir FsSpec.

(** The calls of the core API and their results. *)
Inductive call :=
| CCreate (p : N) (nm : name) (dir : bool) | CLink (p : N) (nm : name) (i : N) | CUnlink (p : N) (nm : name)
| CRename (sp : N) (sn : name) (dp : N) (dn : name) | CWrite (i start len : N) (src : N -> N) | CTruncate (i size : N)
| CLookup (p : N) (nm : name) | CStat (i : N) | CRead (i start len : N) | CDirRead (i pos : N) | CDirParent (i : N)
| CTransact | CRollback | CMaskSet (m : N) | CMaskGet | CVolStat | CMount (flags : N) | CUnmount | CFormat.
(** [OStat (directory?, links, size, blocks)]; [ORead (count, bytes)]; [OEnt (entry, next position)];
    [OVStat (free blocks, free inodes, read-only?)]. *)
Inductive out :=
| OUnit | ONum (n : N) | OStat (x : bool * N * N * N) | ORead (x : N * (N -> N)) | OEnt (x : option (name * N) * N) | OVStat (x : N * N * bool).

(** include/redapimacs.h:33-43, 70-103 *)
Definition RED_MOUNT_READONLY : N := 1.
Definition T_UMOUNT : N := 1.
Definition T_CREAT : N := 2.
Definition T_UNLINK : N := 4.
Definition T_MKDIR : N := 8.
Definition T_RENAME : N := 16.
Definition T_LINK : N := 32.
Definition T_WRITE : N := 128.
Definition T_TRUNCATE : N := 512.
Definition T_VOLFULL : N := 1024.
Definition has (mask bit : N) : bool := negb (N.land mask bit =? 0).

(** The bit of the transaction mask that asks for a transaction point after the call. *)
Definition evbit (c : call) : N :=
  match c with
  | CCreate _ _ dir => if dir then T_MKDIR else T_CREAT | CLink _ _ _ => T_LINK | CUnlink _ _ => T_UNLINK
  | CRename _ _ _ _ => T_RENAME | CWrite _ _ _ _ => T_WRITE | CTruncate _ _ => T_TRUNCATE | CUnmount => T_UMOUNT | _ => 0
  end.
Definition modifies (c : call) : bool :=
  match c with CCreate _ _ _ | CLink _ _ _ | CUnlink _ _ | CRename _ _ _ _ | CWrite _ _ _ _ | CTruncate _ _ => true | _ => false end.
Definition reads (c : call) : bool :=
  match c with CLookup _ _ | CStat _ | CRead _ _ _ | CDirRead _ _ | CDirParent _ => true | _ => false end.

Section Mach.
Variable nmax szmax icnt : N.   (* longest name, largest file, number of inodes *)
Variable MOUNT_MASK TRANSACT_MASK TRANSACT_DEFAULT : N.

(** * Modifying calls: effect on the working state *)
Definition op_ok (c : call) (r : out) (W W' : fs) : Prop :=
  match c with
  | CCreate p nm dir => exists i, r = ONum i /\ ROOT <= i < ROOT + icnt /\ 0 < nlen nm <= nmax /\ isdots nm = false /\ op_create W p nm dir i W'
  | CLink p nm i => r = OUnit /\ 0 < nlen nm <= nmax /\ isdots nm = false /\ op_link W p nm i W'
  | CUnlink p nm => r = OUnit /\ op_unlink W p nm W'
  | CRename sp sn dp dn => r = OUnit /\ op_rename W sp sn dp dn W'
  | CWrite i start len src => exists n, r = ONum n /\
      if len =? 0 then n = 0 /\ W' = W /\ isfile W i /\ start <= szmax
      else 0 < n <= N.min len (szmax - start) /\ op_write W i start n src W'
  | CTruncate i size => r = OUnit /\ size <= szmax /\ op_truncate W i size W'
  | _ => False
  end.
Definition not_file (F : fs) (i : N) (e : errno) : Prop := e = EBADF /\ F i = None \/ e = EISDIR /\ isdir F i.
Definition no_entry (F : fs) (p : N) (nm : name) (e : errno) : Prop := e = ENOENT /\ isdir F p /\ forall i, ~ named F p nm i.
(** ... and the errors, which leave it unchanged.  [ENOSPC] is always possible here; C24 says when it can occur. *)
Definition op_err (c : call) (W : fs) (e : errno) : Prop :=
  e = ENOSPC \/
  match c with
  | CCreate p nm _ => bad_dir W p e \/ bad_name nmax nm e \/ e = EINVAL /\ isdots nm = true \/ e = EEXIST /\ (exists j, named W p nm j) \/
      e = ENFILE /\ forall i, ROOT <= i < ROOT + icnt -> W i <> None
  | CLink p nm i => bad_dir W p e \/ bad_name nmax nm e \/ e = EINVAL /\ isdots nm = true \/ e = EEXIST /\ (exists j, named W p nm j) \/
      e = EBADF /\ W i = None \/ e = EPERM /\ isdir W i \/ e = EMLINK /\ (exists sz b, W i = Some (AFile 65535 sz b))
  | CUnlink p nm => bad_dir W p e \/ bad_name nmax nm e \/ no_entry W p nm e \/
      e = ENOTEMPTY /\ (exists i, named W p nm i /\ isdir W i /\ ~ empty_dir W i)
  | CRename sp sn dp dn => bad_dir W sp e \/ bad_dir W dp e \/ bad_name nmax sn e \/ bad_name nmax dn e \/ e = EINVAL /\ isdots dn = true \/
      no_entry W sp sn e \/
      e = ENOTDIR /\ (exists i j, named W sp sn i /\ named W dp dn j /\ isdir W i /\ isfile W j) \/
      e = EISDIR /\ (exists i j, named W sp sn i /\ named W dp dn j /\ isfile W i /\ isdir W j) \/
      e = ENOTEMPTY /\ (exists i j, named W sp sn i /\ named W dp dn j /\ isdir W i /\ isdir W j /\ ~ empty_dir W j) \/
      e = EINVAL /\ (exists i, named W sp sn i /\ isdir W i /\ Below W i dp)
  | CWrite i start len _ => not_file W i e \/ e = EFBIG /\ (szmax < start \/ szmax = start /\ 0 < len)
  | CTruncate i size => not_file W i e \/ e = EFBIG /\ szmax < size
  | _ => False
  end.

(** * Reading calls *)
Definition read_ok (c : call) (W : fs) (r : res out) : Prop :=
  match c with
  | CLookup p nm =>
    match r with
    | Ok (ONum i) => named W p nm i
    | Err e => bad_dir W p e \/ bad_name nmax nm e \/ no_entry W p nm e
    | _ => False
    end
  | CStat i =>
    match r with
    | Ok (OStat (d, nl, sz, _)) => d = true /\ nl = 1 /\ isdir W i \/ d = false /\ exists b, W i = Some (AFile nl sz b)
    | Err e => e = EBADF /\ W i = None
    | _ => False
    end
  | CRead i start len =>
    match r with
    | Ok (ORead (n, f)) => exists nl sz b, W i = Some (AFile nl sz b) /\ n = N.min len (sz - start) /\ forall x, x < n -> f x = b (start + x)
    | Err e => not_file W i e
    | _ => False
    end
  | CDirRead p k =>
    match r with
    | Ok (OEnt (Some (nm, i), k')) => exists l, k <= l /\ k' = l + 1 /\ entry W p l nm i /\ forall x nm' j, k <= x < l -> ~ entry W p x nm' j
    | Ok (OEnt (None, _)) => isdir W p /\ forall x nm' j, k <= x -> ~ entry W p x nm' j
    | Err e => bad_dir W p e
    | _ => False
    end
  | CDirParent i =>
    match r with
    | Ok (ONum p) => i = ROOT /\ p = 0 \/ i <> ROOT /\ exists sl, W i = Some (ADir p sl)
    | Err e => bad_dir W i e
    | _ => False
    end
  | _ => False
  end.

(** * The volume *)
(** Mounted with working state W, committed state C, read-only?, transaction mask; or unmounted with
    the committed state, [None] if the media holds no complete file system. *)
Inductive ast := Mnt (W C : fs) (ro : bool) (mask : N) | Umt (C : option fs) (mask : N).
(** A call that returned a result, or a power loss between calls or during a call. *)
Inductive event := ECall (c : call) (r : res out) | ECrash (c : option call).

(** An empty file system: only a root directory without entries. *)
Definition Fempty : fs := upd (fun _ => None) ROOT (Some (ADir 0 (fun _ => None))).
Definition free_inodes (W : fs) : N := count (fun i => match W i with None => true | _ => false end) ROOT (ROOT + icnt).

(** Automatic transaction before the retry of a call that ran out of space. *)
Definition retry (mask : N) (W C C' : fs) : Prop := C' = C \/ has mask T_VOLFULL = true /\ C' = W.

Inductive astep : ast -> event -> ast -> Prop :=
(* modifying calls *)
| A_ok W C mask c r W' C1 : modifies c = true -> op_ok c r W W' -> retry mask W C C1 ->
    astep (Mnt W C false mask) (ECall c (Ok r)) (Mnt W' (if has mask (evbit c) then W' else C1) false mask)
| A_err W C mask c e C1 : modifies c = true -> op_err c W e -> retry mask W C C1 ->
    astep (Mnt W C false mask) (ECall c (Err e)) (Mnt W C1 false mask)
| A_ro W C mask c : modifies c = true -> astep (Mnt W C true mask) (ECall c (Err EROFS)) (Mnt W C true mask)
| A_read W C ro mask c r : reads c = true -> read_ok c W r -> astep (Mnt W C ro mask) (ECall c r) (Mnt W C ro mask)
| A_umt C mask c : modifies c = true \/ reads c = true \/ c = CTransact \/ c = CRollback \/ (exists m, c = CMaskSet m) \/ c = CMaskGet \/ c = CVolStat ->
    astep (Umt C mask) (ECall c (Err EINVAL)) (Umt C mask)
(* explicit transaction point and rollback *)
| A_transact W C mask : astep (Mnt W C false mask) (ECall CTransact (Ok OUnit)) (Mnt W W false mask)
| A_rollback W C mask : astep (Mnt W C false mask) (ECall CRollback (Ok OUnit)) (Mnt C C false mask)
| A_troro W C mask c : c = CTransact \/ c = CRollback -> astep (Mnt W C true mask) (ECall c (Err EROFS)) (Mnt W C true mask)
(* transaction mask *)
| A_maskset W C mask m : N.land m TRANSACT_MASK = m -> astep (Mnt W C false mask) (ECall (CMaskSet m) (Ok OUnit)) (Mnt W C false m)
| A_maskro W C mask m : N.land m TRANSACT_MASK = m -> astep (Mnt W C true mask) (ECall (CMaskSet m) (Err EROFS)) (Mnt W C true mask)
| A_maskinv W C ro mask m : N.land m TRANSACT_MASK <> m -> astep (Mnt W C ro mask) (ECall (CMaskSet m) (Err EINVAL)) (Mnt W C ro mask)
| A_maskget W C ro mask : astep (Mnt W C ro mask) (ECall CMaskGet (Ok (ONum mask))) (Mnt W C ro mask)
(* statvfs *)
| A_vstat W C ro mask nb : astep (Mnt W C ro mask) (ECall CVolStat (Ok (OVStat (nb, free_inodes W, ro)))) (Mnt W C ro mask)
(* mount, unmount, format *)
| A_mount C mask flags : N.land flags MOUNT_MASK = flags ->
    astep (Umt (Some C) mask) (ECall (CMount flags) (Ok OUnit)) (Mnt C C (negb (N.land flags RED_MOUNT_READONLY =? 0)) mask)
| A_mountinv C mask flags : N.land flags MOUNT_MASK <> flags -> astep (Umt C mask) (ECall (CMount flags) (Err EINVAL)) (Umt C mask)
| A_mountblank mask flags : N.land flags MOUNT_MASK = flags -> astep (Umt None mask) (ECall (CMount flags) (Err EIO)) (Umt None mask)
| A_umount W C ro mask : astep (Mnt W C ro mask) (ECall CUnmount (Ok OUnit)) (Umt (Some (if negb ro && has mask T_UMOUNT then W else C)) mask)
| A_format C mask : astep (Umt C mask) (ECall CFormat (Ok OUnit)) (Umt (Some Fempty) mask)
| A_formatbusy W C ro mask : astep (Mnt W C ro mask) (ECall CFormat (Err EBUSY)) (Mnt W C ro mask)
(* power loss between calls: the committed state remains *)
| A_lost W C ro mask : astep (Mnt W C ro mask) (ECrash None) (Umt (Some C) TRANSACT_DEFAULT)
| A_lostumt C mask : astep (Umt C mask) (ECrash None) (Umt C TRANSACT_DEFAULT)
(* power loss during a call: the committed state before, or one of those the call commits *)
| A_crash W C ro mask c X : X = C \/
    ro = false /\ (modifies c = true /\ (retry mask W C X \/ has mask (evbit c) = true /\ exists r, op_ok c r W X) \/
                   c = CTransact /\ X = W \/ c = CUnmount /\ has mask T_UMOUNT = true /\ X = W) ->
    astep (Mnt W C ro mask) (ECrash (Some c)) (Umt (Some X) TRANSACT_DEFAULT)
| A_crashumt C mask c X : X = C \/ c = CFormat /\ (X = None \/ X = Some Fempty) -> astep (Umt C mask) (ECrash (Some c)) (Umt X TRANSACT_DEFAULT).

Inductive asteps : ast -> list event -> ast -> Prop :=
| As_nil a : asteps a [] a
| As_cons a e a1 t a2 : astep a e a1 -> asteps a1 t a2 -> asteps a (e :: t) a2.
End Mach.
