(** Model of os/linux/services/osbdev.c: RAM disks and file disks.  Two volumes never share a file. *)
From Verif Require Import Base OsDiskSpec.
From Coq Require Import List. Import ListNotations.
Open Scope N_scope.

(** osbdev.c:60-69 LINUXBDEV; [valid]: fd is not -1; the bytes of the file stand for pszSpec *)
Record disk := mkD { fOpen : bool; dmode : mode; type : kind; ram : option (N -> N); fil : hostfile; valid : bool; fIsBDev : bool }.
Definition upd {A} (w : N -> A) (v : N) (d : A) : N -> A := fun x => if x =? v then d else w x.
Definition EINVAL : Z := -22. Definition EIO : Z := -5. Definition ENOTSUPP : Z := -524.
Definition u32 (n : N) : N := n mod 4294967296. Definition u64 (n : N) : N := n mod 18446744073709551616.
Definition SSIZE_MAX : N := 9223372036854775807.

Section OsDisk.
Variable NV : N.                 (* REDCONF_VOLUME_COUNT *)
Variables ssize soff limit : N -> N. (* ulSectorSize (of gaRedBdevInfo; RedBDevOpen checks that one configured is the same), ullSectorOffset, VOLUME_SECTOR_LIMIT *)
Variable auto : N -> bool.       (* SECTOR_SIZE_AUTO or SECTOR_COUNT_AUTO *)

(** redmacs.h:200-202 VOLUME_SECTOR_RANGE_IS_VALID *)
Definition range_valid (v start count : N) : bool := (soff v <=? start) && (count <=? u64 (limit v + 18446744073709551616 - start)).
(** osbdev.c:642-655 RamDiskRead *)
Definition RamDiskRead (v start count : N) (buf : N -> N) (d : disk) : Z * (N -> N) :=
  let off := u64 (start * ssize v) in
  let n := u32 (count * ssize v) in
  (0%Z, fun i => if i <? n then match ram d with Some m => m (off + i) | None => 0 end else buf i).
(** osbdev.c:673-685 RamDiskWrite *)
Definition RamDiskWrite (v start count : N) (buf : N -> N) (d : disk) : Z * disk :=
  let off := u64 (start * ssize v) in
  let n := u32 (count * ssize v) in
  let m := fun a => if (off <=? a) && (a <? off + n) then buf (a - off) else match ram d with Some m => m a | None => 0 end in
  (0%Z, mkD (fOpen d) (dmode d) (type d) (Some m) (fil d) (valid d) (fIsBDev d)).
(** osbdev.c:920-955 FileDiskRead; lseek and read of the host *)
Definition FileDiskRead (v start count : N) (buf : N -> N) (h : moved) (d : disk) : Z * (N -> N) :=
  if SSIZE_MAX <? ssize v * count then (EINVAL, buf) else
  match valid d, h with
  | true, HMoved k =>
    let off := u64 (start * ssize v) in
    let readlen := u32 (ssize v * count) in
    let n := N.min k (N.min readlen (f_size (fil d) - off)) in
    (if n =? readlen then 0%Z else EIO, fun i => if i <? n then f_data (fil d) (off + i) else buf i)
  | _, _ => (EIO, buf)
  end.
(** osbdev.c:973-1008 FileDiskWrite; lseek and write of the host *)
Definition FileDiskWrite (v start count : N) (buf : N -> N) (h : moved) (d : disk) : Z * disk :=
  if SSIZE_MAX <? ssize v * count then (EINVAL, d) else
  match valid d, h with
  | true, HMoved k =>
    let off := u64 (start * ssize v) in
    let writelen := u32 (ssize v * count) in
    let n := N.min k writelen in
    let f := mkF (if n =? 0 then f_size (fil d) else N.max (f_size (fil d)) (off + n))
                 (fun a => if (off <=? a) && (a <? off + n) then buf (a - off) else f_data (fil d) a) in
    (if n =? writelen then 0%Z else EIO, mkD (fOpen d) (dmode d) (type d) (ram d) f (valid d) (fIsBDev d))
  | _, _ => (EIO, d)
  end.
(** osbdev.c:707-713 RamDiskFlush, 1021-1046 FileDiskFlush *)
Definition disk_flush (h : bool) (d : disk) : Z :=
  match type d with RamDisk => 0%Z | FileDisk => if fIsBDev d then if h && valid d then 0%Z else EIO else 0%Z end.
(** osbdev.c:514-560 RamDiskOpen (h: calloc succeeds), 729-787 FileDiskOpen (h: stat64 and open succeed) *)
Definition disk_open (v : N) (m : mode) (h : bool) (d : disk) : Z * disk :=
  match type d with
  | RamDisk =>
    if auto v then (ENOTSUPP, d) else if 0 <? soff v then (EINVAL, d) else
    match ram d with
    | Some _ => (0%Z, d)
    | None => if h then (0%Z, mkD (fOpen d) (dmode d) (type d) (Some (fun _ => 0)) (fil d) (valid d) (fIsBDev d)) else (EIO, d)
    end
  | FileDisk => (if h then 0%Z else EIO, mkD (fOpen d) (dmode d) (type d) (ram d) (fil d) h (fIsBDev d))
  end.
(** osbdev.c:586-597 RamDiskClose, 799-825 FileDiskClose *)
Definition disk_close (hflush hclose : bool) (d : disk) : Z * disk :=
  match type d with
  | RamDisk => (0%Z, d)
  | FileDisk =>
    let ret := match dmode d with RDONLY => 0%Z | _ => disk_flush hflush d end in
    if (ret =? 0)%Z then (if hclose && valid d then 0%Z else EIO, mkD (fOpen d) (dmode d) (type d) (ram d) (fil d) false (fIsBDev d)) else (ret, d)
  end.

Definition nobuf : N -> N := fun _ => 0.
(** osbdev.c:110-139 RedOsBDevConfig, 164-199 RedOsBDevOpen, 223-258 RedOsBDevClose, 341-377 RedOsBDevRead, 400-440 RedOsBDevWrite,
    460-489 RedOsBDevFlush; pBuffer is not NULL *)
Definition exec (c : call) (w : N -> disk) : (N -> disk) * answer :=
  match c with
  | Config v ty f isdev name_ok =>
    if (NV <=? v) || fOpen (w v) || negb name_ok then (w, mkA EINVAL nobuf)
    else (upd w v (mkD false RDWR ty None f true isdev), mkA 0 nobuf)
  | Open v m h =>
    if (NV <=? v) || fOpen (w v) then (w, mkA EINVAL nobuf) else
    let '(ret, d) := disk_open v m h (w v) in
    (upd w v (if (ret =? 0)%Z then mkD true m (type d) (ram d) (fil d) (valid d) (fIsBDev d) else d), mkA ret nobuf)
  | Close v h1 h2 =>
    if (NV <=? v) || negb (fOpen (w v)) then (w, mkA EINVAL nobuf) else
    let '(ret, d) := disk_close h1 h2 (w v) in
    (upd w v (if (ret =? 0)%Z then mkD false (dmode d) (type d) (ram d) (fil d) (valid d) (fIsBDev d) else d), mkA ret nobuf)
  | Read v start count buf h =>
    if (NV <=? v) || negb (fOpen (w v)) || (match dmode (w v) with WRONLY => true | _ => false end) || negb (range_valid v start count) then (w, mkA EINVAL buf) else
    let '(ret, b) := match type (w v) with RamDisk => RamDiskRead v start count buf (w v) | FileDisk => FileDiskRead v start count buf h (w v) end in
    (w, mkA ret b)
  | Write v start count buf h =>
    if (NV <=? v) || negb (fOpen (w v)) || (match dmode (w v) with RDONLY => true | _ => false end) || negb (range_valid v start count) then (w, mkA EINVAL nobuf) else
    let '(ret, d) := match type (w v) with RamDisk => RamDiskWrite v start count buf (w v) | FileDisk => FileDiskWrite v start count buf h (w v) end in
    (upd w v d, mkA ret nobuf)
  | Flush v h =>
    if (NV <=? v) || negb (fOpen (w v)) || (match dmode (w v) with RDONLY => true | _ => false end) then (w, mkA EINVAL nobuf)
    else (w, mkA (disk_flush h (w v)) nobuf)
  end.
Fixpoint run (cs : list call) (w : N -> disk) : list (call * answer) :=
  match cs with [] => [] | c :: r => let '(w, a) := exec c w in (c, a) :: run r w end.
(** osbdev.c:89 gaDisk when the program starts *)
Definition gaDisk : N -> disk := fun _ => mkD false RDWR RamDisk None (mkF 0 (fun _ => 0)) false false.
End OsDisk.
