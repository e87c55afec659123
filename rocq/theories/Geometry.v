(** Model of the volume geometry: bdev/bdev.c RedBDevOpen, core/driver/volume.c
    RedVolInitGeometry, and the block number computations of the fixed metadata. *)
From Verif Require Import Base.

(** include/redmacs.h:72-75 *)
Definition SECTOR_SIZE_AUTO : N := 0.
Definition SECTOR_COUNT_AUTO : N := 0.
Definition SECTOR_SIZE_MIN : N := 128.
(** core/driver/volume.c:37 *)
Definition MINIMUM_METADATA_BLOCKS : N := 5.

(** The build and volume configuration: REDCONF_BLOCK_SIZE (redmacs.h:77-98), REDCONF_API_POSIX,
    REDCONF_IMAP_INLINE, REDCONF_IMAP_EXTERNAL (redconf.h), and the members of VOLCONF
    (include/redvolume.h) that concern the geometry. *)
Record vconf := mkVC {
  k_bs : N; k_posix : bool; k_inline : bool; k_extern : bool;
  k_ssize : N;      (* ulSectorSize, 0 = automatic *)
  k_scount : N;     (* ullSectorCount, 0 = automatic *)
  k_soff : N;       (* ullSectorOffset *)
  k_icount : N }.   (* ulInodeCount *)

(** include/redbdev.h BDEVINFO *)
Record bdevinfo := mkBI { bi_scount : N; bi_ssize : N }.

(** What a configuration is before any check: the C types, and REDCONF_BLOCK_SIZE one of the
    ten values of redmacs.h:77-98. *)
Record vconf_typed (k : vconf) : Prop := {
  ty_bs : exists p, 7 <= p <= 16 /\ k_bs k = 2 ^ p;
  ty_ssize : k_ssize k <= UINT32_MAX;
  ty_scount : k_scount k <= UINT64_MAX;
  ty_soff : k_soff k <= UINT64_MAX;
  ty_icount : k_icount k <= UINT32_MAX }.

(** core/include/rednodes.h:78-84 METAROOT_HEADER_SIZE (node header: 16 bytes, rednodes.h:33), METAROOT_ENTRIES *)
Definition METAROOT_ENTRIES (k : vconf) : N := (k_bs k - (if k_posix k then 32 else 28)) * 8.
(** core/include/rednodes.h:109-111 *)
Definition IMAPNODE_ENTRIES (k : vconf) : N := (k_bs k - 16) * 8.

(** Answer of RedOsBDevGetGeometry: the geometry of the media, -RED_ENOTSUPP, or another error. *)
Inductive geoans := GeoOk (i : bdevinfo) | GeoUnsupported | GeoErr (e : errno).

(** include/redmacs.h:174 VOLUME_SECTOR_LIMIT (64-bit addition) *)
Definition SECTOR_LIMIT (k : vconf) (i : bdevinfo) : N := u64 (k_soff k + bi_scount i).

(** bdev/bdev.c:57-158 RedBDevOpen, after RedOsBDevOpen succeeded; [a] is the answer of
    RedOsBDevGetGeometry.  The result is gaRedBdevInfo[]. *)
Definition RedBDevOpen (k : vconf) (a : geoans) : res bdevinfo :=
  if (k_scount k =? SECTOR_COUNT_AUTO) || (k_ssize k =? SECTOR_SIZE_AUTO) then
    match a with
    | GeoUnsupported => Err ENOSYS   (* -RED_ENOTSUPP *)
    | GeoErr e => Err e
    | GeoOk i =>
      if negb (k_scount k =? SECTOR_COUNT_AUTO) && negb (k_scount k =? bi_scount i) then Err EINVAL
      else if negb (k_ssize k =? SECTOR_COUNT_AUTO) && negb (k_ssize k =? bi_ssize i) then Err EINVAL
      else if bi_scount i <=? k_soff k then Err EINVAL
      else Ok (mkBI (bi_scount i - k_soff k) (bi_ssize i))
    end
  else
    let i0 := mkBI (k_scount k) (k_ssize k) in
    match a with
    | GeoOk i =>
      (* redmacs.h:179-194 VOLUME_SECTOR_GEOMETRY_IS_VALID *)
      if (bi_ssize i =? bi_ssize i0) && (SECTOR_LIMIT k i0 <=? bi_scount i) then Ok i0 else Err EINVAL
    | GeoUnsupported => Ok i0
    | GeoErr e => Err e
    end.

(** The geometry members of gaRedVolume[] and gaCoreVol[] (redvolume.h, redcorevol.h:34-56). *)
Record geom := mkGeom {
  ge_shift : N;      (* bBlockSectorShift *)
  ge_bc : N;         (* ulBlockCount *)
  ge_inline : bool;  (* fImapInline *)
  ge_imap : N;       (* ulImapStartBN *)
  ge_nodes : N;      (* ulImapNodeCount *)
  ge_itab : N;       (* ulInodeTableStartBN *)
  ge_fa : N;         (* ulFirstAllocableBN *)
  ge_alloc : N }.    (* ulBlocksAllocable *)

(** volume.c:80-84: the loop that computes bBlockSectorShift; [n] bounds the number of iterations,
    [None] would be non-termination. *)
Fixpoint shift_loop (n : nat) (ssize bs sh : N) : option N :=
  match n with
  | O => None
  | S m => if u32 (N.shiftl ssize sh) <? bs then shift_loop m ssize bs (u8 (sh + 1)) else Some sh
  end.

(** core/driver/volume.c:65-165 RedVolInitGeometry; core.c:104-108 refuses an inode count of 0 in
    RedCoreInit, before any volume is opened: that check is included here.  ge_imap and ge_nodes keep their initial 0
    with the inline imap. *)
Definition RedVolInitGeometry (k : vconf) (i : bdevinfo) : option (res geom) :=
  if k_icount k =? 0 then Some (Err EINVAL)
  else if (bi_ssize i <? SECTOR_SIZE_MIN) || negb (k_bs k mod bi_ssize i =? 0)
       || (UINT64_MAX - k_soff k <? bi_scount i) then Some (Err EINVAL)
  else
  match shift_loop 300 (bi_ssize i) (k_bs k) 0 with
  | None => None
  | Some sh =>
    let bc := u32 (N.shiftr (bi_scount i) sh) in
    if bc <? MINIMUM_METADATA_BLOCKS then Some (Err EINVAL)
    else
      let inl := bc - 3 <=? METAROOT_ENTRIES k in
      if (if inl then negb (k_inline k) else negb (k_extern k)) then Some (Err EINVAL)
      else
        let start := if inl then 0 else 3 in
        let nodes := if inl then 0 else u32 ((bc - 3) + (IMAPNODE_ENTRIES k + 2 - 1)) / (IMAPNODE_ENTRIES k + 2) in
        let itab := if inl then 3 else u32 (start + u32 (nodes * 2)) in
        let fa := u32 (itab + u32 (k_icount k * 2)) in
        if bc <? fa then Some (Err EINVAL)
        else Some (Ok (mkGeom sh bc inl start nodes itab fa (bc - fa)))
  end.

(** redcoremacs.h:24-26 BLOCK_NUM_MASTER, BLOCK_NUM_FIRST_METAROOT *)
Definition BLOCK_NUM_MASTER : N := 0.
Definition BLOCK_NUM_FIRST_METAROOT : N := 1.
(** imapextern.c:427-453 RedImapNodeBlock: [w] is the toggle bit of the node in the metaroot. *)
Definition RedImapNodeBlock (g : geom) (node : N) (w : bool) : N :=
  u32 (u32 (ge_imap g + u32 (node * 2)) + (if w then 1 else 0)).
(** inode.c:1129-1137 InodeBlock *)
Definition InodeBlock (g : geom) (ino : N) (w : bool) : N :=
  u32 (u32 (ge_itab g + u32 ((ino - 2) * 2)) + (if w then 1 else 0)).
(** redcoremacs.h:73 INODE_IS_VALID (uint32_t arithmetic) *)
Definition INODE_IS_VALID (k : vconf) (ino : N) : bool :=
  (2 <=? ino) && (ino <? u32 (2 + k_icount k)).
