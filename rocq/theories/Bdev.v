(** Model of core/driver/blockio.c and bdev/bdev.c (sector transfers and retries).

    The media is an array of bytes.  The OS layer (os/*/services/osbdev.c) is replaced by an
    arbitrary sequence of outcomes [fault]: the n-th device call succeeds, or fails with an
    arbitrary error, leaving arbitrary bytes in the sectors that were being written. *)
From Verif Require Import Base Geometry.

Inductive outcome := Good | Bad (e : errno) (junk : N -> N).

(** A request that reached the OS layer. *)
Inductive devreq := DRead (start count : N) | DWrite (start count : N) | DFlush.

Record dev := mkDev { d_media : N -> N; d_log : list devreq; d_calls : N }.

Section Bdev.
Variable fault : N -> outcome.
Variable NV : N.                  (* REDCONF_VOLUME_COUNT *)
Variable conf : N -> vconf.       (* gaRedVolConf *)
Variable info : N -> bdevinfo.    (* gaRedBdevInfo *)
Variable geo : N -> geom.         (* gaRedVolume *)
Variable retries : N -> N.        (* bBlockIoRetries *)

Definition called (r : devreq) (m : N -> N) (d : dev) : dev := mkDev m (d_log d ++ [r]) (d_calls d + 1).

(** the bytes of [count] sectors of [ssz] bytes, from sector [start], replaced by [buf] *)
Definition put_sectors (ssz start count : N) (buf m : N -> N) : N -> N := fun a =>
  if (start * ssz <=? a) && (a <? (start + count) * ssz) then buf (a - start * ssz) else m a.

(** include/redbdev.h RedOsBDevRead: the caller's buffer [buf] filled from the media *)
Definition RedOsBDevRead (v start count : N) (buf : N -> N) (d : dev) : res (N -> N) * dev :=
  let d' := called (DRead start count) (d_media d) d in
  match fault (d_calls d) with
  | Good => (Ok (fun x => if x <? count * bi_ssize (info v) then d_media d (start * bi_ssize (info v) + x) else buf x), d')
  | Bad e _ => (Err e, d')
  end.
(** include/redbdev.h RedOsBDevWrite *)
Definition RedOsBDevWrite (v start count : N) (buf : N -> N) (d : dev) : res unit * dev :=
  match fault (d_calls d) with
  | Good => (Ok tt, called (DWrite start count) (put_sectors (bi_ssize (info v)) start count buf (d_media d)) d)
  | Bad e j => (Err e, called (DWrite start count) (put_sectors (bi_ssize (info v)) start count j (d_media d)) d)
  end.
(** include/redbdev.h RedOsBDevFlush *)
Definition RedOsBDevFlush (v : N) (d : dev) : res unit * dev :=
  (match fault (d_calls d) with Good => Ok tt | Bad e _ => Err e end, called DFlush (d_media d) d).

(** include/redmacs.h:200-202 VOLUME_SECTOR_RANGE_IS_VALID; the subtraction is unsigned 64-bit. *)
Definition RANGE_IS_VALID (v start count : N) : bool :=
  (k_soff (conf v) <=? start)
  && (count <=? u64 (SECTOR_LIMIT (conf v) (info v) + 18446744073709551616 - start)).

(** bdev/bdev.c:216-237 RedBDevRead; a buffer pointer is never NULL in the model. *)
Definition RedBDevRead (v start count : N) (buf : N -> N) (d : dev) : res (N -> N) * dev :=
  if (NV <=? v) || negb (RANGE_IS_VALID v start count) then (Err EINVAL, d) else RedOsBDevRead v start count buf d.
(** bdev/bdev.c:259-280 RedBDevWrite *)
Definition RedBDevWrite (v start count : N) (buf : N -> N) (d : dev) : res unit * dev :=
  if (NV <=? v) || negb (RANGE_IS_VALID v start count) then (Err EINVAL, d) else RedOsBDevWrite v start count buf d.
(** bdev/bdev.c:303-318 RedBDevFlush *)
Definition RedBDevFlush (v : N) (d : dev) : res unit * dev :=
  if NV <=? v then (Err EINVAL, d) else RedOsBDevFlush v d.

(** blockio.c:83-91, 141-149, 184-192: the retry loop; [i] is the uint8_t index bRetryIdx.
    [n] bounds the iterations; [None]: still running after [n] iterations.
    [last] is the value of [ret] (0 before the first iteration, which always takes place). *)
Fixpoint retry {A} (n : nat) (call : dev -> res A * dev) (r i : N) (last : res A) (d : dev) : option (res A * dev) :=
  match n with
  | O => None
  | S m =>
    if i <=? r then
      match call d with
      | (Ok a, d') => Some (Ok a, d')
      | (Err e, d') => retry m call r (u8 (i + 1)) (Err e) d'
      end
    else Some (last, d)
  end.

(** Result of a block I/O function: the status, the device, and whether CRITICAL_ASSERT(ret == 0)
    fired (RedVolCriticalError: the current volume becomes read-only). *)
Definition ioret A : Type := option (res A * dev * bool).
Definition finish {A} (x : option (res A * dev)) : ioret A :=
  match x with
  | None => None
  | Some (Ok a, d) => Some (Ok a, d, false)
  | Some (Err e, d) => Some (Err e, d, true)
  end.

(** blockio.c:64-68, 122-126: the parameter check *)
Definition io_bad (v block count : N) : bool :=
  (NV <=? v) || (ge_bc (geo v) <=? block) || (ge_bc (geo v) - block <? count) || (count =? 0).
(** blockio.c:75-77, 133-135 *)
Definition io_start (v block : N) : N := u64 (u64 (N.shiftl block (ge_shift (geo v))) + k_soff (conf v)).
Definition io_count (v count : N) : N := u32 (N.shiftl count (ge_shift (geo v))).

(** core/driver/blockio.c:56-97 RedIoRead *)
Definition RedIoRead (fuel : nat) (v block count : N) (buf : N -> N) (d : dev) : ioret (N -> N) :=
  if io_bad v block count then finish (Some (Err EINVAL, d))
  else finish (retry fuel (RedBDevRead v (io_start v block) (io_count v count) buf) (retries v) 0 (Err EINVAL) d).
(** core/driver/blockio.c:114-155 RedIoWrite *)
Definition RedIoWrite (fuel : nat) (v block count : N) (buf : N -> N) (d : dev) : ioret unit :=
  if io_bad v block count then finish (Some (Err EINVAL, d))
  else finish (retry fuel (RedBDevWrite v (io_start v block) (io_count v count) buf) (retries v) 0 (Err EINVAL) d).
(** core/driver/blockio.c:169-198 RedIoFlush *)
Definition RedIoFlush (fuel : nat) (v : N) (d : dev) : ioret unit :=
  if NV <=? v then finish (Some (Err EINVAL, d))
  else finish (retry fuel (RedBDevFlush v) (retries v) 0 (Err EINVAL) d).
End Bdev.
