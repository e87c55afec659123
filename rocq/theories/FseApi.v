(** Model of fse/fse.c as a whole: initialisation and several volumes.  The operating system's mutex and clock
    functions always succeed (their failures are not modelled), and the volume configuration passes the checks of
    RedCoreInit. *)
From Verif Require Import Base FsState FsMach FsVolume FsReach FseSpec FseVol FseReach.

Record fsys := mkFsys { fy_init : bool; fy_vol : N -> vol }.
(** One call of the API and its result. *)
Inductive ycall := YInit | YUninit | YCall (n : N) (c : fcall).
Inductive yevent := YECall (c : ycall) (r : res fout) | YECrash (c : option ycall).

Section Sys.
Variable NVOL : N.               (* REDCONF_VOLUME_COUNT *)
Variable gs : N -> cfg.          (* the volumes' configurations *)
Variable atom : bool.
Variable MOUNT_MASK TRANSACT_MASK TRANSACT_DEFAULT : N.
Notation boot := (boot TRANSACT_DEFAULT).

(** fse.c:310-317, 385-392: the only check before FseEnter. *)
Definition toolong (c : fcall) : bool := match c with FRead _ _ len | FWrite _ _ len _ => INT32_MAX <? len | _ => false end.
Definition setvol (n : N) (v : vol) (y : fsys) : fsys := mkFsys (fy_init y) (upd (fy_vol y) n v).
(** fse.c:64-83 RedFseInit, core.c:79-190 RedCoreInit: the volume structures are cleared, buffers are emptied, the
    transaction mask gets its default. *)
Definition RedFseInit (y : fsys) : res fout * fsys :=
  if fy_init y then (Ok FUnit, y)
  else (Ok FUnit, mkFsys true (fun n => boot (v_d (fy_vol y n)))).
(** fse.c:103-144 RedFseUninit; the loop over the volumes as a search for a mounted one. *)
Fixpoint any_mounted (k : nat) (y : fsys) : bool :=
  match k with O => false | S k => any_mounted k y || v_mnt (fy_vol y (N.of_nat k)) end.
Definition RedFseUninit (y : fsys) : res fout * fsys :=
  if negb (fy_init y) then (Ok FUnit, y)
  else if any_mounted (N.to_nat NVOL) y then (Err EBUSY, y)
  else (Ok FUnit, mkFsys false (fy_vol y)).
(** fse.c:683-712 FseEnter; core.c:236-259 RedCoreVolSetCurrent; then the call on the current volume. *)
Definition FseCall (n : N) (c : fcall) (o1 o2 : oracle) (y : fsys) : res fout * fsys * list snap :=
  if toolong c then (Err EINVAL, y, [])
  else if negb (fy_init y) then (Err EINVAL, y, [])
  else if NVOL <=? n then (Err EINVAL, y, [])
  else let '(r, v, t) := fexec (gs n) atom MOUNT_MASK TRANSACT_MASK c o1 o2 (fy_vol y n) in (r, setvol n v y, t).

(** What may happen to the system.  A power loss hits all volumes: the volume [n] being worked on is in one of the
    states of the call's trace, the others have their dirty buffers partly written. *)
Definition lost (v : vol) (d' : dev) : Prop := exists d, mayhap (dirty v) (v_d v) d /\ lose atom d d'.
Inductive ystep : fsys -> option yevent -> fsys -> Prop :=
| Y_init y r y' : RedFseInit y = (r, y') -> ystep y (Some (YECall YInit r)) y'
| Y_uninit y r y' : RedFseUninit y = (r, y') -> ystep y (Some (YECall YUninit r)) y'
| Y_call y n c o1 o2 r y' t : (fy_init y = true -> n < NVOL -> toolong c = false -> fallowed (fy_vol y n) c /\ room (fy_vol y n) o1 o2) -> FseCall n c o1 o2 y = (r, y', t) ->
    ystep y (Some (YECall (YCall n c) r)) y'
| Y_crash y n c o1 o2 r y' t sn d ds : fallowed (fy_vol y n) c -> room (fy_vol y n) o1 o2 -> FseCall n c o1 o2 y = (r, y', t) ->
    In sn t -> sn d -> lose atom d (ds n) -> (forall m, m <> n -> lost (fy_vol y m) (ds m)) ->
    ystep y (Some (YECrash (Some (YCall n c)))) (mkFsys false (fun m => boot (ds m)))
| Y_lost y ds : (forall m, lost (fy_vol y m) (ds m)) -> ystep y (Some (YECrash None)) (mkFsys false (fun m => boot (ds m)))
(* buffers are shared: working on one volume may write dirty buffers of another *)
| Y_back y n v' : fstep (gs n) atom MOUNT_MASK TRANSACT_MASK TRANSACT_DEFAULT (fy_vol y n) None v' -> ystep y None (setvol n v' y).
Inductive ysteps : fsys -> list yevent -> fsys -> Prop :=
| Ys_nil y : ysteps y [] y
| Ys_cons y e y1 t y2 : ystep y (Some e) y1 -> ysteps y1 t y2 -> ysteps y (e :: t) y2
| Ys_back y y1 t y2 : ystep y None y1 -> ysteps y1 t y2 -> ysteps y t y2.
End Sys.
