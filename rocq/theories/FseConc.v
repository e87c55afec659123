(** FSE calls of several tasks at the same time (C47).

    Each task runs the code of the API functions in small steps, interleaved in any way: the check of the length, the
    check of gfFseInited (which FseEnter makes before it has the mutex), the acquisition of the mutex, the choice of
    the current volume, the body of the function (RedFseMount and RedFseUnmount look at fMounted first), the release of
    the mutex, the return.  What a body does to the volume is one step (FseVol.v), except that dirty buffers may be
    written, and power may be lost, at any time in between.  RedFseInit and RedFseUninit, which the documentation
    restricts to one task, happen only while no call is under way; [ustep] has RedFseUninit at any time. *)
From Verif Require Import Base FsState FsMach FsVolume FsReach FseSpec FseVol FseReach FseApi.

Inductive tstate :=
| TIdle
| TCall (n : N) (c : fcall)                  (* called *)
| TEnter (n : N) (c : fcall)                 (* fse.c:688 before the check of gfFseInited *)
| TWait (n : N) (c : fcall)                  (* fse.c:691 waiting for the mutex *)
| TCur (n : N) (c : fcall)                   (* fse.c:697 holding the mutex, before RedCoreVolSetCurrent *)
| TFail (n : N) (c : fcall)                  (* fse.c:702 holding the mutex; no such volume *)
| THold (n : N) (c : fcall)                  (* in the function, holding the mutex *)
| TSeen (n : N) (c : fcall) (b : bool)       (* fse.c:173, 223: gpRedVolume->fMounted has been read *)
| TLeave (n : N) (c : fcall) (r : res fout)  (* fse.c:722 before the release of the mutex *)
| TDone (n : N) (c : fcall) (r : res fout).  (* about to return *)
(** [c_cur]: gbRedVolNum and the pointers that go with it. *)
Record cst := mkC { c_y : fsys; c_cur : N; c_lock : option N; c_t : N -> tstate }.
Definition goto (x : cst) (tid : N) (t : tstate) : cst := mkC (c_y x) (c_cur x) (c_lock x) (upd (c_t x) tid t).
Definition set_lock (l : option N) (x : cst) : cst := mkC (c_y x) (c_cur x) l (c_t x).
Definition set_cur (n : N) (x : cst) : cst := mkC (c_y x) n (c_lock x) (c_t x).
Definition set_y (y : fsys) (x : cst) : cst := mkC y (c_cur x) (c_lock x) (c_t x).
(** What can be observed: calls, acquisitions of the mutex, returns, power losses (the call whose body was running).
    [LEnd] marks the step at which the call has its effect; no other use is made of it. *)
Inductive lbl :=
| LInv (tid n : N) (c : fcall) | LAcq (tid n : N) (c : fcall) | LEnd (tid n : N) (c : fcall) (r : res fout) | LRet (tid n : N) (c : fcall) (r : res fout)
| LCrash (who : option (N * fcall)) | LInit (r : res fout) | LShut (r : res fout).

Section Conc.
Variable NVOL : N.
Variable gs : N -> cfg.
Variable atom : bool.
Variable MOUNT_MASK TRANSACT_MASK TRANSACT_DEFAULT : N.
Notation boot := (boot TRANSACT_DEFAULT).
Notation lost := (lost atom).

(** The functions that look at fMounted before anything else. *)
Definition looks (c : fcall) : bool := match c with FMount | FUnmount => true | _ => false end.
(** The body on the current volume.  [b]: the value of fMounted that was read. *)
Definition fbody (g : cfg) (c : fcall) (b : bool) (o1 o2 : oracle) : PV fout :=
  match c with
  (* fse.c:173-176 *)
  | FMount => if negb b then fmap_ (fun _ => FUnit) (RedCoreVolMount atom MOUNT_MASK (MOUNT_DEFAULT MOUNT_MASK)) else pret FUnit
  (* fse.c:223-226 *)
  | FUnmount => if b then fmap_ (fun _ => FUnit) (RedCoreVolUnmount o1) else pret FUnit
  | _ => fexec g atom MOUNT_MASK TRANSACT_MASK c o1 o2
  end.
(** The task [tid] is about to run the body, with [b]. *)
Definition ready (t : tstate) (n : N) (c : fcall) (b : bool) : Prop := t = TSeen n c b /\ looks c = true \/ t = THold n c /\ looks c = false.

Inductive cstep (x : cst) (tid : N) : list lbl -> cst -> Prop :=
| K_call n c : c_t x tid = TIdle -> cstep x tid [LInv tid n c] (goto x tid (TCall n c))
(* fse.c:310-317, 385-392 *)
| K_pre n c : c_t x tid = TCall n c -> toolong c = false -> cstep x tid [] (goto x tid (TEnter n c))
| K_long n c : c_t x tid = TCall n c -> toolong c = true -> cstep x tid [LEnd tid n c (Err EINVAL)] (goto x tid (TDone n c (Err EINVAL)))
(* fse.c:683-712 FseEnter *)
| K_check n c : c_t x tid = TEnter n c -> fy_init (c_y x) = true -> cstep x tid [] (goto x tid (TWait n c))
| K_uninit n c : c_t x tid = TEnter n c -> fy_init (c_y x) = false -> cstep x tid [LEnd tid n c (Err EINVAL)] (goto x tid (TDone n c (Err EINVAL)))
| K_acq n c : c_t x tid = TWait n c -> c_lock x = None -> cstep x tid [LAcq tid n c] (goto (set_lock (Some tid) x) tid (TCur n c))
(* core.c:236-259 RedCoreVolSetCurrent *)
| K_cur n c : c_t x tid = TCur n c -> n < NVOL -> cstep x tid [] (goto (set_cur n x) tid (THold n c))
| K_novol n c : c_t x tid = TCur n c -> NVOL <= n -> cstep x tid [] (goto x tid (TFail n c))
| K_rel_fail n c : c_t x tid = TFail n c -> cstep x tid [LEnd tid n c (Err EINVAL)] (goto (set_lock None x) tid (TDone n c (Err EINVAL)))
| K_look n c : c_t x tid = THold n c -> looks c = true -> cstep x tid [] (goto x tid (TSeen n c (v_mnt (fy_vol (c_y x) (c_cur x)))))
| K_body n c b o1 o2 r v t : ready (c_t x tid) n c b ->
    fallowed (fy_vol (c_y x) (c_cur x)) c -> room (fy_vol (c_y x) (c_cur x)) o1 o2 ->
    fbody (gs (c_cur x)) c b o1 o2 (fy_vol (c_y x) (c_cur x)) = (r, v, t) ->
    cstep x tid [LEnd tid n c r] (goto (set_y (setvol (c_cur x) v (c_y x)) x) tid (TLeave n c r))
(* fse.c:717-724 FseLeave *)
| K_leave n c r : c_t x tid = TLeave n c r -> cstep x tid [] (goto (set_lock None x) tid (TDone n c r))
| K_ret n c r : c_t x tid = TDone n c r -> cstep x tid [LRet tid n c r] (goto x tid TIdle)
(* power loss while [tid] runs its body *)
| K_crash n c b o1 o2 r v t sn d ds : ready (c_t x tid) n c b ->
    fallowed (fy_vol (c_y x) (c_cur x)) c -> room (fy_vol (c_y x) (c_cur x)) o1 o2 ->
    fbody (gs (c_cur x)) c b o1 o2 (fy_vol (c_y x) (c_cur x)) = (r, v, t) ->
    In sn t -> sn d -> lose atom d (ds (c_cur x)) -> (forall m, m <> c_cur x -> lost (fy_vol (c_y x) m) (ds m)) ->
    cstep x tid [LCrash (Some (n, c))] (mkC (mkFsys false (fun m => boot (ds m))) 0 None (fun _ => TIdle))
(* power loss at any other time *)
| K_lost ds : (forall m, lost (fy_vol (c_y x) m) (ds m)) ->
    cstep x tid [LCrash None] (mkC (mkFsys false (fun m => boot (ds m))) 0 None (fun _ => TIdle))
(* RedFseInit and RedFseUninit while no call is under way *)
| K_init r y' : c_lock x = None -> (forall t, c_t x t = TIdle) -> RedFseInit TRANSACT_DEFAULT (c_y x) = (r, y') -> cstep x tid [LInit r] (set_y y' x)
| K_shut r y' : c_lock x = None -> (forall t, c_t x t = TIdle) -> RedFseUninit NVOL (c_y x) = (r, y') -> cstep x tid [LShut r] (set_y y' x)
(* the buffers are shared by all volumes: dirty ones may be written whenever the mutex is held *)
| K_back m v' : c_lock x = Some tid -> fstep (gs m) atom MOUNT_MASK TRANSACT_MASK TRANSACT_DEFAULT (fy_vol (c_y x) m) None v' ->
    cstep x tid [] (set_y (setvol m v' (c_y x)) x).
(** Any schedule of the tasks; the trace in the order of the steps. *)
Inductive csteps : cst -> list lbl -> cst -> Prop :=
| Ks_nil x : csteps x [] x
| Ks_step x t x1 tid l x2 : csteps x t x1 -> cstep x1 tid l x2 -> csteps x (t ++ l) x2.
(** No task is in a call. *)
Definition at_rest (x : cst) : Prop := c_lock x = None /\ forall t, c_t x t = TIdle.
Definition idle (y : fsys) (cur : N) : cst := mkC y cur None (fun _ => TIdle).

(** The same with RedFseUninit, called by any task that is not in a call: it checks gfFseInited, then acquires and
    releases the mutex (fse.c:103-144), here in one step. *)
Inductive ustep (x : cst) (tid : N) : list lbl -> cst -> Prop :=
| U_step l x' : cstep x tid l x' -> ustep x tid l x'
| U_uninit r y' : c_t x tid = TIdle -> c_lock x = None -> RedFseUninit NVOL (c_y x) = (r, y') -> ustep x tid [LShut r] (set_y y' x).
Inductive usteps : cst -> list lbl -> cst -> Prop :=
| Us_nil x : usteps x [] x
| Us_step x t x1 tid l x2 : usteps x t x1 -> ustep x1 tid l x2 -> usteps x (t ++ l) x2.

(** The calls in the order of their effects, as a history of the serial API (FseApi.v). *)
Fixpoint ends (t : list lbl) : list yevent :=
  match t with
  | [] => []
  | LEnd _ n c r :: t => YECall (YCall n c) r :: ends t
  | LCrash (Some (n, c)) :: t => YECrash (Some (YCall n c)) :: ends t
  | LCrash None :: t => YECrash None :: ends t
  | LInit r :: t => YECall YInit r :: ends t
  | LShut r :: t => YECall YUninit r :: ends t
  | _ :: t => ends t
  end.
End Conc.
